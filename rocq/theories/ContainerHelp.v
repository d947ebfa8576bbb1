(** Model of daw_container_help.h (impl/daw_container_help_impl.h, impl/daw_container_help_vector.h),
    of daw_inserter.h and of compressed_pair.h.  No proofs in this file. *)
From Verif Require Import Common.

(** * Extracting and inserting the buffer of a std::vector *)
(** A block of the allocator: still allocated?  The objects in it, [None] where there is none. *)
Definition block := (bool * list (option Z))%type.
Inductive owner_kind := IsVec | IsData.
(** A std::vector or a container_data (impl/daw_container_help_impl.h lines 56-93): the buffer
    ([None] is the null pointer), the number of elements and the capacity.  The allocator is
    stateless, so take_allocator and give_allocator (vector.h lines 178-216) do nothing. *)
Record owner := mk_owner { o_kind : owner_kind; o_buf : option nat; o_size : nat; o_cap : nat }.
Record hst := mk_hst { h_blocks : list block; h_objs : list (option owner) }.
Definition hst0 : hst := mk_hst [] [].

Section Help.
  (** Is T trivially destructible?  Does shrink_to_fit, which is a request, free the buffer of
      an empty vector? *)
  Variables trivial honoured : bool.

  (** The destructor of the objects at count - 1, ..., 0: undefined where there is no object. *)
  Fixpoint destroy_down (cells : list (option Z)) (count : nat) : res (list (option Z)) :=
    match count with
    | 0 => Ok cells
    | S c => match nth_error cells c with
             | Some (Some _) => destroy_down (upd cells c None) c
             | _ => UB
             end
    end.
  (** deallocate( p, n ): the block must be allocated and have n elements. *)
  Definition dealloc (bs : list block) (b n : nat) : res (list block) :=
    match nth_error bs b with
    | Some (true, cells) => if Nat.eqb n (length cells) then Ok (upd bs b (false, cells)) else UB
    | _ => UB
    end.
  (** Destroying the first [n] elements of a block. *)
  Definition destroy_n (bs : list block) (b n : nat) : res (list block) :=
    match nth_error bs b with
    | Some (true, cells) =>
        if trivial then Ok bs else cells <- destroy_down cells n ;; Ok (upd bs b (true, cells))
    | _ => UB
    end.
  (** container_deleter::operator( ), impl.h lines 43-53: destroys [capacity] objects. *)
  Definition deleter (bs : list block) (b capacity : nat) : res (list block) :=
    bs <- destroy_n bs b capacity ;; dealloc bs b capacity.
  (** reset of a container_data, impl.h lines 89-92, and its destructor: the unique_ptr calls
      the deleter, which sets capacity to 0, when the pointer is not null. *)
  Definition data_reset (bs : list block) (d : owner) : res (list block * owner) :=
    match o_buf d with
    | None => Ok (bs, mk_owner (o_kind d) None 0 (o_cap d))
    | Some b => bs <- deleter bs b (o_cap d) ;; Ok (bs, mk_owner (o_kind d) None 0 0)
    end.
  (** The destructor of a vector (standard library). *)
  Definition vec_destroy (bs : list block) (v : owner) : res (list block) :=
    match o_buf v with
    | None => Ok bs
    | Some b => bs <- destroy_n bs b (o_size v) ;; dealloc bs b (o_cap v)
    end.
  (** extract_from_container_t<std::vector>::operator( ), vector.h lines 286-298, with
      take_buffer, lines 193-200: the vector afterwards and the container_data. *)
  Definition extract (v : owner) : owner * owner :=
    (mk_owner IsVec None 0 0, mk_owner IsData (o_buf v) (o_size v) (o_cap v)).
  (** insert_into_container_t<std::vector>::operator( ), vector.h lines 309-331: clear when not
      empty, shrink_to_fit, extract and drop what is left, then take the buffer. *)
  Definition insert_into (bs : list block) (v : owner) (buff : nat) (capacity size : nat) : res (list block * owner) :=
    (* clear *)
    bs <- (if Nat.eqb (o_size v) 0 then Ok bs
           else match o_buf v with Some b => destroy_n bs b (o_size v) | None => Ok bs end) ;;
    let v := mk_owner IsVec (o_buf v) 0 (o_cap v) in
    (* shrink_to_fit *)
    '(bs, v) <- (if honoured then
                   match o_buf v with
                   | Some b => bs <- dealloc bs b (o_cap v) ;; Ok (bs, mk_owner IsVec None 0 0)
                   | None => Ok (bs, v)
                   end
                 else Ok (bs, v)) ;;
    '(bs, v) <- (if Nat.ltb 0 (o_cap v) then
                   let '(v, d) := extract v in '(bs, _) <- data_reset bs d ;; Ok (bs, v)
                 else Ok (bs, v)) ;;
    (* give_buffer: assert( m_first == pointer( ) ) *)
    match o_buf v with
    | Some _ => Throw
    | None => Ok (bs, mk_owner IsVec (Some buff) size capacity)
    end.

  (** The operations of a client; those on an object that is not there do nothing. *)
  Inductive hop :=
  | HNew (vs : list Z) (cap : nat)            (* a vector with these elements and this capacity *)
  | HExtract (i : nat)                        (* auto d = extract_from_container( vec ) *)
  | HReset (i : nat)                          (* d.reset( ) *)
  | HDestroy (i : nat)                        (* the destructor of the vector or of d *)
  | HGive (i : nat) (vs : list Z) (cap : nat) (* insert_into_container of a buffer the client made *)
  | HGiveData (i j : nat).                    (* insert_into_container of d.data( ), d.capacity( ), d.size( ) *)
  Definition filled (vs : list Z) (cap : nat) : block := (true, map Some vs ++ repeat None (cap - length vs)).
  Definition get_obj (s : hst) (i : nat) : option owner :=
    match nth_error (h_objs s) i with Some o => o | None => None end.
  Definition hstep (s : hst) (o : hop) : res hst :=
    match o with
    | HNew vs cap =>
        if Nat.ltb cap (length vs) then Ok s
        else if Nat.eqb cap 0 then Ok (mk_hst (h_blocks s) (h_objs s ++ [Some (mk_owner IsVec None 0 0)]))
        else Ok (mk_hst (h_blocks s ++ [filled vs cap])
                        (h_objs s ++ [Some (mk_owner IsVec (Some (length (h_blocks s))) (length vs) cap)]))
    | HExtract i =>
        match get_obj s i with
        | Some v => match o_kind v with
                    | IsVec => let '(v, d) := extract v in Ok (mk_hst (h_blocks s) (upd (h_objs s) i (Some v) ++ [Some d]))
                    | IsData => Ok s
                    end
        | None => Ok s
        end
    | HReset i =>
        match get_obj s i with
        | Some d => match o_kind d with
                    | IsData => '(bs, d) <- data_reset (h_blocks s) d ;; Ok (mk_hst bs (upd (h_objs s) i (Some d)))
                    | IsVec => Ok s
                    end
        | None => Ok s
        end
    | HDestroy i =>
        match get_obj s i with
        | Some d => match o_kind d with
                    | IsData => '(bs, _) <- data_reset (h_blocks s) d ;; Ok (mk_hst bs (upd (h_objs s) i None))
                    | IsVec => bs <- vec_destroy (h_blocks s) d ;; Ok (mk_hst bs (upd (h_objs s) i None))
                    end
        | None => Ok s
        end
    | HGive i vs cap =>
        if Nat.ltb cap (length vs) || Nat.eqb cap 0 then Ok s
        else match get_obj s i with
             | Some v => match o_kind v with
                         | IsVec =>
                             '(bs, v) <- insert_into (h_blocks s ++ [filled vs cap]) v (length (h_blocks s)) cap (length vs) ;;
                             Ok (mk_hst bs (upd (h_objs s) i (Some v)))
                         | IsData => Ok s
                         end
             | None => Ok s
             end
    | HGiveData i j =>
        match get_obj s i, get_obj s j with
        | Some v, Some d =>
            match o_kind v, o_kind d, o_buf d with
            | IsVec, IsData, Some b =>
                '(bs, v) <- insert_into (h_blocks s) v b (o_cap d) (o_size d) ;;
                Ok (mk_hst bs (upd (h_objs s) i (Some v)))
            | _, _, _ => Ok s
            end
        | _, _ => Ok s
        end
    end.
  Fixpoint hrun (s : hst) (ops : list hop) : res hst :=
    match ops with
    | [] => Ok s
    | o :: ops => s <- hstep s o ;; hrun s ops
    end.
End Help.

(** * inserter_iterator, iterator/daw_inserter.h lines 21-55 *)
Section Inserter.
  Context {C T : Type}.
  (** container.insert( value ). *)
  Variable insert : C -> T -> C.
  (** The operations of an output iterator: * and both ++ return the iterator itself. *)
  Inductive iop := IDeref | IPreInc | IPostInc | IAssign (x : T).
  Definition istep (c : C) (o : iop) : C := match o with IAssign x => insert c x | _ => c end.
  Definition irun (c : C) (ops : list iop) : C := fold_left istep ops c.
  (** for( ; first != last; ++first ) *out++ = *first; *)
  Definition copy_ops (l : list T) : list iop := flat_map (fun x => [IPostInc; IDeref; IAssign x]) l.
End Inserter.
Arguments iop : clear implicits.
(** insert of a std::set<int>: a sorted list without equal elements. *)
Fixpoint set_insert (c : list Z) (x : Z) : list Z :=
  match c with
  | [] => [x]
  | y :: c' => if (x <? y)%Z then x :: y :: c' else if (y <? x)%Z then y :: set_insert c' x else y :: c'
  end.

(** * compressed_pair, compressed_pair.h lines 90-163 *)
(** The objects of type T1 and T2 that the pairs of a program hold; an empty type has one value
    and is stored as a base class (lines 58-88), other types as a member (lines 22-56). *)
Section Pair.
  Context {A B : Type}.
  Inductive pop :=
  | PNew (a : A) (b : B)        (* lines 114-118 *)
  | PFirst (i : nat) (a : A)    (* first( ) = a, lines 128-135 *)
  | PSecond (i : nat) (b : B)   (* second( ) = b, lines 137-144 *)
  | PSwap (i j : nat).          (* lines 156-162 *)
  Definition swap_first (s : list (A * B)) (i j : nat) : res (list (A * B)) :=
    p <- rd s i ;; q <- rd s j ;;
    let s := upd s i (fst q, snd p) in q <- rd s j ;; Ok (upd s j (fst p, snd q)).
  Definition swap_second (s : list (A * B)) (i j : nat) : res (list (A * B)) :=
    p <- rd s i ;; q <- rd s j ;;
    let s := upd s i (fst p, snd q) in q <- rd s j ;; Ok (upd s j (fst q, snd p)).
  Definition pstep (s : list (A * B)) (o : pop) : res (list (A * B)) :=
    match o with
    | PNew a b => Ok (s ++ [(a, b)])
    | PFirst i a => p <- rd s i ;; Ok (upd s i (a, snd p))
    | PSecond i b => p <- rd s i ;; Ok (upd s i (fst p, b))
    | PSwap i j => s <- swap_first s i j ;; swap_second s i j
    end.
  Fixpoint prun (s : list (A * B)) (ops : list pop) : res (list (A * B)) :=
    match ops with [] => Ok s | o :: ops => s <- pstep s o ;; prun s ops end.
End Pair.
Arguments pop : clear implicits.
