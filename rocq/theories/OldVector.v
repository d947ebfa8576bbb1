(** Model of deprecated/daw_vector.h: Vector with MallocAlloc.  No proofs in this file. *)
From Verif Require Import Common.
Open Scope nat_scope.

(** A block of memory: what malloc_usable_size gives for it, and its cells, each empty or
    with an object. *)
Record block (T : Type) := Block { bytes : nat; cells : list (option T) }.
Arguments Block {T}. Arguments bytes {T}. Arguments cells {T}.
(** The blocks allocated so far; None: deallocated. *)
Definition memory (T : Type) : Type := list (option (block T)).
(** 272-274: m_first as the number of a block, m_size and m_capacity as distances. *)
Record vec := Vec { first : option nat; len : nat; room : nat }.
(** 386: the empty Vector. *)
Definition v_empty : vec := Vec None 0 0.

Inductive vop (T : Type) : Type :=
| PushBack (v : T) | PushSelf (i : nat) | PopBack | Clear | Resize (n : nat) | Reserve (n : nat)
| Insert (at_ : nat) (vs : list T) | Write (i : nat) (v : T).
Arguments PushBack {T}. Arguments PushSelf {T}. Arguments PopBack {T}. Arguments Clear {T}. Arguments Resize {T}.
Arguments Reserve {T}. Arguments Insert {T}. Arguments Write {T}.

Section OldVector.
  (** [esize] is sizeof( T ), [page] the page size; [usable n] is what malloc( n ) provides;
      [trivial]: T is trivially copyable and destructible, so that assignment to raw memory
      is allowed; [moved v] is what is left when [v] is moved from; [dflt] is T{ }. *)
  Context {T : Type} (esize page : nat) (usable : nat -> nat) (trivial : bool) (moved : T -> T) (dflt : T).
  Notation mem := (memory T).

  (** 78-92.  The result of the computation with double is exact up to 2^53, which is
      assumed: std::round( sz / page_size + 0.5 ) is the floor plus one. *)
  Definition round_to_page_size (sz : nat) : nat := (sz / page + 1) * page.
  (** 160-174 allocate_raw and allocate; 197-199 deallocate.  malloc does not fail. *)
  Definition allocate_raw (h : mem) (count : nat) : mem * nat :=
    let b := usable (round_to_page_size count) in
    (h ++ [Some (Block b (repeat None (b / esize)))], length h).
  Definition allocate (h : mem) (count : nat) : mem * nat := allocate_raw h (esize * count).
  Definition deallocate (h : mem) (p : option nat) : res mem :=
    match p with
    | None => Ok h
    | Some a => match nth_error h a with Some (Some _) => Ok (upd h a None) | _ => UB end
    end.
  (** 176-182; malloc_usable_size is taken to be there. *)
  Definition alloc_size (h : mem) (p : option nat) : nat :=
    match p with
    | None => 0
    | Some a => match nth_error h a with Some (Some b) => bytes b | _ => 0 end
    end.
  (** 185-195.  realloc to a smaller size is taken to keep the block as it is. *)
  Definition reallocate (h : mem) (p : option nat) (new_size : nat) : mem * option nat :=
    if new_size <? alloc_size h p / esize then (h, p)
    else let (h, a) := allocate_raw h (esize * new_size) in (h, Some a).

  (** Objects in memory: reading one, creating or replacing one, destroying one. *)
  Definition cell (h : mem) (p : option nat) (i : nat) : res (option T) :=
    match p with
    | None => UB
    | Some a => match nth_error h a with Some (Some b) => rd (cells b) i | _ => UB end
    end.
  Definition load (h : mem) (p : option nat) (i : nat) : res T :=
    c <- cell h p i ;; match c with Some v => Ok v | None => UB end.
  Definition set_cell (h : mem) (p : option nat) (i : nat) (c : option T) : res mem :=
    match p with
    | None => UB
    | Some a =>
        match nth_error h a with
        | Some (Some b) => if i <? length (cells b) then Ok (upd h a (Some (Block (bytes b) (upd (cells b) i c)))) else UB
        | _ => UB
        end
    end.
  Definition construct_at (h : mem) (p : option nat) (i : nat) (v : T) : res mem := set_cell h p i (Some v).
  Definition assign_at (h : mem) (p : option nat) (i : nat) (v : T) : res mem :=
    c <- cell h p i ;;
    match c with
    | Some _ => set_cell h p i (Some v)
    | None => if trivial then set_cell h p i (Some v) else UB
    end.
  Definition destroy_at (h : mem) (p : option nat) (i : nat) : res mem :=
    _ <- load h p i ;; set_cell h p i None.

  (** 300-313 relocate: memcpy, moves or copies of the [n] first objects; [keeps v] is what
      is left in the source. *)
  Fixpoint relocate (keeps : T -> T) (h : mem) (src : option nat) (k n : nat) (dst : option nat) : res mem :=
    match n with
    | O => Ok h
    | S n =>
        v <- load h src k ;; h <- construct_at h dst k v ;; h <- set_cell h src k (Some (keeps v)) ;;
        relocate keeps h src (S k) n dst
    end.
  (** 419-423 clear. *)
  Fixpoint destroy_n (h : mem) (p : option nat) (n : nat) : res mem :=
    match n with
    | O => Ok h
    | S n => h <- destroy_at h p n ;; destroy_n h p n
    end.
  Definition v_clear (h : mem) (v : vec) : res (mem * vec) :=
    h <- destroy_n h (first v) (len v) ;; Ok (h, Vec (first v) 0 (room v)).
  (** 288-298. *)
  Definition calc_new_size (h : mem) (v : vec) (sz : nat) : nat :=
    let avail := alloc_size h (first v) in
    if sz <=? avail then avail else round_to_page_size (Nat.max sz (room v * 2)).
  (** 345-381; destroying trivial objects does nothing that can be observed. *)
  Fixpoint shrink (h : mem) (v : vec) (n : nat) : res (mem * vec) :=
    match n with
    | O => Ok (h, v)
    | S n => h <- destroy_at h (first v) (len v - 1) ;; shrink h (Vec (first v) (len v - 1) (room v)) n
    end.
  Definition resize_impl (h : mem) (v : vec) (sz : nat) : res (mem * vec) :=
    if sz <=? len v then shrink h v (len v - sz)
    else if room v <=? sz then
      let new_size := calc_new_size h v sz in
      let (h, new_ptr) := reallocate h (first v) new_size in
      if match new_ptr, first v with Some a, Some b => a =? b | None, None => true | _, _ => false end
      then Ok (h, Vec (first v) (len v) new_size)
      else
        h <- relocate moved h (first v) 0 (len v) new_ptr ;;
        ' (h, w) <- v_clear h v ;;
        h <- deallocate h (first v) ;;
        Ok (h, Vec new_ptr (len v) new_size)
    else Ok (h, v).

  (** 411-417, 462-464, 478-479: from the elements of a range. *)
  Fixpoint assign_all (h : mem) (p : option nat) (k : nat) (vs : list T) : res mem :=
    match vs with
    | [] => Ok h
    | v :: vs => h <- assign_at h p k v ;; assign_all h p (S k) vs
    end.
  Definition v_range (h : mem) (vs : list T) : res (mem * vec) :=
    let c := round_to_page_size (length vs) in
    let (h, a) := allocate h c in
    h <- assign_all h (Some a) 0 vs ;; Ok (h, Vec (Some a) (length vs) c).
  (** 392-396 move construction, 398-407 move assignment (of another Vector). *)
  Definition v_move (v : vec) : vec * vec := (v, v_empty).
  Definition v_move_assign (h : mem) (v rhs : vec) : res (mem * vec * vec) :=
    ' (h, _) <- v_clear h v ;; Ok (h, rhs, v_empty).
  (** 425-430. *)
  Definition v_destroy (h : mem) (v : vec) : res mem :=
    ' (h, v) <- v_clear h v ;; deallocate h (first v).
  (** 276-281, 432-437 copy construction, 439-448 copy assignment (of another Vector). *)
  Fixpoint copy_cells (h : mem) (src : option nat) (k n : nat) (dst : option nat) : res mem :=
    match n with
    | O => Ok h
    | S n => v <- load h src k ;; h <- construct_at h dst k v ;; copy_cells h src (S k) n dst
    end.
  Definition v_copy (h : mem) (other : vec) : res (mem * vec) :=
    let (h, a) := allocate h (len other) in
    h <- copy_cells h (first other) 0 (len other) (Some a) ;;
    Ok (h, Vec (Some a) (len other) (room other)).
  Definition v_copy_assign (h : mem) (v rhs : vec) : res (mem * vec) :=
    ' (h, _) <- v_clear h v ;; v_copy h rhs.

  (** 516-522, 494-498, 524-535: pop_back and resize; resize( n, value ) does not compile. *)
  Definition v_pop_back (h : mem) (v : vec) : res (mem * vec) :=
    if len v =? 0 then UB
    else h <- destroy_at h (first v) (len v - 1) ;; Ok (h, Vec (first v) (len v - 1) (room v)).
  Definition v_resize (h : mem) (v : vec) (sz : nat) : res (mem * vec) :=
    ' (h, v) <- resize_impl h v sz ;;
    h <- assign_all h (first v) (len v) (repeat dflt (sz - len v)) ;;
    Ok (h, Vec (first v) sz (room v)).
  (** 574-578. *)
  Definition v_reserve (h : mem) (v : vec) (n : nat) : res (mem * vec) :=
    if room v <? n then resize_impl h v n else Ok (h, v).
  (** 579-591 push_back; emplace_back does not compile. *)
  Definition v_push_back (h : mem) (v : vec) (x : T) : res (mem * vec) :=
    ' (h, v) <- (if room v <=? len v then resize_impl h v (len v + 1) else Ok (h, v)) ;;
    h <- construct_at h (first v) (len v) x ;; Ok (h, Vec (first v) (len v + 1) (room v)).
  (** push_back( v[i] ): the reference is to the memory before the call. *)
  Definition v_push_self (h : mem) (v : vec) (i : nat) : res (mem * vec) :=
    let p := first v in
    ' (h, v) <- (if room v <=? len v then resize_impl h v (len v + 1) else Ok (h, v)) ;;
    x <- load h p i ;;
    h <- construct_at h (first v) (len v) x ;; Ok (h, Vec (first v) (len v + 1) (room v)).

  (** 315-343 overlapped_relocate: the loop, with sfirst = slast + n - 1 for n rounds. *)
  Fixpoint overlap_loop (h : mem) (p : option nat) (slast insert_size n : nat) : res mem :=
    match n with
    | O => Ok h
    | S n =>
        v <- load h p (slast + n) ;;
        h <- construct_at h p (slast + n + insert_size) v ;;
        h <- set_cell h p (slast + n) (Some (moved v)) ;;
        overlap_loop h p slast insert_size n
    end.
  (** reloc_size is computed with unsigned numbers and slast = range_size - reloc_size, so
      that slast is insert_size also when reloc_size wraps. *)
  Definition overlapped_relocate (h : mem) (p : option nat) (range_size insert_size : nat) : res mem :=
    if insert_size =? 0 then Ok h else overlap_loop h p insert_size insert_size (range_size - insert_size).
  (** 633-636, 658-684: insert of elements that are not in the Vector. *)
  Definition v_insert (h : mem) (v : vec) (where_idx : nat) (vs : list T) : res (mem * vec) :=
    if len v <? where_idx then UB else
    let old_size := len v in
    let needed_size := length vs + old_size in
    ' (h, v) <- (if room v <=? needed_size then resize_impl h v needed_size else Ok (h, v)) ;;
    h <- (if where_idx <? old_size then overlapped_relocate h (first v) old_size (length vs) else Ok h) ;;
    h <- assign_all h (first v) where_idx vs ;;
    Ok (h, Vec (first v) needed_size (room v)).
  (** 500-514, 625-631: operator[], back and assignment to an element. *)
  Definition v_get (h : mem) (v : vec) (i : nat) : res T := load h (first v) i.
  Definition v_back (h : mem) (v : vec) : res T := if len v =? 0 then UB else load h (first v) (len v - 1).
  Definition v_write (h : mem) (v : vec) (i : nat) (x : T) : res (mem * vec) :=
    _ <- load h (first v) i ;; h <- assign_at h (first v) i x ;; Ok (h, v).

  Definition v_step (s : mem * vec) (o : vop T) : res (mem * vec) :=
    let (h, v) := s in
    match o with
    | PushBack x => v_push_back h v x
    | PushSelf i => v_push_self h v i
    | PopBack => v_pop_back h v
    | Clear => v_clear h v
    | Resize n => v_resize h v n
    | Reserve n => v_reserve h v n
    | Insert i vs => v_insert h v i vs
    | Write i x => v_write h v i x
    end.
  Fixpoint v_run (os : list (vop T)) (s : mem * vec) : res (mem * vec) :=
    match os with
    | [] => Ok s
    | o :: os => s <- v_step s o ;; v_run os s
    end.

  (** 686-702 operator== and operator!=; [eqb] compares elements.  std::equal reads the
      second Vector as far as the first one goes, but stops at the first mismatch. *)
  Fixpoint std_equal (f : T -> T -> bool) (h : mem) (p q : option nat) (k n : nat) : res bool :=
    match n with
    | O => Ok true
    | S n => x <- load h p k ;; y <- load h q k ;; if f x y then std_equal f h p q (S k) n else Ok false
    end.
  Definition v_eq (eqb : T -> T -> bool) (h : mem) (v w : vec) : res bool :=
    if len v =? len w then std_equal eqb h (first v) (first w) 0 (len v) else Ok false.
  Definition v_ne (eqb : T -> T -> bool) (h : mem) (v w : vec) : res bool :=
    if len v =? len w then Ok false
    else std_equal (fun x y => negb (eqb x y)) h (first v) (first w) 0 (len v).
End OldVector.
