(** Model of daw_tuple.h, algorithms/daw_enumerate_tuple.h, daw_bounded_array.h,
    daw_simple_array.h, daw_bit_cast_util.h, daw_print.h, daw_fwd_pack_apply.h and
    daw_bind_front.h.  No proofs in this file. *)
From Verif Require Import Common Ints AlgCompare.
Open Scope nat_scope.

(** * daw_tuple.h *)
Section Tuple.
  Context {V : Type}.
  (** An element: an object in the tuple, or a reference to object [i] of the program, as made
      by tie (229-232), forward_as_tuple (224-227) and make_tuple of a reference_wrapper
      (234-254).  All elements have one type of values [V] (a sum of the types of the program). *)
  Inductive cell := Own (v : V) | Ref (i : nat).
  (** tuple_storage< N, T > (79-96) and tuple_storage< N, T, T1, Ts... > (98-120): every level
      has a tuple_value< N, T >. *)
  Inductive storage := Last (n : nat) (c : cell) | More (n : nat) (c : cell) (rest : storage).
  (** The constructors, 94-95 and 117-119. *)
  Fixpoint store (n : nat) (c : cell) (cs : list cell) : storage :=
    match cs with
    | [] => Last n c
    | c1 :: cs => More n c (store (S n) c1 cs)
    end.
  (** 126-132: without elements the base is tuple_storage_empty, [None]. *)
  Definition tuple := option storage.
  Definition make_tuple (cs : list cell) : tuple := match cs with [] => None | c :: cs => Some (store 0 c cs) end.
  (** get( index_constant< k > ): of the overloads brought in by using declarations (104-106)
      the one of the level with that number; [None]: there is none, the call does not compile. *)
  Fixpoint s_cell (s : storage) (k : nat) : option cell :=
    match s with
    | Last n c => if k =? n then Some c else None
    | More n c rest => if k =? n then Some c else s_cell rest k
    end.
  Fixpoint s_put (s : storage) (k : nat) (c' : cell) : storage :=
    match s with
    | Last n c => if k =? n then Last n c' else s
    | More n c rest => if k =? n then More n c' rest else More n c (s_put rest k c')
    end.
  Fixpoint s_size (s : storage) : nat := match s with Last _ _ => 1 | More _ _ rest => S (s_size rest) end.
  Definition t_size (t : tuple) : nat := match t with None => 0 | Some s => s_size s end.
  Definition t_cell (t : tuple) (k : nat) : option cell := match t with None => None | Some s => s_cell s k end.
  (** Reading through the reference that get< k > (157-175, 209-222) returns.  [mem]: the
      objects of the program. *)
  Definition read (mem : list V) (c : cell) : option V := match c with Own v => Some v | Ref i => nth_error mem i end.
  Definition t_get (mem : list V) (t : tuple) (k : nat) : option V :=
    match t_cell t k with Some c => read mem c | None => None end.
  (** Assigning to it. *)
  Definition t_set (s : list V * tuple) (k : nat) (v : V) : option (list V * tuple) :=
    let (mem, t) := s in
    match t with
    | None => None
    | Some st => match s_cell st k with
                 | Some (Own _) => Some (mem, Some (s_put st k (Own v)))
                 | Some (Ref i) => if i <? length mem then Some (upd mem i v, t) else None
                 | None => None
                 end
    end.
  (** What a program does: assign through get, or to one of its objects. *)
  Inductive top := TSet (k : nat) (v : V) | TMem (i : nat) (v : V).
  Definition t_step (s : list V * tuple) (o : top) : option (list V * tuple) :=
    match o with
    | TSet k v => t_set s k v
    | TMem i v => if i <? length (fst s) then Some (upd (fst s) i v, snd s) else None
    end.
  Fixpoint t_run (s : list V * tuple) (os : list top) : option (list V * tuple) :=
    match os with
    | [] => Some s
    | o :: os => match t_step s o with Some s => t_run s os | None => None end
    end.

  (** and_all and or_all, 140-152: folds over the index sequence, from the left, that stop early.
      The second component counts the comparisons made. *)
  Fixpoint and_all (p : V -> V -> bool) (ix : list nat) (mem : list V) (t u : tuple) : option (bool * nat) :=
    match ix with
    | [] => Some (true, 0)
    | i :: ix =>
        match t_get mem t i, t_get mem u i with
        | Some x, Some y =>
            if p x y then match and_all p ix mem t u with Some (b, n) => Some (b, S n) | None => None end
            else Some (false, 1)
        | _, _ => None
        end
    end.
  Fixpoint or_all (p : V -> V -> bool) (ix : list nat) (mem : list V) (t u : tuple) : option (bool * nat) :=
    match ix with
    | [] => Some (false, 0)
    | i :: ix =>
        match t_get mem t i, t_get mem u i with
        | Some x, Some y =>
            if p x y then Some (true, 1)
            else match or_all p ix mem t u with Some (b, n) => Some (b, S n) | None => None end
        | _, _ => None
        end
    end.
  (** operator==, 177-189, and operator!=, 191-203; [eq] and [ne] are those of the elements. *)
  Definition t_eq (eq : V -> V -> bool) (mem : list V) (t u : tuple) : option (bool * nat) :=
    if t_size t =? t_size u then and_all eq (seq 0 (t_size u)) mem t u else Some (false, 0).
  Definition t_ne (ne : V -> V -> bool) (mem : list V) (t u : tuple) : option (bool * nat) :=
    if t_size t =? t_size u then or_all ne (seq 0 (t_size u)) mem t u else Some (true, 0).

  (** apply, 270-308: the arguments that the function is called with. *)
  Fixpoint get_all (ix : list nat) (mem : list V) (t : tuple) : option (list V) :=
    match ix with
    | [] => Some []
    | i :: ix => match t_get mem t i, get_all ix mem t with Some x, Some xs => Some (x :: xs) | _, _ => None end
    end.
  Definition t_apply {R} (f : list V -> R) (mem : list V) (t : tuple) : option R :=
    match get_all (seq 0 (t_size t)) mem t with Some xs => Some (f xs) | None => None end.
End Tuple.
Arguments cell V : clear implicits.
Arguments storage V : clear implicits.
Arguments tuple V : clear implicits.
Arguments top V : clear implicits.

(** * algorithms/daw_enumerate_tuple.h: get< i > (126-133) of enumerate_tuple< Index > (82-85), and
    operator[] (72-79).  The index is a constant of the type Index.  [None]: does not compile. *)
Definition enum_get {V} (Index : ity) (vals : list V) (i : nat) : option (Z * V) :=
  match nth_error vals i with Some v => Some (conv Index (Z.of_nat i), v) | None => None end.

(** * daw_bounded_array.h; operator[], begin and end are those of daw_simple_array.h (31-80) too *)
Section Array.
  Context {V : Type}.
  (** fill_n of daw_algorithm.h, 1424-1436.  [value] is a reference, read before each assignment. *)
  Fixpoint fill_n_ref (d count : nat) (value : list V -> res V) (a : list V) : res (list V) :=
    match count with
    | 0 => Ok a
    | S c => v <- value a ;; a <- wr a d v ;; fill_n_ref (S d) c value a
    end.
  (** fill, 79-81, with a value outside of the array or with one of its elements. *)
  Definition a_fill (a : list V) (v : V) : res (list V) := fill_n_ref 0 (length a) (fun _ => Ok v) a.
  Definition a_fill_from (a : list V) (k : nat) : res (list V) := fill_n_ref 0 (length a) (fun a => rd a k) a.
  (** 31-45, 91-98. *)
  Definition a_front (a : list V) : res V := rd a 0.
  Definition a_back (a : list V) : res V := rd a (length a - 1).
  Definition a_at (a : list V) (i : nat) : res V := rd a i.
  Inductive aop := AFill (v : V) | AFillFrom (k : nat) | ASet (i : nat) (v : V) | ASetFront (v : V) | ASetBack (v : V).
  Definition a_step (a : list V) (o : aop) : res (list V) :=
    match o with
    | AFill v => a_fill a v
    | AFillFrom k => _ <- rd a k ;; a_fill_from a k
    | ASet i v => wr a i v
    | ASetFront v => wr a 0 v
    | ASetBack v => wr a (length a - 1) v
    end.
  Fixpoint a_run (a : list V) (os : list aop) : res (list V) :=
    match os with [] => Ok a | o :: os => a <- a_step a o ;; a_run a os end.
  (** operator== and operator!=, 101-113. *)
  Definition a_eq (eq : V -> V -> bool) (a b : list V) : bool := equal eq a b.
  Definition a_ne (eq : V -> V -> bool) (a b : list V) : bool := negb (equal eq a b).
End Array.
Arguments aop V : clear implicits.

(** * daw_bit_cast_util.h, on integers of [w] bits.  [mem] has their bit patterns; bit_cast< T >
    of a pattern is the value of T that has it.  Ranges are positions in [mem]. *)
Definition bit_value (T : ity) (pattern : Z) : Z := conv T pattern.
Definition pattern_of (w : Z) (value : Z) : Z := wrap w value.
(** 20-29: the values that the function is called with. *)
Fixpoint bc_for_each (T : ity) (mem : list Z) (first n : nat) : res (list Z) :=
  match n with
  | 0 => Ok []
  | S n => x <- rd mem first ;; xs <- bc_for_each T mem (S first) n ;; Ok (bit_value T x :: xs)
  end.
(** 31-47; [T] and [U] have [width T] bits, so has the result of the function. *)
Fixpoint bc_transform (T U : ity) (f : Z -> Z) (mem : list Z) (first n out : nat) : res (list Z) :=
  match n with
  | 0 => Ok mem
  | S n =>
      x <- rd mem first ;;
      mem <- wr mem out (pattern_of (width T) (bit_value U (f (bit_value T x)))) ;;
      bc_transform T U f mem (S first) n (S out)
  end.
(** 49-63. *)
Fixpoint bc_copy (T : ity) (mem : list Z) (first n out : nat) : res (list Z) :=
  match n with
  | 0 => Ok mem
  | S n =>
      x <- rd mem first ;;
      mem <- wr mem out (pattern_of (width T) (bit_value T x)) ;;
      bc_copy T mem (S first) n (S out)
  end.

(** * daw_print.h.  Texts are lists of character codes: left brace 123, right brace 125, space 32,
    newline 10.  An argument is the text its formatter makes of it with empty options. *)
Open Scope Z_scope.
(** std::vformat for fields without index and options; [Throw] is format_error, for print and
    println it is found during compilation.  Other fields than {} are not modelled: [Throw]. *)
Fixpoint vformat (fs : list Z) (args : list (list Z)) : res (list Z) :=
  match fs with
  | [] => Ok []
  | c :: fs =>
      if c =? 123 then
        match fs with
        | d :: fs =>
            if d =? 125 then match args with a :: args => r <- vformat fs args ;; Ok (a ++ r) | [] => Throw end
            else if d =? 123 then r <- vformat fs args ;; Ok (123 :: r)
            else Throw
        | [] => Throw
        end
      else if c =? 125 then
        match fs with
        | d :: fs => if d =? 125 then r <- vformat fs args ;; Ok (125 :: r) else Throw
        | [] => Throw
        end
      else r <- vformat fs args ;; Ok (c :: r)
  end.
(** What is written: 20-44 print and vprint, 46-51 and 60-65 println. *)
Definition print (fs : list Z) (args : list (list Z)) : res (list Z) := vformat fs args.
Definition println (fs : list Z) (args : list (list Z)) : res (list Z) :=
  r <- vformat fs args ;; print [123; 125; 10] [r].
(** The format of dump, 79-91: a loop over an array of 3 k characters. *)
Fixpoint dump_loop (fuel : nat) (n : nat) (result : list Z) : res (list Z) :=
  match fuel with
  | O => OutOfFuel
  | S fuel =>
      if (n <? length result)%nat then
        result <- wr result n 123 ;; result <- wr result (n + 1) 125 ;; result <- wr result (n + 2) 32 ;;
        dump_loop fuel (n + 3) result
      else Ok result
  end.
Definition dump_format (k : nat) : res (list Z) :=
  if (k =? 0)%nat then Ok [] else dump_loop (S k) 0 (repeat 0 (3 * k)).
(** 77-95. *)
Definition dump (args : list (list Z)) : res (list Z) :=
  fs <- dump_format (length args) ;; println fs args.
Open Scope nat_scope.

(** * daw_fwd_pack_apply.h *)
Section Pack.
  Context {V : Type}.
  (** An argument of the constructor: [ByRef i], for an element of reference type, binds to
      object [i]; [ByVal v], for one of object type, makes a parameter. *)
  Inductive parg := ByRef (i : nat) | ByVal (v : V).
  (** The objects; [None]: the lifetime has ended. *)
  Definition objs := list (option V).
  (** 53-54: a leaf has the address of the parameter, or of what it refers to. *)
  Fixpoint params (mem : objs) (args : list parg) : objs * list nat :=
    match args with
    | [] => (mem, [])
    | ByRef i :: args => let (mem, ls) := params mem args in (mem, i :: ls)
    | ByVal v :: args => let (mem', ls) := params (mem ++ [Some v]) args in (mem', length mem :: ls)
    end.
  (** The parameters end when the constructor returns: all objects after the first [n]. *)
  Definition end_after (n : nat) (mem : objs) : objs := firstn n mem ++ repeat None (length mem - n).
  Definition pack_make (mem : objs) (args : list parg) : objs * list nat :=
    let (mem', ls) := params mem args in (end_after (length mem) mem', ls).
  (** get< k >, 56-99. *)
  Definition pack_get (mem : objs) (ls : list nat) (k : nat) : res V :=
    match nth_error ls k with
    | Some i => match nth_error mem i with Some (Some v) => Ok v | _ => UB end
    | None => UB
    end.
  (** apply, 127-143: the arguments of the call. *)
  Fixpoint pack_all (mem : objs) (ls : list nat) (ix : list nat) : res (list V) :=
    match ix with
    | [] => Ok []
    | k :: ix => x <- pack_get mem ls k ;; xs <- pack_all mem ls ix ;; Ok (x :: xs)
    end.
  Definition pack_apply (mem : objs) (ls : list nat) : res (list V) := pack_all mem ls (seq 0 (length ls)).
  (** What happens to the objects in the meantime. *)
  Inductive mop := MSet (i : nat) (v : V) | MEnd (i : nat) | MNew (v : V).
  Definition m_step (mem : objs) (o : mop) : res objs :=
    match o with
    | MSet i v => match nth_error mem i with Some (Some _) => Ok (upd mem i (Some v)) | _ => UB end
    | MEnd i => match nth_error mem i with Some (Some _) => Ok (upd mem i None) | _ => UB end
    | MNew v => Ok (mem ++ [Some v])
    end.
  Fixpoint m_run (mem : objs) (os : list mop) : res objs :=
    match os with [] => Ok mem | o :: os => mem <- m_step mem o ;; m_run mem os end.
End Pack.
Arguments parg V : clear implicits.
Arguments objs V : clear implicits.
Arguments mop V : clear implicits.

(** * daw_bind_front.h *)
Section BindFront.
  Context {V R S : Type}.
  (** The function: its state and its arguments give the result, the new state and the
      assignments it makes to its parameters (position, value), made after it read them. *)
  Variable f : S -> list V -> R * S * list (nat * V).
  Fixpoint reads (mem : list V) (cs : list (cell V)) : res (list V) :=
    match cs with
    | [] => Ok []
    | c :: cs => match read mem c with
                 | Some x => xs <- reads mem cs ;; Ok (x :: xs)
                 | None => UB
                 end
    end.
  (** An assignment to parameter [k]: to a reference, or to the copy of this call. *)
  Definition assign (mem : list V) (tmp : list (cell V)) (kv : nat * V) : list V * list (cell V) :=
    match nth_error tmp (fst kv) with
    | Some (Ref i) => (upd mem i (snd kv), tmp)
    | Some (Own _) => (mem, upd tmp (fst kv) (Own (snd kv)))
    | None => (mem, tmp)
    end.
  Definition assigns (mem : list V) (tmp : list (cell V)) (kvs : list (nat * V)) : list V * list (cell V) :=
    fold_left (fun s kv => assign (fst s) (snd s) kv) kvs (mem, tmp).
  Record bound := mk_bound { b_func : S; b_params : list (cell V) }.
  (** operator( ), 26-33 (35-42 for a function whose call does not change it): tuple_cat copies
      m_params, so that the call gets a temporary tuple; [args]: references, or temporaries.
      The result also has the values that the function was called with. *)
  Definition b_call (mem : list V) (b : bound) (args : list (cell V)) : res (R * list V * list V * bound) :=
    let tmp := b_params b ++ args in
    vs <- reads mem tmp ;;
    let '(r, s, kvs) := f (b_func b) vs in
    let '(mem, _) := assigns mem tmp kvs in
    Ok (r, vs, mem, mk_bound s (b_params b)).
  (** A sequence of calls: what the function was called with, the results, and the end. *)
  Fixpoint b_calls (mem : list V) (b : bound) (calls : list (list (cell V))) : res (list (list V * R) * list V * S) :=
    match calls with
    | [] => Ok ([], mem, b_func b)
    | args :: calls =>
        '(r, vs, mem, b) <- b_call mem b args ;;
        '(l, mem, s) <- b_calls mem b calls ;;
        Ok ((vs, r) :: l, mem, s)
    end.
End BindFront.
Arguments bound V S : clear implicits.
