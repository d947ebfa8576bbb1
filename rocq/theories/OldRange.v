(** Model of cpp_17_iterator.h (distance, advance, next, prev), of the deprecated ranges
    (deprecated/daw_range_type.h, the owning range of deprecated/daw_range_collection.h, where
    of deprecated/daw_range_algorithm.h) and of daw_reference.h.

    An iterator of a sequence of [len] elements is its position, 0 to [len].  Incrementing the
    end, decrementing the beginning, or adding an offset that leaves the sequence is
    undefined.  A loop takes fuel.  A failed assert ends the program and is modelled as
    [Throw].  No proofs in this file. *)
From Verif Require Import Common.
Open Scope Z_scope.

(** * cpp_17_iterator.h *)

(** The iterator categories told apart by the overloads.  Forward iterators use the
    overloads for input iterators, contiguous ones those for random access. *)
Inductive category := cat_input | cat_output | cat_bidirectional | cat_random.

(** The smallest ptrdiff_t; counting it down, or negating it, overflows. *)
Definition ptrdiff_min : Z := - 2 ^ 63.

(** ++it. *)
Definition it_inc (len p : Z) : res Z := if (0 <=? p) && (p <? len) then Ok (p + 1) else UB.
(** --it. *)
Definition it_dec (len p : Z) : res Z := if (0 <? p) && (p <=? len) then Ok (p - 1) else UB.
(** it += n of a random access iterator. *)
Definition it_add (len p n : Z) : res Z :=
  if (0 <=? p + n) && (p + n <=? len) then Ok (p + n) else UB.

(** distance_impl of input iterators, lines 17-28. *)
Fixpoint distance_loop (fuel : nat) (len first last count : Z) : res Z :=
  match fuel with
  | O => OutOfFuel
  | S fuel =>
    if first =? last then Ok count
    else first' <- it_inc len first ;; distance_loop fuel len first' last (count + 1)
  end.

(** distance, lines 94-103, with distance_impl of lines 17-36. *)
Definition it_distance (fuel : nat) (cat : category) (len first last : Z) : res Z :=
  match cat with
  | cat_random => Ok (last - first)
  | _ => distance_loop fuel len first last 0
  end.

(** while( n-- > 0 ) ++first;  lines 43-45, 53-55, 65-67. *)
Fixpoint forward_loop (fuel : nat) (len p n : Z) : res Z :=
  match fuel with
  | O => OutOfFuel
  | S fuel =>
    if n =? ptrdiff_min then UB
    else if 0 <? n then p' <- it_inc len p ;; forward_loop fuel len p' (n - 1)
    else Ok p
  end.

(** while( ++n < 0 ) --first;  lines 69-71. *)
Fixpoint backward_loop (fuel : nat) (len p n : Z) : res Z :=
  match fuel with
  | O => OutOfFuel
  | S fuel =>
    if n + 1 <? 0 then p' <- it_dec len p ;; backward_loop fuel len p' (n + 1)
    else Ok p
  end.

(** advance, lines 38-83 and 110-115. *)
Definition it_advance (fuel : nat) (cat : category) (len p n : Z) : res Z :=
  match cat with
  | cat_input | cat_output => forward_loop fuel len p n
  | cat_bidirectional =>
    if 0 <=? n then forward_loop fuel len p n else backward_loop fuel len p n
  | cat_random => it_add len p n
  end.

(** next, lines 123-130. *)
Definition it_next (fuel : nat) (cat : category) (len p n : Z) : res Z :=
  it_advance fuel cat len p n.

(** prev, lines 138-145. *)
Definition it_prev (fuel : nat) (cat : category) (len p n : Z) : res Z :=
  if n =? ptrdiff_min then UB else it_advance fuel cat len p (- n).

(** zip_iterator::advance, iterator/daw_zipiter.h lines 75-85 and 121-123: every iterator of
    the tuple is advanced by the same number; each is given with its category and the length
    of its sequence. *)
Fixpoint zip_advance (fuel : nat) (its : list (category * Z * Z)) (n : Z) : res (list Z) :=
  match its with
  | [] => Ok []
  | (cat, len, p) :: its =>
    p' <- it_advance fuel cat len p n ;;
    ps <- zip_advance fuel its n ;;
    Ok (p' :: ps)
  end.

(** * deprecated/daw_range_type.h: a pair of random access iterators of an array *)

(** Range, lines 25-49. *)
Record rng : Type := mk_rng { r_begin : Z; r_end : Z }.

(** The conversion of a size_t to ptrdiff_t, and arithmetic on size_t. *)
Definition to_size (z : Z) : Z := z mod 2 ^ 64.
Definition to_diff (z : Z) : Z :=
  let m := z mod 2 ^ 64 in if m <? 2 ^ 63 then m else m - 2 ^ 64.

Section Range.
  Context {T : Type}.
  (** The array the iterators belong to. *)
  Variable arr : list T.
  Definition alen : Z := Z.of_nat (length arr).

  (** *it. *)
  Definition deref (p : Z) : res T := if p <? 0 then UB else rd arr (Z.to_nat p).

  (** move_next, lines 51-55.  [checked] tells whether assert is enabled. *)
  Definition move_next (checked : bool) (r : rng) : res rng :=
    if checked && (r_begin r =? r_end r) then Throw
    else b <- it_inc alen (r_begin r) ;; Ok (mk_rng b (r_end r)).
  (** move_back, lines 57-60. *)
  Definition move_back (r : rng) : res rng :=
    b <- it_dec alen (r_begin r) ;; Ok (mk_rng b (r_end r)).
  (** at_end, empty and operator bool, lines 68-78. *)
  Definition rng_empty (r : rng) : bool := r_begin r =? r_end r.
  (** advance, lines 84-86; the free function next, lines 369-373, does the same. *)
  Definition rng_advance (r : rng) (n : Z) : res rng :=
    b <- it_add alen (r_begin r) (to_diff n) ;; Ok (mk_rng b (r_end r)).
  (** size, lines 149-151. *)
  Definition rng_size (r : rng) : Z := to_size (r_end r - r_begin r).
  (** front, lines 121-127, and operator*, lines 141-147. *)
  Definition rng_front (r : rng) : res T := deref (r_begin r).
  (** back, lines 129-139. *)
  Definition rng_back (r : rng) : res T :=
    it <- it_add alen (r_begin r) (to_diff (rng_size r - 1)) ;; deref it.
  (** operator[], lines 153-159. *)
  Definition rng_at (r : rng) (pos : Z) : res T :=
    it <- it_add alen (r_begin r) pos ;; deref it.
  (** slice of one position, lines 278-286, and of two, lines 288-296. *)
  Definition rng_slice1 (r : rng) (first_pos : Z) : res rng :=
    b <- it_add alen (r_begin r) (to_diff first_pos) ;;
    e <- it_add alen (r_begin r) (to_diff (rng_size r)) ;;
    Ok (mk_rng b e).
  Definition rng_slice (r : rng) (first_pos last_pos : Z) : res rng :=
    b <- it_add alen (r_begin r) (to_diff first_pos) ;;
    e <- it_add alen (r_begin r) (to_diff last_pos) ;;
    Ok (mk_rng b e).
  (** shrink, lines 298-306. *)
  Definition rng_shrink (r : rng) (new_size : Z) : res rng :=
    e <- it_add alen (r_begin r) (to_diff (new_size + 1)) ;;
    Ok (mk_rng (r_begin r) e).
  (** safe_advance, lines 345-355. *)
  Definition rng_safe_advance (checked : bool) (r : rng) (count : Z) : res rng :=
    if checked && negb (0 <=? count) then Throw
    else if count <=? r_end r - r_begin r then rng_advance r count
    else Ok (mk_rng (r_end r) (r_end r)).

  (** as_vector, lines 308-312: std::copy from the beginning to the end. *)
  Fixpoint read_loop (fuel : nat) (p e : Z) : res (list T) :=
    match fuel with
    | O => OutOfFuel
    | S fuel =>
      if p =? e then Ok []
      else x <- deref p ;; p' <- it_inc alen p ;; l <- read_loop fuel p' e ;; Ok (x :: l)
    end.
  Definition rng_as_vector (fuel : nat) (r : rng) : res (list T) :=
    read_loop fuel (r_begin r) (r_end r).

  (** contains, lines 357-362: std::find. *)
  Fixpoint find_loop (fuel : nat) (eqb : T -> T -> bool) (p e : Z) (key : T) : res Z :=
    match fuel with
    | O => OutOfFuel
    | S fuel =>
      if p =? e then Ok e
      else x <- deref p ;;
           if eqb x key then Ok p
           else p' <- it_inc alen p ;; find_loop fuel eqb p' e key
    end.
  Definition rng_contains (fuel : nat) (eqb : T -> T -> bool) (r : rng) (key : T) : res bool :=
    p <- find_loop fuel eqb (r_begin r) (r_end r) key ;; Ok (negb (p =? r_end r)).
End Range.

(** * daw_reference.h *)

(** to_reference_vector, lines 80-90: the vector of the addresses of the elements; nothing in
    the loop changes [first].  The vector grows without bound; running out of memory is not
    modelled. *)
Fixpoint to_reference_loop (fuel : nat) (first last : Z) (result : list Z) : res (list Z) :=
  match fuel with
  | O => OutOfFuel
  | S fuel =>
    if first =? last then Ok result
    else to_reference_loop fuel first last (result ++ [first])
  end.
Definition to_reference_vector (fuel : nat) (first last : Z) : res (list Z) :=
  to_reference_loop fuel first last [].

(** The comparison operators of Reference, lines 41-69: [mem] gives the value at an
    address. *)
Section References.
  Context {T : Type} (eqb ltb leb : T -> T -> bool) (mem : Z -> T).
  Definition ref_eq (a b : Z) : bool := eqb (mem a) (mem b).
  Definition ref_ne (a b : Z) : bool := negb (eqb (mem a) (mem b)).
  Definition ref_lt (a b : Z) : bool := ltb (mem a) (mem b).
  Definition ref_le (a b : Z) : bool := leb (mem a) (mem b).
  Definition ref_gt (a b : Z) : bool := ltb (mem b) (mem a).
  Definition ref_ge (a b : Z) : bool := leb (mem b) (mem a).
End References.

(** where, sort, stable_sort, unique, partition, erase, shuffle of Range (daw_range_type.h
    lines 169-276) and those of a const CollectionRange (daw_range_collection.h): the vector
    of references is made first, then [op] is applied to it. *)
Definition via_references {R : Type} (fuel : nat) (r : rng) (op : list Z -> res R) : res R :=
  v <- to_reference_vector fuel (r_begin r) (r_end r) ;; op v.

(** where of deprecated/daw_range_algorithm.h, lines 351-362: the addresses (positions) of the
    elements that satisfy the predicate. *)
Fixpoint alg_where {T : Type} (l : list T) (addr : Z) (pred : T -> bool) : list Z :=
  match l with
  | [] => []
  | x :: l => if pred x then addr :: alg_where l (addr + 1) pred else alg_where l (addr + 1) pred
  end.

(** * deprecated/daw_range_collection.h: a range that owns a vector *)
Section Collection.
  Context {T : Type}.

  (** std::remove_if as implemented by the common standard libraries: elements kept are
      assigned down to [result].  The predicate sees the vector as it is at the time of the
      call, for predicates that refer to an element of it. *)
  Fixpoint remove_loop (n : nat) (pred : list T -> T -> bool) (v : list T) (i result : nat) :
    res (list T * nat) :=
    match n with
    | O => Ok (v, result)
    | S n =>
      x <- rd v i ;;
      if pred v x then remove_loop n pred v (i + 1) result
      else v' <- (if (i =? result)%nat then Ok v else wr v result x) ;;
           remove_loop n pred v' (i + 1) (result + 1)
    end.

  (** erase( predicate ), lines 266-272: remove_if, then the vector is cut at its result. *)
  Definition coll_erase_gen (pred : list T -> T -> bool) (v : list T) : res (list T) :=
    '(v', result) <- remove_loop (length v) pred v 0 0 ;; Ok (firstn result v').
  Definition coll_erase (pred : T -> bool) (v : list T) : res (list T) :=
    coll_erase_gen (fun _ => pred) v.
  (** where, lines 291-296. *)
  Definition coll_where (pred : T -> bool) (v : list T) : res (list T) :=
    coll_erase (fun x => negb (pred x)) v.

  Variable eqb : T -> T -> bool.
  (** The value given to the functions below: an object outside the range, or a reference to
      an element of it, such as the result of front(). *)
  Inductive arg := Outside (x : T) | Element (k : nat).
  Definition arg_value (a : arg) (v : list T) (d : T) : T :=
    match a with Outside x => x | Element k => nth k v d end.
  (** erase_where_equal_to, lines 279-284.  [d] stands for reading outside the vector, which
      does not happen for a reference to an element: the vector is cut only at the end. *)
  Definition coll_erase_equal (d : T) (a : arg) (v : list T) : res (list T) :=
    coll_erase_gen (fun v' x => eqb (arg_value a v' d) x) v.
  (** where_equal_to, lines 303-308. *)
  Definition coll_where_equal (d : T) (a : arg) (v : list T) : res (list T) :=
    coll_erase_gen (fun v' x => negb (eqb (arg_value a v' d) x)) v.

  (** std::unique as implemented by the common standard libraries, in unique, lines 214-231:
      an element is compared with the last one kept. *)
  Fixpoint unique_loop (n : nat) (v : list T) (i last : nat) : res (list T * nat) :=
    match n with
    | O => Ok (v, last)
    | S n =>
      x <- rd v i ;;
      y <- rd v last ;;
      if eqb y x then unique_loop n v (i + 1) last
      else v' <- (if (i =? last + 1)%nat then Ok v else wr v (last + 1) x) ;;
           unique_loop n v' (i + 1) (last + 1)
    end.
  Definition coll_unique (v : list T) : res (list T) :=
    match v with
    | [] => Ok []
    | _ => '(v', last) <- unique_loop (length v - 1) v 1 0 ;; Ok (firstn (last + 1) v')
    end.
End Collection.
