(** OldRange: theorems. *)
From Verif Require Import Common OldRange SpecOldRange OldRangeProofs.
Open Scope Z_scope.

(** * C301 Moving iterators *)

(** advance and next by a count that is not negative move every kind of iterator exactly that many elements, and are undefined exactly when that leaves the sequence. *)
Theorem C301_forward :
  forall fuel cat len p n, 0 <= p -> 0 <= n -> (Z.to_nat len < fuel)%nat -> p <= len ->
  (p + n <= len -> it_advance fuel cat len p n = Ok (p + n) /\ it_next fuel cat len p n = Ok (p + n)) /\
  (len < p + n -> it_advance fuel cat len p n = UB).
Proof. exact c301_forward. Qed.

(** prev, and advance by a negative count, of a random access iterator. *)
Theorem C301_backward_random :
  forall fuel len p n, position len p -> 0 <= n < 2 ^ 63 ->
  (n <= p -> it_prev fuel cat_random len p n = Ok (p - n) /\ it_advance fuel cat_random len p (- n) = Ok (p - n)) /\
  (p < n -> it_prev fuel cat_random len p n = UB).
Proof. exact c301_backward_random. Qed.

(** A bidirectional iterator, as of std::list, is moved one element too few: prev( it ) is [it] itself, and prev( it, p + 1 ) is defined. *)
Theorem C301_backward_bidirectional_refuted :
  forall fuel len p n, position len p -> 1 <= n < 2 ^ 63 -> (Z.to_nat len < fuel)%nat ->
  (n <= p + 1 -> it_prev fuel cat_bidirectional len p n = Ok (p - n + 1) /\
     it_advance fuel cat_bidirectional len p (- n) = Ok (p - n + 1)) /\
  (p + 1 < n -> it_prev fuel cat_bidirectional len p n = UB).
Proof. exact c301_backward_bidirectional_refuted. Qed.

(** Input and forward iterators silently stay where they are. *)
Theorem C301_backward_input :
  forall fuel len p n, (0 < fuel)%nat -> 0 <= n < 2 ^ 63 ->
  it_advance fuel cat_input len p (- n) = Ok p /\ it_prev fuel cat_input len p n = Ok p.
Proof. exact c301_backward_input. Qed.

(** distance counts the elements; the other way round only random access iterators have a (negative) distance. *)
Theorem C301_distance :
  forall fuel cat len first last, position len first -> position len last -> (Z.to_nat len < fuel)%nat ->
  (first <= last -> it_distance fuel cat len first last = Ok (last - first)) /\
  (last < first -> it_distance fuel cat_random len first last = Ok (last - first) /\
     (cat <> cat_random -> it_distance fuel cat len first last = UB)).
Proof. exact c301_distance. Qed.

(** Advancing by the distance arrives at the other iterator. *)
Theorem C301_advance_distance :
  forall fuel cat len p q, position len p -> position len q -> p <= q -> (Z.to_nat len < fuel)%nat ->
  exists n, it_distance fuel cat len p q = Ok n /\ it_advance fuel cat len p n = Ok q.
Proof. exact c301_advance_distance. Qed.

(** Moving a zip_iterator of a vector and a list backwards leaves the two at different elements. *)
Theorem C301_zip_backward_refuted :
  forall fuel len p n, 1 <= n < 2 ^ 63 -> n <= p -> p <= len -> (Z.to_nat len < fuel)%nat ->
  zip_advance fuel [(cat_random, len, p); (cat_bidirectional, len, p)] (- n) = Ok [p - n; p - n + 1].
Proof. exact c301_zip_backward_refuted. Qed.

Example C301_nonvacuous :
  it_advance 10 cat_bidirectional 5 1 3 = Ok 4 /\ it_prev 10 cat_random 5 3 2 = Ok 1 /\
  it_prev 10 cat_bidirectional 5 3 1 = Ok 3 /\ it_distance 10 cat_input 5 1 4 = Ok 3 /\
  it_advance 10 cat_input 5 3 4 = UB /\ it_distance 10 cat_input 5 4 1 = UB.
Proof. vm_compute. repeat split. Qed.
Print Assumptions C301_forward.
Print Assumptions C301_backward_random.
Print Assumptions C301_backward_bidirectional_refuted.
Print Assumptions C301_backward_input.
Print Assumptions C301_distance.
Print Assumptions C301_advance_distance.
Print Assumptions C301_zip_backward_refuted.

(** * C302 Ranges of two iterators *)

(** slice gives exactly the elements at the positions asked for. *)
Theorem C302_slice :
  forall (T : Type) (arr : list T) r a b, rng_ok arr r -> 0 <= a -> a <= b -> b <= r_end r - r_begin r ->
  (exists r', rng_slice arr r a b = Ok r' /\ rng_ok arr r' /\
     elems arr r' = firstn (Z.to_nat (b - a)) (skipn (Z.to_nat a) (elems arr r))) /\
  (exists r', rng_slice1 arr r a = Ok r' /\ rng_ok arr r' /\
     elems arr r' = skipn (Z.to_nat a) (elems arr r)).
Proof. exact c302_slice. Qed.

(** The end of the range is not checked: a slice past it reaches the elements of the array behind the range, or is undefined. *)
Theorem C302_slice_outside :
  forall (T : Type) (arr : list T) r a b, rng_ok arr r -> 0 <= a -> a <= b < 2 ^ 63 -> r_end r - r_begin r < b ->
  (Z.of_nat (length arr) < r_begin r + b -> rng_slice arr r a b = UB) /\
  (r_begin r + b <= Z.of_nat (length arr) ->
     rng_slice arr r a b = Ok (mk_rng (r_begin r + a) (r_begin r + b))).
Proof. exact c302_slice_outside. Qed.

(** shrink( n ) gives n + 1 elements, and shrinking a range at the end of its array to its own size is undefined. *)
Theorem C302_shrink_refuted :
  forall (T : Type) (arr : list T) r n, rng_ok arr r -> 0 <= n ->
  (n < r_end r - r_begin r -> exists r', rng_shrink arr r n = Ok r' /\
     elems arr r' = firstn (Z.to_nat (n + 1)) (elems arr r) /\ Z.of_nat (length (elems arr r')) = n + 1) /\
  (r_end r = Z.of_nat (length arr) -> n = r_end r - r_begin r -> rng_shrink arr r n = UB).
Proof. exact c302_shrink_refuted. Qed.

(** size, empty, operator[], front and back. *)
Theorem C302_access :
  forall (T : Type) (arr : list T) r, rng_ok arr r ->
  rng_size r = Z.of_nat (length (elems arr r)) /\
  (rng_empty r = true <-> elems arr r = []) /\
  (forall i x, 0 <= i -> nth_error (elems arr r) (Z.to_nat i) = Some x -> rng_at arr r i = Ok x) /\
  (forall x l, elems arr r = x :: l -> rng_front arr r = Ok x) /\
  (forall x l, elems arr r = l ++ [x] -> rng_back arr r = Ok x).
Proof. exact c302_access. Qed.

(** back of an empty range gives the element in front of the range. *)
Theorem C302_back_of_empty_refuted :
  forall (T : Type) (arr : list T) b x, 0 < b <= Z.of_nat (length arr) -> Z.of_nat (length arr) < 2 ^ 63 ->
  nth_error arr (Z.to_nat (b - 1)) = Some x -> rng_back arr (mk_rng b b) = Ok x.
Proof. exact c302_back_of_empty_refuted. Qed.

(** safe_advance drops that many elements, all of them if there are fewer, and never leaves the range. *)
Theorem C302_safe_advance :
  forall (T : Type) (arr : list T) r checked n, rng_ok arr r -> 0 <= n < 2 ^ 63 ->
  exists r', rng_safe_advance arr checked r n = Ok r' /\ rng_ok arr r' /\ r_end r' = r_end r /\
    elems arr r' = skipn (Z.to_nat n) (elems arr r).
Proof. exact c302_safe_advance. Qed.

(** move_next drops the first element and move_back undoes it; on an empty range the assertion fails. *)
Theorem C302_move :
  forall (T : Type) (arr : list T) r, rng_ok arr r ->
  (forall checked x l, elems arr r = x :: l -> exists r', move_next arr checked r = Ok r' /\
     rng_ok arr r' /\ elems arr r' = l /\ move_back arr r' = Ok r) /\
  (elems arr r = [] -> move_next arr true r = Throw).
Proof. exact c302_move. Qed.

(** as_vector copies the elements; contains tells whether a key is among them. *)
Theorem C302_contents :
  forall (T : Type) (arr : list T) (eqb : T -> T -> bool) r fuel, rng_ok arr r -> (length arr < fuel)%nat -> decides eqb ->
  rng_as_vector arr fuel r = Ok (elems arr r) /\
  (forall key, exists found, rng_contains arr fuel eqb r key = Ok found /\ (found = true <-> In key (elems arr r))).
Proof. exact c302_contents. Qed.

Example C302_nonvacuous :
  let arr := [10; 11; 12; 13; 14; 15] in let r := mk_rng 1 5 in
  rng_ok arr r /\ elems arr r = [11; 12; 13; 14] /\
  rng_slice arr r 1 3 = Ok (mk_rng 2 4) /\ rng_back arr r = Ok 14 /\
  rng_shrink arr r 2 = Ok (mk_rng 1 4) /\ rng_safe_advance arr true r 7 = Ok (mk_rng 5 5) /\
  rng_back arr (mk_rng 3 3) = Ok 12 /\ rng_shrink arr (mk_rng 1 6) 5 = UB.
Proof. split; [unfold rng_ok; cbn; lia|]. vm_compute. repeat split. Qed.
Print Assumptions C302_slice.
Print Assumptions C302_slice_outside.
Print Assumptions C302_shrink_refuted.
Print Assumptions C302_access.
Print Assumptions C302_back_of_empty_refuted.
Print Assumptions C302_safe_advance.
Print Assumptions C302_move.
Print Assumptions C302_contents.

(** * C303 Ranges of references *)

(** Collecting references to the elements of a range that is not empty never ends, whatever the number of steps, nor does any operation that starts with it. *)
Theorem C303_endless_refuted :
  forall fuel r, r_begin r <> r_end r ->
  to_reference_vector fuel (r_begin r) (r_end r) = OutOfFuel /\
  (forall (R : Type) (op : list Z -> res R), via_references fuel r op = OutOfFuel).
Proof. exact c303_endless_refuted. Qed.

(** For an empty range the vector is empty. *)
Theorem C303_empty :
  forall fuel p, (0 < fuel)%nat -> to_reference_vector fuel p p = Ok [].
Proof. exact c303_empty. Qed.

(** References compare the values they refer to, not their addresses. *)
Theorem C303_compare :
  forall (T : Type) (eqb ltb leb : T -> T -> bool) (mem : Z -> T) a b, decides eqb ->
  (ref_eq eqb mem a b = true <-> mem a = mem b) /\
  (ref_ne eqb mem a b = true <-> mem a <> mem b) /\
  (ref_lt ltb mem a b = ltb (mem a) (mem b)) /\ (ref_gt ltb mem a b = ltb (mem b) (mem a)) /\
  (ref_le leb mem a b = leb (mem a) (mem b)) /\ (ref_ge leb mem a b = leb (mem b) (mem a)).
Proof. exact c303_compare. Qed.

(** where of the range algorithms refers, in order and once each, to exactly the elements that satisfy the predicate. *)
Theorem C303_where :
  forall (T : Type) (pred : T -> bool) (l : list T),
  StronglySorted Z.lt (alg_where l 0 pred) /\
  (forall a, In a (alg_where l 0 pred) <->
     exists i x, nth_error l i = Some x /\ pred x = true /\ a = Z.of_nat i).
Proof. exact c303_where. Qed.

Example C303_nonvacuous :
  to_reference_vector 100 2 4 = OutOfFuel /\ to_reference_vector 1 2 2 = Ok [] /\
  alg_where [5; 8; 7; 2] 0 Z.even = [1; 3] /\ ref_eq Z.eqb (fun a => a / 2) 4 5 = true.
Proof. vm_compute. repeat split. Qed.
Print Assumptions C303_endless_refuted.
Print Assumptions C303_empty.
Print Assumptions C303_compare.
Print Assumptions C303_where.

(** * C304 Ranges that own their elements *)

(** erase removes, and where keeps, exactly the elements that satisfy the predicate, in order. *)
Theorem C304_erase_where :
  forall (T : Type) (pred : T -> bool) (v : list T),
  coll_erase pred v = Ok (filter (fun x => negb (pred x)) v) /\ coll_where pred v = Ok (filter pred v).
Proof. exact c304_erase_where. Qed.

(** The same for the elements equal to a value kept outside the range. *)
Theorem C304_equal :
  forall (T : Type) (eqb : T -> T -> bool) (d : T) (v : list T) x,
  coll_erase_equal eqb d (Outside x) v = Ok (filter (fun y => negb (eqb x y)) v) /\
  coll_where_equal eqb d (Outside x) v = Ok (filter (fun y => eqb x y) v).
Proof. exact c304_equal. Qed.

(** where_equal_to may be given a reference to an element of the range (of a type whose move is a copy). *)
Theorem C304_where_equal_element :
  forall (T : Type) (eqb : T -> T -> bool) (d : T) k (v : list T) c, decides eqb -> nth_error v k = Some c ->
  coll_where_equal eqb d (Element k) v = Ok (filter (fun x => eqb c x) v).
Proof. exact c304_where_equal_element. Qed.

(** erase_where_equal_to( front( ) ) leaves elements equal to the value in the range: the value is overwritten during the removal. *)
Theorem C304_erase_equal_element_refuted :
  forall (T : Type) (eqb : T -> T -> bool) (d x y : T), decides eqb -> x <> y ->
  coll_erase_equal eqb d (Element 0) [x; y; x] = Ok [y; x].
Proof. exact c304_erase_equal_element_refuted. Qed.

(** unique keeps exactly the first element of every run of equivalent elements. *)
Theorem C304_unique :
  forall (T : Type) (eqb : T -> T -> bool) (v : list T), exists out,
  coll_unique eqb v = Ok out /\ run_heads eqb v out.
Proof. exact c304_unique. Qed.

Example C304_nonvacuous :
  coll_where Z.even [1; 2; 3; 4; 6] = Ok [2; 4; 6] /\
  coll_erase_equal Z.eqb 0 (Outside 1) [1; 2; 1; 2] = Ok [2; 2] /\
  coll_erase_equal Z.eqb 0 (Element 0) [1; 2; 1; 2] = Ok [2; 1] /\
  coll_where_equal Z.eqb 0 (Element 2) [1; 2; 1; 2] = Ok [1; 1] /\
  coll_unique Z.eqb [1; 1; 2; 1; 1; 3] = Ok [1; 2; 1; 3] /\ decides Z.eqb.
Proof. repeat split; try (vm_compute; reflexivity); apply Z.eqb_eq. Qed.
Print Assumptions C304_erase_where.
Print Assumptions C304_equal.
Print Assumptions C304_where_equal_element.
Print Assumptions C304_erase_equal_element_refuted.
Print Assumptions C304_unique.
