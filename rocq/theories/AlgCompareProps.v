(** C10 - C13, C18, C19, C22: comparing algorithms. *)
From Verif Require Import Common CommonProofs SpecAlg AlgSearch AlgCompare AlgCompareProofs
  SortNetProps.

(** C10. *)
Theorem C10_equal : forall A B (comp : A -> B -> bool) l1 l2,
  equal comp l1 l2 = true <-> pointwise comp l1 l2.
Proof. exact @equal_spec. Qed.
Print Assumptions C10_equal.

(** Three-iterator form: the second range must be at least as long. *)
Theorem C10_equal3 : forall A B (eqb : A -> B -> bool) l1 l2, length l1 <= length l2 ->
  exists b, equal3 eqb l1 l2 = Ok b /\
    (b = true <-> pointwise eqb l1 (firstn (length l1) l2)).
Proof. exact @equal3_spec. Qed.
Print Assumptions C10_equal3.

Example equal_runs :
  (equal Nat.eqb [1; 2] [1; 2], equal Nat.eqb [1; 2] [1], equal Nat.eqb [1] [1; 2],
   equal Nat.eqb [1; 2] [1; 3], equal3 Nat.eqb [1] [1; 9], equal3 Nat.eqb [1; 2] [1])
  = (true, false, false, false, Ok true, UB).
Proof. reflexivity. Qed.

(** C11.  What not_equal decides instead: the ranges have equal length and
    differ at every position.  The negation of equal is missing; the two
    agree only in special cases. *)
Theorem C11_not_equal_partial : forall A B (neq : A -> B -> bool) l1 l2,
  not_equal neq l1 l2 = true <-> pointwise neq l1 l2.
Proof. exact @not_equal_spec. Qed.
Print Assumptions C11_not_equal_partial.

Theorem C11_not_equal3_partial : forall A B (neq : A -> B -> bool) l1 l2,
  length l1 <= length l2 ->
  exists b, not_equal3 neq l1 l2 = Ok b /\
    (b = true <-> pointwise neq l1 (firstn (length l1) l2)).
Proof. exact @not_equal3_spec. Qed.
Print Assumptions C11_not_equal3_partial.

(** Ranges that differ in one place, or in length, are reported neither equal
    nor not_equal; two empty ranges are reported both. *)
Theorem C11_not_equal_refuted : exists l1 l2 : list nat,
  equal Nat.eqb l1 l2 = false /\ not_equal (fun x y => negb (x =? y)) l1 l2 = false.
Proof. exists [1; 2], [1; 3]. split; reflexivity. Qed.
Print Assumptions C11_not_equal_refuted.

Theorem C11_not_equal_length_refuted : exists l1 l2 : list nat,
  length l1 <> length l2 /\ not_equal (fun x y => negb (x =? y)) l1 l2 = false.
Proof. exists [1], [2; 3]. split; [discriminate|reflexivity]. Qed.
Print Assumptions C11_not_equal_length_refuted.

Theorem C11_not_equal_empty_refuted :
  equal Nat.eqb [] [] = true /\ not_equal (fun x y => negb (x =? y)) [] [] = true.
Proof. split; reflexivity. Qed.
Print Assumptions C11_not_equal_empty_refuted.

(** C12. *)
Theorem C12_lexicographical_compare : forall A (comp : A -> A -> bool),
  (forall x y, comp x y = true -> comp y x = false) ->
  forall l1 l2, lexicographical_compare comp l1 l2 = true <-> precedes comp l1 l2.
Proof. exact @lex_spec. Qed.
Print Assumptions C12_lexicographical_compare.

Theorem C12_lexicographical_order : forall A (comp : A -> A -> bool),
  strict_weak comp -> strict_weak (lexicographical_compare comp).
Proof. exact @lex_strict_weak. Qed.
Print Assumptions C12_lexicographical_order.

Theorem C12_compare_range : forall A (comp eqb : A -> A -> bool),
  (forall x y, comp x y = true -> comp y x = false) ->
  (forall x y, eqb x y = true <-> equivalent comp x y) ->
  forall l1 l2,
    (compare_range comp eqb l1 l2 = (-1)%Z <-> precedes comp l1 l2) /\
    (compare_range comp eqb l1 l2 = 1%Z <-> precedes comp l2 l1) /\
    (compare_range comp eqb l1 l2 = 0%Z <-> pointwise eqb l1 l2).
Proof. exact @compare_range_spec. Qed.
Print Assumptions C12_compare_range.

Example lex_runs :
  (lexicographical_compare Nat.ltb [1; 2] [1; 3], lexicographical_compare Nat.ltb [1; 2] [1],
   lexicographical_compare Nat.ltb [1] [1; 0], lexicographical_compare Nat.ltb [] [],
   compare_range Nat.ltb Nat.eqb [1; 2] [1; 1; 5], compare_range Nat.ltb Nat.eqb [1] [1])
  = (true, false, true, false, 1%Z, 0%Z).
Proof. reflexivity. Qed.
Example lex_hyp : (forall x y, Nat.ltb x y = true -> Nat.ltb y x = false) /\
  (forall x y, Nat.eqb x y = true <-> equivalent Nat.ltb x y).
Proof.
  split; intros x y; [rewrite Nat.ltb_lt, Nat.ltb_ge; lia|].
  unfold equivalent. rewrite Nat.eqb_eq, !Nat.ltb_ge. lia.
Qed.

(** C13. *)
Theorem C13_max_element : forall A (comp : A -> A -> bool), strict_weak comp ->
  forall l, l <> [] -> exists p, max_element comp l = Ok p /\ first_largest comp l p.
Proof. exact @max_element_spec. Qed.
Print Assumptions C13_max_element.

Theorem C13_minmax_element : forall A (comp : A -> A -> bool), strict_weak comp ->
  forall l, l <> [] -> exists p q, minmax_element comp l = Ok (p, q) /\
    first_smallest comp l p /\ last_largest comp l q.
Proof. exact @minmax_element_spec. Qed.
Print Assumptions C13_minmax_element.

Theorem C13_empty : forall A (comp : A -> A -> bool),
  max_element comp [] = Ok (length (@nil A)) /\
  minmax_element comp [] = Ok (length (@nil A), length (@nil A)).
Proof. split; reflexivity. Qed.
Print Assumptions C13_empty.

Theorem C13_minmax_item : forall A (comp : A -> A -> bool), strict_weak comp -> forall a b,
  let '(mn, mx) := minmax_item comp a b in
  Permutation [a; b] [mn; mx] /\ comp mx mn = false.
Proof. exact @minmax_item_spec. Qed.
Print Assumptions C13_minmax_item.

Example minmax_runs :
  (max_element Nat.ltb [2; 7; 1; 7; 1], minmax_element Nat.ltb [2; 7; 1; 7; 1],
   minmax_element Nat.ltb [3; 3; 3; 3]) = (Ok 1, Ok (2, 3), Ok (0, 3)).
Proof. reflexivity. Qed.

(** C18.  What are_equal decides: the arguments are equal in disjoint pairs.
    Missing: equality between the pairs and of an odd last argument. *)
Theorem C18_are_equal_partial : forall A (eqb : A -> A -> bool) vs,
  are_equal eqb vs = true <->
  forall k x y, nth_error vs (2 * k) = Some x -> nth_error vs (2 * k + 1) = Some y ->
    eqb x y = true.
Proof. intros A eqb vs. exact (are_equal_pairs eqb (length vs) vs (le_n _)). Qed.
Print Assumptions C18_are_equal_partial.

(** One direction of the property: equal arguments give true. *)
Theorem C18_are_equal_complete_partial : forall A (eqb : A -> A -> bool) vs,
  (forall x y, In x vs -> In y vs -> eqb x y = true) -> are_equal eqb vs = true.
Proof. exact @are_equal_complete. Qed.
Print Assumptions C18_are_equal_complete_partial.

Theorem C18_are_equal_refuted :
  are_equal Nat.eqb [1; 1; 2; 2] = true /\ are_equal Nat.eqb [1; 1; 2] = true.
Proof. split; reflexivity. Qed.
Print Assumptions C18_are_equal_refuted.

(** C19. *)
Theorem C19_is_sorted : forall A (comp : A -> A -> bool), strict_weak comp ->
  forall l, is_sorted comp l = true <-> sorted_by comp l.
Proof. exact @is_sorted_spec. Qed.
Print Assumptions C19_is_sorted.

(** For any comparator at all: every adjacent pair is in order. *)
Theorem C19_is_sorted_adjacent : forall A (comp : A -> A -> bool) l,
  is_sorted comp l = true <->
  forall k a b, nth_error l k = Some a -> nth_error l (S k) = Some b -> comp b a = false.
Proof. exact @is_sorted_adjacent. Qed.
Print Assumptions C19_is_sorted_adjacent.

(** The longest sorted prefix. *)
Theorem C19_is_sorted_until : forall A (comp : A -> A -> bool), strict_weak comp -> forall l,
  let r := is_sorted_until comp l in
  r <= length l /\ sorted_by comp (firstn r l) /\
  (forall r', r < r' -> r' <= length l -> ~ sorted_by comp (firstn r' l)).
Proof. exact @is_sorted_until_spec. Qed.
Print Assumptions C19_is_sorted_until.

(** find_unsorted gives the last element of that prefix (the end when all is
    sorted) on non-empty ranges, and is undefined on an empty one. *)
Theorem C19_find_unsorted : forall A (comp : A -> A -> bool) l, l <> [] ->
  find_unsorted comp l =
    Ok (if is_sorted_until comp l =? length l then length l else is_sorted_until comp l - 1).
Proof. exact @find_unsorted_spec. Qed.
Print Assumptions C19_find_unsorted.

Example sorted_runs :
  (is_sorted Nat.ltb [1; 2; 2; 5], is_sorted_until Nat.ltb [1; 2; 2; 1; 5],
   find_unsorted Nat.ltb [1; 2; 2; 1; 5], find_unsorted Nat.ltb []) = (true, 3, Ok 2, UB).
Proof. reflexivity. Qed.

(** C22. *)
Theorem C22_clamp_hi : forall v hi : Z,
  clamp_hi Z.gtb v hi = Z.min v hi.
Proof.
  intros v hi. unfold clamp_hi. rewrite Z.gtb_ltb. destruct (Z.ltb_spec hi v); lia.
Qed.
Print Assumptions C22_clamp_hi.

Theorem C22_clamp3 : forall v lo hi : Z, (lo <= hi)%Z ->
  clamp3 Z.ltb Z.gtb v lo hi = clampZ lo hi v.
Proof.
  intros v lo hi H. unfold clamp3, clampZ. rewrite Z.gtb_ltb.
  destruct (Z.ltb_spec v lo); [lia|]. destruct (Z.ltb_spec hi v); lia.
Qed.
Print Assumptions C22_clamp3.

Example clamp_runs : (clamp_hi Z.gtb 9 5, clamp_hi Z.gtb 3 5, clamp3 Z.ltb Z.gtb (-3) 0 5)%Z = (5, 3, 0)%Z.
Proof. reflexivity. Qed.
