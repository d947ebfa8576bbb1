(** C04 - C09: searching algorithms. *)
From Verif Require Import Common CommonProofs SpecAlg AlgSearch AlgSearchProofs SortNetProps.

(** C04.  On a range partitioned by "less than value", lower_bound returns the
    first position that is not less. *)
Theorem C04_lower_bound : forall A V (cmp : A -> V -> bool) (value : V) (l : list A),
  partitioned (fun x => cmp x value) l ->
  exists p, lower_bound cmp value l = Ok p /\ is_first (fun x => negb (cmp x value)) l p.
Proof. exact @lower_bound_spec. Qed.
Print Assumptions C04_lower_bound.

(** Sorted ranges are partitioned, so the theorem applies to them. *)
Theorem C04_lower_bound_sorted : forall A (comp : A -> A -> bool), strict_weak comp ->
  forall l v, sorted_by comp l ->
  exists p, lower_bound comp v l = Ok p /\ is_first (fun x => negb (comp x v)) l p.
Proof. exact @lower_bound_sorted. Qed.
Print Assumptions C04_lower_bound_sorted.

(** On any content at all it stays inside the range and terminates. *)
Theorem C04_lower_bound_in_range : forall A V (cmp : A -> V -> bool) (value : V) (l : list A),
  exists p, lower_bound cmp value l = Ok p /\ p <= length l.
Proof. exact @lower_bound_safe. Qed.
Print Assumptions C04_lower_bound_in_range.

Example lower_bound_runs :
  (lower_bound Nat.ltb 5 [1; 3; 5; 5; 8], lower_bound Nat.ltb 9 [1; 3; 5; 5; 8],
   lower_bound Nat.ltb 0 [1; 3; 5; 5; 8]) = (Ok 2, Ok 5, Ok 0).
Proof. reflexivity. Qed.
Example lower_bound_hyp : partitioned (fun x => x <? 5) [3; 1; 8; 5].
Proof.
  intros i j x y Hij H1 H2 H3.
  assert (i < 4) by (apply nth_error_some_lt in H1; exact H1).
  assert (j < 4) by (apply nth_error_some_lt in H2; exact H2).
  do 4 (try (destruct i as [|i])); do 4 (try (destruct j as [|j])); try lia;
    cbn in H1, H2; inv H1; inv H2; cbn in *; congruence.
Qed.
Example lower_bound_sorted_hyp : sorted_by Nat.ltb [1; 3; 5; 5; 8].
Proof. unfold sorted_by. repeat constructor. Qed.

(** C05. *)
Theorem C05_upper_bound : forall A (comp : A -> A -> bool), strict_weak comp ->
  forall l v, sorted_by comp l ->
  exists p, upper_bound comp v l = Ok p /\ is_first (comp v) l p.
Proof. exact @upper_bound_sorted. Qed.
Print Assumptions C05_upper_bound.

Theorem C05_binary_search : forall A (comp : A -> A -> bool), strict_weak comp ->
  forall l v, sorted_by comp l -> l <> [] ->
  exists p, binary_search comp comp v l = Ok p /\
    ((exists x, nth_error l p = Some x /\ equivalent comp x v) \/
     (p = length l /\ forall x, In x l -> ~ equivalent comp x v)).
Proof. exact @binary_search_sorted. Qed.
Print Assumptions C05_binary_search.

Example upper_bound_runs :
  (upper_bound Nat.ltb 5 [1; 3; 5; 5; 8], binary_search Nat.ltb Nat.ltb 3 [1; 3; 5; 5; 8],
   binary_search Nat.ltb Nat.ltb 4 [1; 3; 5; 5; 8], binary_search Nat.ltb Nat.ltb 4 [])
  = (Ok 4, Ok 1, Ok 5, Throw).
Proof. reflexivity. Qed.

(** C06.  [ra] selects the random-access or the step-by-step implementation;
    any [fuel] above the container size is enough.  Missing: requests whose
    64-bit value does not fit ptrdiff_t, refuted below. *)
Open Scope Z_scope.
Theorem C06_safe_advance_partial : forall ra fuel n it d,
  0 <= it <= n -> n < Z.of_nat fuel -> - 2 ^ 63 < d < 2 ^ 63 ->
  safe_advance ra fuel n it d = Ok (clampZ 0 n (it + d)).
Proof. exact safe_advance_spec. Qed.
Print Assumptions C06_safe_advance_partial.

Theorem C06_safe_next_partial : forall ra fuel it last n,
  0 <= it <= last -> last < Z.of_nat fuel -> 0 <= n < 2 ^ 63 ->
  safe_next ra fuel it last n = Ok (Z.min last (it + n)).
Proof. exact safe_next_spec. Qed.
Print Assumptions C06_safe_next_partial.

Theorem C06_safe_prev_partial : forall ra fuel it first n,
  0 <= first <= it -> it < Z.of_nat fuel -> 0 <= n < 2 ^ 63 ->
  safe_prev ra fuel it first n = Ok (Z.max first (it - n)).
Proof. exact safe_prev_spec. Qed.
Print Assumptions C06_safe_prev_partial.

Theorem C06_begin_at_partial : forall ra fuel n k,
  0 <= n < Z.of_nat fuel -> 0 <= k < 2 ^ 63 ->
  begin_at ra fuel n k = Ok (Z.min n k).
Proof. exact begin_at_spec. Qed.
Print Assumptions C06_begin_at_partial.

(** A request far beyond the end comes back to the beginning. *)
Theorem C06_begin_at_huge_refuted : exists n k, 0 < n /\ n < k < 2 ^ 64 /\
  forall ra, begin_at ra 10 n k = Ok 0.
Proof.
  exists 5, (2 ^ 64 - 1). split; [lia|]. split; [lia|]. intros []; vm_compute; reflexivity.
Qed.
Print Assumptions C06_begin_at_huge_refuted.

(** Exactly 2^63 is undefined behaviour for random access iterators. *)
Theorem C06_begin_at_half_refuted : exists n k, 0 < n /\ n < k < 2 ^ 64 /\
  begin_at true 10 n k = UB.
Proof. exists 5, (2 ^ 63). split; [lia|]. split; [lia|]. vm_compute. reflexivity. Qed.
Print Assumptions C06_begin_at_half_refuted.

Example safe_runs :
  (safe_advance true 10 5 3 (-7), safe_advance false 10 5 3 (-7), safe_advance false 10 5 3 1,
   safe_next false 10 3 5 9, safe_prev true 10 3 1 1, begin_at true 10 5 2)
  = (Ok 0, Ok 0, Ok 4, Ok 5, Ok 2, Ok 2).
Proof. vm_compute. reflexivity. Qed.
Close Scope Z_scope.

(** C07. *)
Theorem C07_find_if : forall A (P : A -> bool) l, is_first P l (find_if P l).
Proof. exact @find_if_spec. Qed.
Print Assumptions C07_find_if.

Theorem C07_find : forall A V (eqb : A -> V -> bool) v l,
  is_first (fun x => eqb x v) l (find eqb v l).
Proof. exact @find_spec. Qed.
Print Assumptions C07_find.

Theorem C07_find_if_not : forall A (P : A -> bool) l,
  is_first (fun x => negb (P x)) l (find_if_not P l).
Proof. exact @find_if_not_spec. Qed.
Print Assumptions C07_find_if_not.

Theorem C07_find_first_of : forall A V (eqb : A -> V -> bool) s l,
  is_first (fun x => existsb (eqb x) s) l (find_first_of_set eqb s l).
Proof. exact @find_first_of_set_spec. Qed.
Print Assumptions C07_find_first_of.

Theorem C07_find_index_if : forall A (P : A -> bool) l,
  match find_index_if P l with
  | Some p => p < length l /\ is_first P l p
  | None => forall x, In x l -> P x = false
  end.
Proof. exact @find_index_if_spec. Qed.
Print Assumptions C07_find_index_if.

Theorem C07_find_index_of : forall A V (neqb : A -> V -> bool) v l,
  is_first (fun x => negb (neqb x v)) l (find_index_of neqb v l).
Proof. exact @find_index_of_spec. Qed.
Print Assumptions C07_find_index_of.

Theorem C07_find_index_of_if : forall A (P : A -> bool) l, is_first P l (find_index_of_if P l).
Proof. exact @find_index_of_if_spec. Qed.
Print Assumptions C07_find_index_of_if.

Theorem C07_contains : forall A V (cmp : A -> V -> bool) v l,
  contains cmp v l = true <-> exists x, In x l /\ cmp x v = true.
Proof. exact @contains_spec. Qed.
Print Assumptions C07_contains.

Theorem C07_contains_if : forall A (P : A -> bool) l,
  contains_if P l = true <-> exists x, In x l /\ P x = true.
Proof. exact @contains_if_spec. Qed.
Print Assumptions C07_contains_if.

(** The first adjacent pair in relation, or the end. *)
Theorem C07_adjacent_find : forall A (p : A -> A -> bool) l,
  let r := adjacent_find p l in
  r <= length l /\
  (forall k a b, k < r -> nth_error l k = Some a -> nth_error l (S k) = Some b -> p a b = false) /\
  (r < length l ->
     exists a b, nth_error l r = Some a /\ nth_error l (S r) = Some b /\ p a b = true).
Proof. exact @adjacent_find_spec. Qed.
Print Assumptions C07_adjacent_find.

(** The first maximal run of matches. *)
Theorem C07_find_first_range_of : forall A (P : A -> bool) l,
  let '(a, b) := find_first_range_of P l in
  is_first P l a /\ a <= b <= length l /\
  (forall k x, a <= k < b -> nth_error l k = Some x -> P x = true) /\
  (forall x, nth_error l b = Some x -> P x = false).
Proof. exact @find_first_range_of_spec. Qed.
Print Assumptions C07_find_first_range_of.

(** The first element some predicate accepts, and the first such predicate. *)
Theorem C07_find_one_of : forall A (preds : list (A -> bool)) l,
  let '(p, i) := find_one_of preds l in
  is_first (fun x => existsb (fun f => f x) preds) l p /\
  match i with
  | Some idx => exists x, nth_error l p = Some x /\ is_first (fun f => f x) preds idx /\
                          idx < length preds
  | None => p = length l
  end.
Proof. exact @find_one_of_spec. Qed.
Print Assumptions C07_find_one_of.

Example find_runs :
  (find_if Nat.even [1; 3; 4; 6], find Nat.eqb 6 [1; 3; 4; 6], find Nat.eqb 7 [1; 3; 4; 6],
   find_first_range_of Nat.even [1; 2; 4; 3; 6], adjacent_find Nat.eqb [1; 2; 2; 2],
   find_one_of [Nat.eqb 9; Nat.even] [1; 3; 4]) = (2, 3, 4, (1, 3), 1, (2, Some 1)).
Proof. reflexivity. Qed.

(** C08. *)
Theorem C08_all_of : forall A (P : A -> bool) l,
  all_of P l = true <-> forall x, In x l -> P x = true.
Proof. exact @all_of_spec. Qed.
Print Assumptions C08_all_of.

Theorem C08_any_of : forall A (P : A -> bool) l,
  any_of P l = true <-> exists x, In x l /\ P x = true.
Proof. exact @any_of_spec. Qed.
Print Assumptions C08_any_of.

Theorem C08_none_of : forall A (P : A -> bool) l,
  none_of P l = true <-> ~ exists x, In x l /\ P x = true.
Proof. exact @none_of_spec. Qed.
Print Assumptions C08_none_of.

Theorem C08_satisfies_one : forall A (l : list A) f fs,
  satisfies_one_range l f fs = true <->
  exists x g, In x l /\ In g (f :: fs) /\ g x = true.
Proof. exact @satisfies_one_range_spec. Qed.
Print Assumptions C08_satisfies_one.

Theorem C08_satisfies_all : forall A (l : list A) f fs,
  satisfies_all_range l f fs = true <->
  forall x g, In x l -> In g (f :: fs) -> g x = true.
Proof. exact @satisfies_all_range_spec. Qed.
Print Assumptions C08_satisfies_all.

(** For an equivalence relation all_equal decides pairwise equality; for any
    relation it compares with the first element ([C08_all_equal_head]). *)
Theorem C08_all_equal : forall A (comp : A -> A -> bool) l,
  (forall x, comp x x = true) -> (forall x y, comp x y = true -> comp y x = true) ->
  (forall x y z, comp x y = true -> comp y z = true -> comp x z = true) ->
  (all_equal comp l = true <-> forall x y, In x l -> In y l -> comp x y = true).
Proof. exact @all_equal_spec. Qed.
Print Assumptions C08_all_equal.

Theorem C08_all_equal_head : forall A (comp : A -> A -> bool) x t,
  all_equal comp (x :: t) = true <-> forall y, In y t -> comp x y = true.
Proof. exact @all_equal_head. Qed.
Print Assumptions C08_all_equal_head.

Theorem C08_count_if : forall A (P : A -> bool) l, count_if P l = length (filter P l).
Proof. exact @count_if_spec. Qed.
Print Assumptions C08_count_if.

Example quantifier_runs :
  (all_of Nat.even [2; 4], all_of Nat.even [], any_of Nat.even [1; 3], none_of Nat.even [1; 3],
   satisfies_one_range [1; 2] (Nat.eqb 5) [Nat.eqb 2], satisfies_all_range [1; 2] (Nat.eqb 1) [],
   all_equal Nat.eqb [4; 4; 5], count_if Nat.even [1; 2; 4])
  = (true, true, false, true, true, false, false, 2).
Proof. reflexivity. Qed.
Example all_equal_hyp : (forall x, Nat.eqb x x = true) /\
  (forall x y, Nat.eqb x y = true -> Nat.eqb y x = true) /\
  (forall x y z, Nat.eqb x y = true -> Nat.eqb y z = true -> Nat.eqb x z = true).
Proof.
  repeat split; intros; rewrite ?Nat.eqb_eq in *; congruence.
Qed.

(** C09. *)
Theorem C09_search : forall A B (comp : A -> B -> bool) l s,
  exists p, search comp l s = Ok p /\
    ((occurs_at comp l s p /\ forall q, q < p -> ~ occurs_at comp l s q) \/
     (p = length l /\ forall q, ~ occurs_at comp l s q)).
Proof. exact @search_spec. Qed.
Print Assumptions C09_search.

Example search_runs :
  (search Nat.eqb [1; 1; 2; 1; 1; 2; 3] [1; 1; 2; 3], search Nat.eqb [1; 2; 1] [1; 1],
   search Nat.eqb [1; 2] [], search Nat.eqb [] [1]) = (Ok 3, Ok 3, Ok 0, Ok 0).
Proof. reflexivity. Qed.
