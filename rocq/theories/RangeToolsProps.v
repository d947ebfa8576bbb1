(** Container algorithms, sorted insertion, Sample, ForEach, Elements and swaps: theorems. *)
From Verif Require Import Common RangeTools SpecRangeTools RangeToolsProofs.
From Coq Require Import Permutation.
Open Scope Z_scope.

(** * C293 Container algorithms *)

(** copy writes all elements in order and nothing else; a destination that is too small is undefined behaviour. *)
Theorem C293_copy :
  forall (A : Type) (src out : list A) d, (d <= length out)%nat ->
  ((d + length src <= length out)%nat -> copy src out d = Ok (written out d src)) /\
  ((length out < d + length src)%nat -> copy src out d = UB).
Proof. exact c293_copy. Qed.

(** copy_n copies the first count elements, all of them if there are fewer. *)
Theorem C293_copy_n :
  forall (A : Type) (src out : list A) count d, 0 <= count -> copy_n src count out d = copy (firstn (Z.to_nat count) src) out d.
Proof. exact c293_copy_n. Qed.

(** copy_if copies the elements that satisfy the predicate, in order, and returns the position behind them; room is needed only for those. *)
Theorem C293_copy_if :
  forall (A : Type) (src out : list A) d pred, (d + length (filter pred src) <= length out)%nat ->
  copy_if src out d pred = Ok (written out d (filter pred src), (d + length (filter pred src))%nat).
Proof. exact c293_copy_if. Qed.

(** for_each_with_pos calls the function once for each element of the interval, in order, with its position; other elements are untouched. *)
Theorem C293_with_pos :
  forall (A St : Type) (func : St -> A -> Z -> St * A) st (l1 l2 l3 : list A), Z.of_nat (length l1) < 2 ^ 63 ->
  let first := Z.of_nat (length l1) in
  for_each_with_pos func st (l1 ++ l2 ++ l3) first (first + Z.of_nat (length l2)) =
    Ok (fst (visit func st l2 first), l1 ++ snd (visit func st l2 first) ++ l3) /\
  for_each_with_pos_all func st l2 = Ok (visit func st l2 0).
Proof. exact c293_with_pos. Qed.

(** An interval that ends outside the container is undefined behaviour: it is not checked. *)
Theorem C293_with_pos_outside :
  forall (A St : Type) (func : St -> A -> Z -> St * A) st (l : list A) first last, 0 <= first < last -> first < 2 ^ 63 -> Z.of_nat (length l) < last ->
  for_each_with_pos func st l first last = UB.
Proof. exact c293_with_pos_outside. Qed.

(** for_each_subset calls the function with the container and each position of the interval in order. *)
Theorem C293_subset :
  forall (C : Type) (func : C -> Z -> C) c first n,
  for_each_subset func c first (first + Z.of_nat n) = Ok (fold_left func (map (fun k => first + Z.of_nat k) (seq 0 n)) c).
Proof. exact c293_subset. Qed.

Example C293_nonvacuous : copy_n [1; 2; 3] 2 [0; 0; 0; 0] 1 = Ok [0; 1; 2; 0] /\
  copy_if [1; 2; 3; 4] [0; 0; 0] 1 Z.even = Ok ([0; 2; 4], 3%nat) /\ copy_n [1; 2; 3] 3 [0; 0] 0 = UB /\
  for_each_with_pos (fun st x i => (st + x, x * i)) 0 [5; 6; 7; 8] 1 3 = Ok (13, [5; 6; 14; 8]).
Proof. repeat split; vm_compute; reflexivity. Qed.
Print Assumptions C293_copy.
Print Assumptions C293_copy_n.
Print Assumptions C293_copy_if.
Print Assumptions C293_with_pos.
Print Assumptions C293_with_pos_outside.
Print Assumptions C293_subset.

(** * C294 Sorted insertion *)

(** Whatever is written through a sorted insert iterator, the container stays sorted and holds what it held and what was written. *)
Theorem C294_sorted :
  forall (A : Type) (comp : A -> A -> bool), strict_weak comp -> forall values c, sorted_by comp c ->
  exists c', sorted_insert_all comp c values = Ok c' /\ sorted_by comp c' /\ Permutation c' (values ++ c).
Proof. exact c294_sorted. Qed.

(** A value goes behind exactly the smaller elements, other elements keep their order. *)
Theorem C294_position :
  forall (A : Type) (comp : A -> A -> bool), strict_weak comp -> forall c v, sorted_by comp c ->
  exists l1 l2, c = l1 ++ l2 /\ sorted_insert comp c v = Ok (l1 ++ v :: l2) /\
    (forall x, In x l1 -> comp x v = true) /\ (forall x, In x l2 -> comp x v = false).
Proof. exact c294_position. Qed.

(** Not stable: equivalent values end up in the reverse of the order in which they were written. *)
Theorem C294_stable_refuted :
  forall (A : Type) (comp : A -> A -> bool), strict_weak comp -> forall values c,
  (forall x y, In x (values ++ c) -> In y (values ++ c) -> equivalent comp x y) -> sorted_insert_all comp c values = Ok (rev values ++ c).
Proof. exact c294_stable_refuted. Qed.

Example C294_nonvacuous : sorted_insert_all Z.ltb [2; 4] [3; 9; 1; 3] = Ok [1; 2; 3; 3; 4; 9] /\
  sorted_insert_all (fun a b => a / 10 <? b / 10) [] [11; 21; 12; 13] = Ok [13; 12; 11; 21].
Proof. split; vm_compute; reflexivity. Qed.
Print Assumptions C294_sorted.
Print Assumptions C294_position.
Print Assumptions C294_stable_refuted.

(** * C295 Sample *)

(** The i-th element is in the sample exactly if the i-th number of the engine is at most number_to_keep; a view can be traversed again and again with the same elements. *)
Theorem C295_sample :
  forall (A E : Type) (draw : E -> Z * E) keep size (l : list A) e, keep < size ->
  exists v, sample draw keep size l e = Ok v /\ run_view draw keep v = Ok (chosen keep l (draws draw (length l) e)).
Proof. exact c295_sample. Qed.

(** Keeping 0 of any number gives nothing; keeping all is refused. *)
Theorem C295_extremes :
  forall (A E : Type) (draw : E -> Z * E) keep size (l : list A) e, (forall e, 1 <= fst (draw e) <= size) ->
  (size <= keep -> sample draw keep size l e = Throw) /\
  (keep = 0 -> 0 < size -> exists v, sample draw keep size l e = Ok v /\ run_view draw keep v = Ok []).
Proof. exact c295_extremes. Qed.

(** Samples that one Sample object takes from several ranges are not independent: they keep the same positions, as each call copies the engine. *)
Theorem C295_independent_refuted :
  forall (E : Type) (draw : E -> Z * E) keep size e n (A B : Type) (la : list A) (lb : list B), keep < size -> length la = n -> length lb = n ->
  exists va vb positions, sample draw keep size la e = Ok va /\ sample draw keep size lb e = Ok vb /\
    run_view draw keep va = Ok (map fst (filter (fun p => existsb (Nat.eqb (snd p)) positions) (combine la (seq 0 n)))) /\
    run_view draw keep vb = Ok (map fst (filter (fun p => existsb (Nat.eqb (snd p)) positions) (combine lb (seq 0 n)))).
Proof. exact c295_independent_refuted. Qed.

Example C295_nonvacuous : let draw := fun e => (e mod 5 + 1, 3 * e + 1) in
  (v <- sample draw 2 5 [10; 20; 30; 40; 50; 60] 1 ;; run_view draw 2 v) = Ok [10; 40; 50] /\ sample draw 5 5 [10] 1 = Throw.
Proof. split; vm_compute; reflexivity. Qed.
Print Assumptions C295_sample.
Print Assumptions C295_extremes.
Print Assumptions C295_independent_refuted.

(** * C296 ForEach, Elements, Swizzle, Maybe *)

(** ForEach and ForEachIndexed call the function once for each element, in order, and leave its changes in the range. *)
Theorem C296_for_each :
  forall (A St : Type) (fn : St -> A -> St * A) st (l : list A),
  for_each fn st l = visit (fun st x _ => fn st x) st l 0 /\ for_each_indexed fn st l = Ok (for_each fn st l).
Proof. exact c296_for_each. Qed.

(** Elements and Swizzle give, for every tuple in order, the elements with the given indices in the given order, also repeated ones. *)
Theorem C296_elements :
  forall (V : Type) (d : V) indices r, in_arity indices r ->
  elements indices r = Ok (map (fun t => map (fun i => nth i t d) indices) r) /\ swizzle indices r = elements indices r.
Proof. exact c296_elements. Qed.

(** Element gives the element with the index of every tuple, in order. *)
Theorem C296_element :
  forall (V : Type) (d : V) i r, in_arity [i] r -> element i r = Ok (map (fun t => nth i t d) r).
Proof. exact c296_element. Qed.

(** A Maybe range has the one element pointed to, or none. *)
Theorem C296_maybe :
  forall (A : Type) (x y : A), (In y (maybe_elements (Some x)) <-> y = x) /\ length (maybe_elements (Some x)) = 1%nat /\ maybe_elements (@None A) = [].
Proof. exact c296_maybe. Qed.

Example C296_nonvacuous : for_each_indexed (fun st x => (st + x, x + st)) 0 [1; 2; 3] = Ok (6, [1; 3; 6]) /\
  in_arity [2; 0; 2]%nat [[1; 2; 3]; [4; 5; 6]] /\ elements [2; 0; 2]%nat [[1; 2; 3]; [4; 5; 6]] = Ok [[3; 1; 3]; [6; 4; 6]].
Proof. split; [vm_compute; reflexivity|]. split; [|vm_compute; reflexivity]. intros t i [<- | [<- | []]] H; cbn in *; intuition lia. Qed.
Print Assumptions C296_for_each.
Print Assumptions C296_elements.
Print Assumptions C296_element.
Print Assumptions C296_maybe.

(** * C297 Swaps *)

(** cswap and iter_swap exchange the two values, also of an object with itself, and change nothing else. *)
Theorem C297_swap :
  forall (A : Type) (mem : list A) i j, (i < length mem)%nat -> (j < length mem)%nat ->
  (exists mem', cswap mem i j = Ok mem' /\ exchanged mem i j mem') /\ (exists mem', iter_swap mem i j = Ok mem' /\ exchanged mem i j mem').
Proof. exact c297_swap. Qed.

(** swap_ranges, and cswap of two std::array, of pointers leave the arrays as they are and swap what the pointers point to. *)
Theorem C297_ranges_refuted :
  forall (A : Type) (p1 p2 : list nat) (mem : list A), length p1 = length p2 -> NoDup (p1 ++ p2) -> (forall p, In p (p1 ++ p2) -> (p < length mem)%nat) ->
  exists mem', swap_ranges mem p1 p2 = Ok (mem', p1, p2) /\
    (forall k p q, nth_error p1 k = Some p -> nth_error p2 k = Some q -> nth_error mem' p = nth_error mem q /\ nth_error mem' q = nth_error mem p) /\
    (forall p, ~ In p (p1 ++ p2) -> nth_error mem' p = nth_error mem p).
Proof. exact c297_ranges_refuted. Qed.

(** The second range must be at least as long as the first. *)
Theorem C297_ranges_short :
  forall (A : Type) (p1 p2 : list nat) (mem : list A), (length p2 < length p1)%nat -> forall r, swap_ranges mem p1 p2 <> Ok r.
Proof. exact c297_ranges_short. Qed.

Example C297_nonvacuous : cswap [1; 2; 3] 0 2 = Ok [3; 2; 1] /\ iter_swap [1; 2; 3] 1 1 = Ok [1; 2; 3] /\
  swap_ranges [1; 2; 3; 4] [0; 1]%nat [3; 2]%nat = Ok ([4; 3; 2; 1], [0; 1]%nat, [3; 2]%nat).
Proof. repeat split; vm_compute; reflexivity. Qed.
Print Assumptions C297_swap.
Print Assumptions C297_ranges_refuted.
Print Assumptions C297_ranges_short.
