(** The properties of the iterator adaptors (C145 to C159). *)
From Verif Require Import Common Ints Math SpecBits Pipelines SpecPipes Iterators SpecIterators IteratorsProofs.
From Coq Require Import Lia Permutation.
Open Scope Z_scope.

(** ** C145: a circular iterator moves modulo the size *)
Theorem C145_add_partial {A} (l : list A) p n :
  l <> [] -> zlen l < 2 ^ 63 -> - 2 ^ 63 < p + n < 2 ^ 63 -> ~ (p + n < 0 /\ (p + n) mod zlen l = 0) ->
  circ_add l p n = Ok ((p + n) mod zlen l).
Proof. exact (circ_add_mod l p n). Qed.
Theorem C145_sub_partial {A} (l : list A) p n :
  l <> [] -> zlen l < 2 ^ 63 -> - 2 ^ 63 < n <= 2 ^ 63 -> - 2 ^ 63 < p - n < 2 ^ 63 -> ~ (p - n < 0 /\ (p - n) mod zlen l = 0) ->
  circ_sub l p n = Ok ((p - n) mod zlen l).
Proof. exact (circ_sub_mod l p n). Qed.
Theorem C145_get {A} (l : list A) p : l <> [] ->
  exists x, nth_error l (Z.to_nat (p mod zlen l)) = Some x /\ circ_get l (p mod zlen l) = Ok x.
Proof. exact (circ_get_mod l p). Qed.
Theorem C145_steps_partial {A} (l : list A) : (2 <= length l)%nat -> zlen l < 2 ^ 63 -> forall ops p,
  0 <= p < zlen l -> steps (circ_inc l) (circ_dec l) ops p = Ok ((p + net ops) mod zlen l).
Proof. exact (circ_steps l). Qed.
Theorem C145_increments {A} (l : list A) : l <> [] -> zlen l < 2 ^ 63 -> forall k p, 0 <= p < zlen l ->
  times k (circ_inc l) p = Ok ((p + Z.of_nat k) mod zlen l).
Proof. exact (circ_inc_times l). Qed.
Theorem C145_refuted {A} (l : list A) p n :
  l <> [] -> zlen l < 2 ^ 63 -> - 2 ^ 63 < n < 2 ^ 63 -> - 2 ^ 63 < p - n < 0 -> (p - n) mod zlen l = 0 ->
  circ_sub l p n = Ok (zlen l) /\ circ_get l (zlen l) = UB.
Proof. exact (circ_sub_wrong l p n). Qed.
Theorem C145_empty_refuted {A} : circ_inc ([] : list A) 0 = UB /\ circ_dec ([] : list A) 0 = UB.
Proof. exact circ_empty. Qed.
Print Assumptions C145_add_partial.
Print Assumptions C145_sub_partial.
Print Assumptions C145_get.
Print Assumptions C145_steps_partial.
Print Assumptions C145_increments.
Print Assumptions C145_refuted.
Print Assumptions C145_empty_refuted.
Example C145_nontrivial :
  let l := [10; 20; 30; 40] in
  circ_add l 3 7 = Ok 2 /\ circ_sub l 1 7 = Ok 2 /\ circ_sub l 1 5 = Ok 4 /\ circ_get l 4 = UB /\ circ_dec [10] 0 = Ok 1 /\
  steps (circ_inc l) (circ_dec l) [false; false; true; false; false; false; true] 0 = Ok 1.
Proof. vm_compute. auto 7. Qed.

(** ** C146: a loop over a circular iterator ends after one round *)
Theorem C146_refuted {A} (l : list A) : l <> [] -> zlen l < 2 ^ 63 -> forall fuel p, 0 <= p < zlen l ->
  walk fuel (circ_range l) p = OutOfFuel.
Proof. exact (circ_never_ends l). Qed.
Print Assumptions C146_refuted.
Example C146_nontrivial : walk 50 (circ_range [1; 2; 3]) 0 = OutOfFuel /\ walk 50 (circ_range ([] : list Z)) 0 = Ok [].
Proof. vm_compute. auto. Qed.

(** ** C147: a chunk iterator moves by chunks *)
Theorem C147_increments {A} (l : list A) c : 0 < c -> forall k p, 0 <= p -> p + Z.of_nat k * c <= zlen l ->
  times k (chunk_inc l c) p = Ok (p + Z.of_nat k * c).
Proof. exact (chunk_inc_times l c). Qed.
Theorem C147_add {A} (l : list A) c p n : zlen l < 2 ^ 63 -> 0 <= p -> 0 <= p + n * c <= zlen l -> p <= zlen l ->
  chunk_add l c p n = Ok (p + n * c).
Proof. exact (chunk_add_ok l c p n). Qed.
Theorem C147_back {A} (l : list A) c p q : 0 <= p -> p <= zlen l -> chunk_inc l c p = Ok q -> chunk_dec l c q = Ok p.
Proof. exact (chunk_dec_inc l c p q). Qed.
Theorem C147_loop_partial {A} (l : list A) c : 0 < c -> forall k p, 0 <= p -> p + Z.of_nat k * c = zlen l ->
  exists ys, yields false (chunk_range c l) p ys /\
    length ys = k /\ forall j, (j < k)%nat -> nth_error ys j = nth_error l (Z.to_nat (p + Z.of_nat j * c)).
Proof. exact (chunk_yields l c). Qed.
Theorem C147_sub_refuted {A} (l : list A) c p n : chunk_sub l c p n = chunk_add l c p n.
Proof. exact (chunk_sub_wrong l c p n). Qed.
Theorem C147_difference_refuted {A} (l : list A) c p n q : zlen l < 2 ^ 63 -> 0 <= p <= zlen l ->
  chunk_add l c p n = Ok q -> chunk_diff q p = Ok (n * c).
Proof. exact (chunk_diff_wrong l c p n q). Qed.
Theorem C147_order :
  forall (A : Type) (l : list A) c p n q, 0 < c -> zlen l < 2 ^ 63 -> 0 <= p <= zlen l ->
  chunk_add l c p n = Ok q -> chunk_lt p q = (0 <? n) /\ chunk_lt q p = (n <? 0).
Proof. exact c147_order_l. Qed.
Print Assumptions C147_order.
Print Assumptions C147_increments.
Print Assumptions C147_add.
Print Assumptions C147_back.
Print Assumptions C147_loop_partial.
Print Assumptions C147_sub_refuted.
Print Assumptions C147_difference_refuted.
Example C147_nontrivial :
  let l := [1; 2; 3; 4; 5; 6] in
  walk 9 (chunk_range 2 l) 0 = Ok [1; 3; 5] /\ walk 9 (chunk_range 4 l) 0 = UB /\
  chunk_add l 2 0 2 = Ok 4 /\ chunk_dec l 2 4 = Ok 2 /\ chunk_sub l 2 2 1 = Ok 4 /\ chunk_diff 4 0 = Ok 4.
Proof. vm_compute. auto 7. Qed.

(** ** C148: indexed iterators *)
Theorem C148_add_partial {A} dbg (l : list A) p n : zlen l < 2 ^ 63 -> 0 <= p + n < zlen l ->
  idx_add dbg l p n = Ok (p + n).
Proof. exact (idx_add_ok dbg l p n). Qed.
Theorem C148_sub_partial {A} dbg (l : list A) p n : zlen l < 2 ^ 63 -> 0 <= p - n < zlen l ->
  idx_sub dbg l p n = Ok (p - n).
Proof. exact (idx_sub_ok dbg l p n). Qed.
Theorem C148_add_assign {A} dbg (l : list A) p n : zlen l < 2 ^ 63 -> 0 <= p + n <= zlen l ->
  idx_add_assign dbg l p n = Ok (p + n).
Proof. exact (idx_add_assign_ok dbg l p n). Qed.
Theorem C148_sub_assign dbg p n : 0 <= p - n < 2 ^ 63 -> idx_sub_assign dbg p n = Ok (p - n).
Proof. exact (idx_sub_assign_ok dbg p n). Qed.
Theorem C148_get {A} dbg (l : list A) p x : zlen l < 2 ^ 63 -> 0 <= p -> nth_error l (Z.to_nat p) = Some x ->
  idx_get dbg l p = Ok x.
Proof. exact (idx_get_ok dbg l p x). Qed.
Theorem C148_order dbg p q : 0 <= p < 2 ^ 63 -> 0 <= q < 2 ^ 63 ->
  idx_eq dbg p q = Ok (p =? q) /\ idx_ne dbg p q = Ok (negb (p =? q)) /\
  idx_lt dbg p q = Ok (p <? q) /\ idx_gt dbg p q = Ok (q <? p) /\
  idx_le dbg p q = Ok (p <=? q) /\ idx_ge dbg p q = Ok (q <=? p).
Proof. exact (idx_order dbg p q). Qed.
Theorem C148_loop {A} dbg (l : list A) : zlen l < 2 ^ 63 ->
  ibegin dbg l = Ok 0 /\ iend dbg l = Ok (zlen l) /\ visits (idx_range dbg l) l.
Proof. exact (fun H => conj (ibegin_ok dbg l H) (conj (iend_ok dbg l H) (idx_visits dbg l H))). Qed.
Theorem C148_difference_partial dbg p q : 0 <= q <= p -> p < 2 ^ 63 -> idx_diff dbg p q = Ok (p - q).
Proof. exact (idx_diff_ok dbg p q). Qed.
Theorem C148_to_end_refuted {A} (l : list A) : zlen l < 2 ^ 63 -> idx_add true l 0 (zlen l) = Throw.
Proof. exact (idx_plus_end l). Qed.
Theorem C148_difference_refuted p q : 0 <= p < q -> idx_diff true p q = Throw.
Proof. exact (idx_diff_back p q). Qed.
Theorem C148_unchecked_refuted {A} (l : list A) : zlen l < 2 ^ 63 - 1 ->
  idx_get true l (zlen l) = UB /\ idx_inc true l (zlen l) = Ok (zlen l + 1).
Proof. exact (fun H => conj (idx_get_end l (Z.lt_trans _ _ _ H (Z.lt_pred_l (2 ^ 63)))) (idx_inc_end l H)). Qed.
Theorem C148_back :
  forall (A : Type) dbg (l : list A) p, zlen l < 2 ^ 63 - 1 -> 0 <= p <= zlen l ->
  idx_inc dbg l p = Ok (p + 1) /\ idx_dec dbg (p + 1) = Ok p.
Proof. exact c148_back_l. Qed.
Print Assumptions C148_back.
Print Assumptions C148_add_partial.
Print Assumptions C148_sub_partial.
Print Assumptions C148_add_assign.
Print Assumptions C148_sub_assign.
Print Assumptions C148_get.
Print Assumptions C148_order.
Print Assumptions C148_loop.
Print Assumptions C148_difference_partial.
Print Assumptions C148_to_end_refuted.
Print Assumptions C148_difference_refuted.
Print Assumptions C148_unchecked_refuted.
Example C148_nontrivial :
  let l := [7; 8; 9] in
  idx_add true l 1 1 = Ok 2 /\ idx_add true l 1 2 = Throw /\ idx_add_assign true l 1 2 = Ok 3 /\ idx_get true l 2 = Ok 9 /\
  idx_get true l 3 = UB /\ walk 5 (idx_range true l) 0 = Ok [7; 8; 9].
Proof. vm_compute. auto 7. Qed.

(** ** C149: find_iterator visits the elements that satisfy the predicate *)
Theorem C149_loop {A} (f : A -> bool) (l : list A) : visits (find_range f l) (filter f l).
Proof. exact (find_visits f l). Qed.
Print Assumptions C149_loop.
Example C149_nontrivial : let r := find_range (fun x => x <? 4) [5; 1; 7; 3; 9; 2; 8] in walk 9 r (cur r) = Ok [1; 3; 2].
Proof. vm_compute. auto. Qed.

(** ** C150: find_one_iterator visits the elements for which one of the predicates holds *)
Theorem C150_loop_partial {A} (preds : list (A -> bool)) (l : list A) : zlen preds < 2 ^ 64 ->
  visits (find_one_range preds l)
    (match l with [] => [] | x :: t => (x, 2 ^ 64 - 1) :: matches preds t end).
Proof. exact (find_one_visits preds l). Qed.
Theorem C150_refuted {A} (preds : list (A -> bool)) (l : list A) : zlen preds < 2 ^ 64 - 1 -> l <> [] ->
  ~ visits (find_one_range preds l) (matches preds l).
Proof. exact (find_one_wrong preds l). Qed.
Print Assumptions C150_loop_partial.
Print Assumptions C150_refuted.
Example C150_nontrivial :
  let preds := [(fun x => x =? 3); (fun x => x <? 5)] in
  matches preds [9; 4; 8; 3; 1] = [(4, 1); (3, 0); (1, 1)] /\
  walk 9 (find_one_range preds [9; 4; 8; 3; 1]) (cur (find_one_range preds [9; 4; 8; 3; 1])) =
    Ok [(9, 2 ^ 64 - 1); (4, 1); (3, 0); (1, 1)].
Proof. vm_compute. auto. Qed.

(** ** C151: a counting iterator knows how far it has moved *)
Theorem C151_distance {A} (l : list A) ops p s : zlen l < 2 ^ 63 -> 0 <= p <= zlen l ->
  cnt_run l ops (cnt_make p) = Ok s -> s = (p + net ops, net ops) /\ 0 <= p + net ops <= zlen l.
Proof. exact (counting l ops p s). Qed.
Theorem C151_defined {A} (l : list A) ops p : zlen l < 2 ^ 63 ->
  (forall k, 0 <= p + net (firstn k ops) <= zlen l) -> cnt_run l ops (cnt_make p) = Ok (p + net ops, net ops).
Proof. exact (counting_defined l ops p). Qed.
Print Assumptions C151_distance.
Print Assumptions C151_defined.
Example C151_nontrivial : cnt_run [1; 2; 3; 4] [true; true; false; true; false; false; false] (cnt_make 2) = Ok (1, -1).
Proof. vm_compute. auto. Qed.

(** ** C152: iota_iterator *)
Theorem C152_increments T step : std_width (width T) -> forall k v, fits T v ->
  times k (iota_inc T step) v = Ok (conv T (v + step * Z.of_nat k)).
Proof. exact (iota_times T step). Qed.
Theorem C152_back T step v w : std_width (width T) -> fits T v -> iota_inc T step v = Ok w -> iota_dec T step w = Ok v.
Proof. exact (iota_back T step v w). Qed.
Theorem C152_add T step v n : std_width (width T) -> fits (signed_of T) (step * n) ->
  iota_add T step v n = Ok (conv T (v + step * n)).
Proof. exact (iota_add_ok T step v n). Qed.
Theorem C152_sub T step v n : std_width (width T) -> fits (signed_of T) (step * n) ->
  iota_sub T step v n = Ok (conv T (v - step * n)).
Proof. exact (iota_sub_ok T step v n). Qed.
Theorem C152_difference_partial T step v n : std_width (width T) -> signed T = true ->
  fits T v -> fits T (v + step * n) -> fits T (step * n) -> fits T n -> step <> 0 -> iota_diff T step (v + step * n) v = Ok n.
Proof. exact (iota_diff_ok T step v n). Qed.
Theorem C152_range_partial T f l step : std_width (width T) -> signed T = true -> 0 < step -> fits T step -> fits T f -> fits T l ->
  fits T (l + step - 1) -> fits T (f - l) ->
  visits (iota_range T f l step) (arith f step (Z.to_nat ((l - f + step - 1) / step))).
Proof. exact (iota_range_visits T f l step). Qed.
Theorem C152_range_refuted T f l step : std_width (width T) -> signed T = false -> fits T f -> fits T l ->
  visits (iota_range T f l step) [].
Proof. exact (iota_unsigned_empty T f l step). Qed.
Theorem C152_order_refuted T v w : std_width (width T) -> signed T = true -> fits T (v - w) ->
  iota_lt T v w = Ok (v <? w) /\ iota_ge T v w = Ok (w <=? v) /\
  iota_eq T v w = Ok (w <=? v) /\ iota_ne T v w = Ok (v <? w) /\ iota_le T v w = Ok (v <? w) /\ iota_gt T v w = Ok false.
Proof. exact (iota_order_signed T v w). Qed.
Theorem C152_unsigned_order_refuted T v w : std_width (width T) -> signed T = false -> fits T v -> fits T w ->
  iota_eq T v w = Ok true /\ iota_lt T v w = Ok false /\ iota_gt T v w = Ok false.
Proof. exact (iota_order_unsigned T v w). Qed.
Theorem C152_add_assign_refuted T v n : std_width (width T) -> fits (signed_of T) v -> fits T v -> fits (signed_of T) (v + n) -> fits T (v + n) ->
  iota_add_assign T v n = Ok (v + n).
Proof. exact (iota_add_assign_ok T v n). Qed.
Theorem C152_sub_assign_refuted :
  forall T v n, std_width (width T) -> fits (signed_of T) v -> fits T v -> fits (signed_of T) (v - n) -> fits T (v - n) ->
  iota_sub_assign T v n = Ok (v - n).
Proof. exact c152_sub_assign_refuted_l. Qed.
Print Assumptions C152_sub_assign_refuted.
Print Assumptions C152_increments.
Print Assumptions C152_back.
Print Assumptions C152_add.
Print Assumptions C152_sub.
Print Assumptions C152_difference_partial.
Print Assumptions C152_range_partial.
Print Assumptions C152_range_refuted.
Print Assumptions C152_order_refuted.
Print Assumptions C152_unsigned_order_refuted.
Print Assumptions C152_add_assign_refuted.
Example C152_nontrivial :
  walk 9 (iota_range i32 (-3) 8 4) (-3) = Ok [-3; 1; 5] /\ arith (-3) 4 3 = [-3; 1; 5] /\
  walk 9 (iota_range u32 3 8 1) 3 = Ok [] /\ iota_add i8 50 100 2 = Ok (-56).
Proof. vm_compute. auto. Qed.

(** ** C153: integer_range *)
Theorem C153_loop T f l : std_width (width T) -> fits T f -> fits T l -> f <= l ->
  visits (integer_range T f l) (arith f 1 (Z.to_nat (l - f))).
Proof. exact (integer_up T f l). Qed.
Theorem C153_wraps T f l : std_width (width T) -> fits T f -> fits T l -> signed T = false \/ width T < 32 ->
  visits (integer_range T f l) (map (fun i => conv T (f + Z.of_nat i)) (seq 0 (Z.to_nat ((l - f) mod 2 ^ width T)))).
Proof. exact (integer_wraps T f l). Qed.
Print Assumptions C153_loop.
Print Assumptions C153_wraps.
Example C153_nontrivial : walk 9 (integer_range i32 (-2) 3) (-2) = Ok [-2; -1; 0; 1; 2] /\
  walk 9 (integer_range u8 254 2) 254 = Ok [254; 255; 0; 1] /\ walk 5 (integer_range i32 3 2) 3 = OutOfFuel.
Proof. vm_compute. auto. Qed.

(** ** C154: repeat_n_char_iterator *)
Theorem C154_loop {A} (v : A) n : Z.of_nat n < 2 ^ 63 -> visits (rep_range (Z.of_nat n) v) (repeat v n).
Proof. exact (rep_visits v n). Qed.
Theorem C154_distance n : 0 <= n < 2 ^ 63 -> rep_diff 0 (rep_make n) = Ok n.
Proof. exact (rep_count n). Qed.
Theorem C154_add_refuted p n : 0 <= p -> 0 <= n -> p + n < 2 ^ 63 ->
  times (Z.to_nat n) rep_dec p = rep_add p n /\ rep_add p n = Ok (p + n) /\ rep_diff (p + n) p = Ok (- n).
Proof. exact (rep_wrong p n). Qed.
Theorem C154_sub_refuted :
  forall p n, 0 <= n -> - 2 ^ 63 <= p - n -> p < 2 ^ 63 ->
  times (Z.to_nat n) rep_inc p = rep_sub p n /\ rep_sub p n = Ok (p - n).
Proof. exact c154_sub_refuted_l. Qed.
Theorem C154_huge_refuted :
  forall (A : Type) (v : A) count fuel xs, 2 ^ 63 <= count < 2 ^ 64 ->
  walk fuel (rep_range count v) (rep_make count) <> Ok xs.
Proof. exact c154_huge_refuted_l. Qed.
Print Assumptions C154_huge_refuted.
Print Assumptions C154_sub_refuted.
Print Assumptions C154_loop.
Print Assumptions C154_distance.
Print Assumptions C154_add_refuted.
Example C154_nontrivial : walk 9 (rep_range 4 7) 4 = Ok [7; 7; 7; 7] /\ rep_add (rep_make 4) 3 = Ok 7 /\ times 3 rep_inc 4 = Ok 1.
Proof. vm_compute. auto. Qed.

(** ** C155: zipiter *)
Theorem C155_loop {A B} (l : list A) (m : list B) : length l = length m -> visits (zip_range l m) (combine l m).
Proof. exact (zip_visits l m). Qed.
Theorem C155_uneven {A B} (l : list A) (m : list B) : length l <> length m -> forall fuel p xs,
  walk fuel (zip_range l m) (p, p) <> Ok xs.
Proof. exact (zip_uneven l m). Qed.
Theorem C155_advance {A B} (l : list A) (m : list B) p q n : 0 <= p + n <= zlen l -> 0 <= q + n <= zlen m ->
  zip_advance l m (p, q) n = Ok (p + n, q + n).
Proof. exact (zip_advance_ok l m p q n). Qed.
Theorem C155_get {A B} (l : list A) (m : list B) i j x y : nth_error l i = Some x -> nth_error m j = Some y ->
  zip_get l m (Z.of_nat i, Z.of_nat j) = Ok (x, y).
Proof. exact (zip_get_ok l m i j x y). Qed.
Theorem C155_step :
  forall (A B : Type) (l : list A) (m : list B) p q, 0 <= p < zlen l -> 0 <= q < zlen m ->
  zip_inc l m (p, q) = Ok (p + 1, q + 1) /\ zip_dec l m (p + 1, q + 1) = Ok (p, q).
Proof. exact c155_step_l. Qed.
Print Assumptions C155_step.
Print Assumptions C155_loop.
Print Assumptions C155_get.
Print Assumptions C155_uneven.
Print Assumptions C155_advance.
Example C155_nontrivial : walk 9 (zip_range [1; 2; 3] [true; false; true]) (0, 0) = Ok [(1, true); (2, false); (3, true)] /\
  walk 9 (zip_range [1; 2] [true; false; true]) (0, 0) = UB.
Proof. vm_compute. auto. Qed.

(** ** C156: the output iterators *)
Theorem C156_append {A} (vs c : list A) : output back_assign c vs = c ++ vs /\ output end_assign c vs = c ++ vs.
Proof. exact (conj (output_back vs c) (output_end vs c)). Qed.
Theorem C156_function {S A} (f : S -> A -> S) vs s : output (function_assign f) s vs = fold_left f vs s.
Proof. exact (output_function f vs s). Qed.
Theorem C156_sorted {A} (comp : A -> A -> bool) : strict_weak comp -> forall vs c, sorted_by comp c ->
  let r := output (sorted_assign comp) c vs in
  sorted_by comp r /\ Permutation (c ++ vs) r /\
  forall y, filter (fun x => negb (comp x y) && negb (comp y x)) r =
            rev (filter (fun x => negb (comp x y) && negb (comp y x)) vs) ++ filter (fun x => negb (comp x y) && negb (comp y x)) c.
Proof. exact (output_sorted comp). Qed.
Print Assumptions C156_append.
Print Assumptions C156_function.
Print Assumptions C156_sorted.
Example C156_nontrivial :
  let comp := fun a b : Z * Z => fst a <? fst b in
  output (sorted_assign comp) [(1, 0); (4, 0); (6, 0)] [(4, 1); (9, 1); (0, 1); (4, 2)] =
    [(0, 1); (1, 0); (4, 2); (4, 1); (4, 0); (6, 0); (9, 1)] /\
  output back_assign [1] [2; 3] = [1; 2; 3].
Proof. vm_compute. auto. Qed.

(** ** C157: checked_iterator_proxy *)
Theorem C157_get_partial {A} (l : list A) i d r last p : i || d || r = true ->
  chk_get l (get_flag_value i d r) last p = if p =? last then Throw else at_pos l p.
Proof. exact (chk_get_ok l i d r last p). Qed.
Theorem C157_unchecked {A} (l : list A) last p : chk_get l (get_flag_value false false false) last p = at_pos l p.
Proof. exact (chk_get_off l last p). Qed.
Theorem C157_moves_refuted {A} (l : list A) i d r first last p :
  chk_inc l (get_flag_value i d r) last p = move (zlen l) p 1 /\
  chk_dec l (get_flag_value i d r) first p = move (zlen l) p (-1).
Proof. exact (conj (chk_inc_never l i d r last p) (chk_dec_never l i d r first p)). Qed.
Theorem C157_past_end_refuted {A} (l : list A) i d r :
  chk_inc l (get_flag_value i d r) (zlen l) (zlen l) = UB /\ chk_dec l (get_flag_value i d r) 0 0 = UB.
Proof. exact (chk_past_end l i d r). Qed.
Theorem C157_postfix_refuted {A} (l : list A) i d r first last p q :
  (chk_post_inc l (get_flag_value i d r) last p = Ok q -> q = (p, p + 1)) /\
  (chk_post_dec l (get_flag_value i d r) first p = Ok q -> q = (p, p + -1)).
Proof. exact (chk_post l i d r first last p q). Qed.
Print Assumptions C157_get_partial.
Print Assumptions C157_unchecked.
Print Assumptions C157_moves_refuted.
Print Assumptions C157_past_end_refuted.
Print Assumptions C157_postfix_refuted.
Example C157_nontrivial :
  let l := [4; 5; 6] in
  chk_get l (get_flag_value true true true) 2 2 = Throw /\ chk_get l (get_flag_value true true true) 2 1 = Ok 5 /\
  chk_inc l (get_flag_value true true true) 2 2 = Ok 3 /\ chk_post_inc l (get_flag_value true true true) 3 1 = Ok (1, 2).
Proof. vm_compute. auto. Qed.

(** ** C158: arg_iterator *)
Theorem C158_loop {A} (l : list A) : zlen l < 2 ^ 31 -> visits (arg_range l) l.
Proof. exact (arg_visits l). Qed.
Theorem C158_equality {A} (l : list A) p q :
  arg_eq (Arg (zlen l) p (Some l)) (Arg (zlen l) q (Some l)) = (p =? q) /\
  arg_ne (Arg (zlen l) p (Some l)) (Arg (zlen l) q (Some l)) = negb (p =? q) /\
  arg_eq (Arg (zlen l) p (Some l)) arg_end = (zlen l <=? p) /\
  arg_ne (Arg (zlen l) p (Some l)) arg_end = negb (zlen l <=? p).
Proof. exact (arg_eq_ok l p q). Qed.
Theorem C158_at_partial {A} (l : list A) p n : zlen l < 2 ^ 31 -> 0 <= p <= zlen l -> - 2 ^ 62 <= n <= 2 ^ 62 ->
  arg_at (Arg (zlen l) p (Some l)) n =
  if (0 <? p + n) && (p + n <? zlen l) then at_pos l (p + n) else Throw.
Proof. exact (arg_at_ok l p n). Qed.
Theorem C158_at_refuted {A} (l : list A) p : zlen l < 2 ^ 31 -> 0 <= p <= zlen l ->
  arg_at (Arg (zlen l) p (Some l)) (- p) = Throw.
Proof. exact (arg_at_first l p). Qed.
Theorem C158_order_refuted {A} (l : list A) p q :
  arg_lt (Arg (zlen l) p (Some l)) (Arg (zlen l) q (Some l)) = false /\
  arg_gt (Arg (zlen l) p (Some l)) (Arg (zlen l) q (Some l)) = false /\
  arg_le (Arg (zlen l) p (Some l)) (Arg (zlen l) q (Some l)) = true /\
  arg_ge (Arg (zlen l) p (Some l)) (Arg (zlen l) q (Some l)) = true.
Proof. exact (arg_order_wrong l p q). Qed.
Theorem C158_add :
  forall (A : Type) (a : arg_it A) n, 0 <= m_pos a -> 0 <= n -> m_pos a + n < 2 ^ 31 ->
  times (Z.to_nat n) arg_inc a = arg_add a n /\ arg_add a n = Ok (Arg (m_argc a) (m_pos a + n) (m_argv a)).
Proof. exact c158_add_l. Qed.
(** The offset of += is cut to 32 bits. *)
Theorem C158_add_refuted :
  forall (A : Type) (a : arg_it A), 0 <= m_pos a < 2 ^ 31 -> arg_add a (2 ^ 32) = Ok a.
Proof. exact c158_add_refuted_l. Qed.
Print Assumptions C158_add_refuted.
Print Assumptions C158_add.
Print Assumptions C158_loop.
Print Assumptions C158_equality.
Print Assumptions C158_at_partial.
Print Assumptions C158_at_refuted.
Print Assumptions C158_order_refuted.
Example C158_nontrivial :
  let r := arg_range [5; 6; 7] in
  walk 9 r (cur r) = Ok [5; 6; 7] /\ arg_at (arg_make [5; 6; 7]) 2 = Ok 7 /\ arg_at (arg_make [5; 6; 7]) 0 = Throw /\
  arg_at (arg_make [5; 6; 7]) 3 = Throw /\ arg_lt (arg_make [5; 6; 7]) (Arg 3 1 (Some [5; 6; 7])) = false.
Proof. vm_compute. auto 7. Qed.

(** ** C159: InputIterator objects behave as values *)
Theorem C159_history_partial {V} (nxt : nat -> V -> V) os ss : same_kind_run nxt os [] = Some ss ->
  exists w, irun nxt os (IState [] []) = Ok w /\ (forall i, reads w i = slot_at ss i) /\ allocated (cells w) = held ss.
Proof. exact (input_run nxt os ss). Qed.
Theorem C159_assign_refuted {V} (nxt : nat -> V -> V) t u v x : t <> u ->
  irun nxt [IMake t v; IMake u x; ICopyAssign 0 1] (IState [] []) = UB.
Proof. exact (input_mixed nxt t u v x). Qed.
Theorem C159_leak_refuted {V} (nxt : nat -> V -> V) t v x : exists w,
  irun nxt [IMake t v; IMake t x; IMoveAssign 0 1; IDestroy 0; IDestroy 1] (IState [] []) = Ok w /\
  (forall i, reads w i = Gone) /\ allocated (cells w) = 1%nat.
Proof. exact (input_leak nxt t v x). Qed.
Print Assumptions C159_history_partial.
Print Assumptions C159_assign_refuted.
Print Assumptions C159_leak_refuted.
Example C159_nontrivial :
  same_kind_run (fun t v => v + Z.of_nat t) [IMake 1 10; IMake 2 20; ICopy 0; IInc 0; IMove 1; IMoveAssign 1 0; IInc 3; ICopyAssign 2 1; IDestroy 0] [] =
  Some [Gone; Holds 1 11; Holds 1 11; Holds 2 22].
Proof. vm_compute. auto. Qed.
