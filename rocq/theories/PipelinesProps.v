(** The properties of the pipelines (C118 to C130). *)
From Verif Require Import Common Ints Math SpecBits Pipelines SpecPipes PipelinesProofs.
From Coq Require Import Lia.
Open Scope Z_scope.

(** What [visits] says: a loop over the range sees exactly these elements. *)
Theorem C130_loop {A} (r : range A) xs : visits r xs <-> exists fuel, for_each fuel r = Ok xs.
Proof. exact (visits_for_each r xs). Qed.
Theorem C130_array {A} (l : list A) : lists (of_list l) l.
Proof. exact (of_list_lists l). Qed.
Print Assumptions C130_loop.
Print Assumptions C130_array.

(** ** C118: Filter, TakeUntil, Every; TakeWhile *)
Theorem C118_filter {A} (p : A -> bool) (r : range A) xs fuel : visits r xs -> (length xs < fuel)%nat ->
  exists r', Filter fuel p r = Ok r' /\ lists r' (filter p xs).
Proof. exact (filter_lists p r xs fuel). Qed.
Theorem C118_take_until {A} (p : A -> bool) (r : range A) xs fuel : visits r xs -> (length xs < fuel)%nat ->
  exists r', TakeUntil fuel p r = Ok r' /\ lists r' (take_while (fun x => negb (p x)) xs).
Proof. exact (take_until_lists p r xs fuel). Qed.
Theorem C118_every {A} k (r : range A) xs fuel : visits r xs -> (length xs < fuel)%nat -> 1 <= k < 2 ^ 64 ->
  exists r' ys, Every fuel k r = Ok r' /\ lists r' ys /\ forall j, nth_error ys j = nth_error xs (j * Z.to_nat k).
Proof. exact (every_lists k r xs fuel). Qed.
(** TakeWhile removes the elements it should keep and keeps the others. *)
Theorem C118_take_while_refuted {A} (p : A -> bool) (r : range A) xs fuel : visits r xs -> (length xs < fuel)%nat ->
  exists r', TakeWhile fuel p r = Ok r' /\ lists r' (drop_while p xs).
Proof. exact (take_while_drops p r xs fuel). Qed.
Print Assumptions C118_filter.
Print Assumptions C118_take_until.
Print Assumptions C118_every.
Print Assumptions C118_take_while_refuted.
Definition digits := [3; 1; 4; 1; 5; 9; 2; 6].
Example C118_nontrivial :
  visits (of_list digits) digits /\
  (r <- Filter 10 Z.even (of_list digits) ;; for_each 10 r) = Ok [4; 2; 6] /\
  (r <- TakeUntil 10 (fun x => 4 <? x) (of_list digits) ;; for_each 10 r) = Ok [3; 1; 4; 1] /\
  (r <- TakeWhile 10 (fun x => x <? 5) (of_list digits) ;; for_each 10 r) = Ok [5; 9; 2; 6] /\
  take_while (fun x => x <? 5) digits = [3; 1; 4; 1] /\
  (r <- Every 10 3 (of_list digits) ;; for_each 10 r) = Ok [3; 1; 2].
Proof. split; [apply C130_loop; exists 10%nat; reflexivity|]. vm_compute. auto 7. Qed.

(** ** C119: Map *)
Theorem C119_map_partial {A B} (f : A -> B) p (r : range A) xs : lists r xs -> lists (Map f p r) (map f xs).
Proof. exact (map_lists f p r xs). Qed.
Theorem C119_map_visits_partial {A B} (f : A -> B) p (r : range A) xs : visits r xs -> visits (Map f p r) (map f xs).
Proof. exact (map_visits f p r xs). Qed.
Theorem C119_map_value {A B} (f : A -> B) p (v : A) : MapValue f p v = f (p v).
Proof. exact (eq_refl _). Qed.
(** The projection is ignored for ranges. *)
Theorem C119_projection_refuted : exists (f p : Z -> Z) l, ~ visits (Map f p (of_list l)) (map (fun x => f (p x)) l).
Proof. exact (map_projection). Qed.
Print Assumptions C119_map_partial.
Print Assumptions C119_map_visits_partial.
Print Assumptions C119_map_value.
Print Assumptions C119_projection_refuted.
Example C119_nontrivial : for_each 10 (Map (fun x => x * x) (fun x => x) (of_list digits)) = Ok [9; 1; 16; 1; 25; 81; 4; 36].
Proof. reflexivity. Qed.

(** ** C120: Take, Skip, DropWhile, DropUntil *)
Theorem C120_take_partial {A} n (r : range A) xs fuel : lists r xs -> (length xs < fuel)%nat -> Z.of_nat (length xs) < 2 ^ 63 ->
  0 <= n < 2 ^ 63 -> exists r', Take fuel n r = Ok r' /\ lists r' (firstn (Z.to_nat n) xs).
Proof. exact (take_lists n r xs fuel). Qed.
Theorem C120_skip_partial {A} n (r : range A) xs fuel : lists r xs -> (length xs < fuel)%nat ->
  0 <= n < 2 ^ 63 -> exists r', Skip fuel n r = Ok r' /\ lists r' (skipn (Z.to_nat n) xs).
Proof. exact (skip_lists n r xs fuel). Qed.
Theorem C120_drop_while {A} (p : A -> bool) (r : range A) xs fuel : lists r xs -> (length xs < fuel)%nat ->
  exists r', DropWhile fuel p r = Ok r' /\ lists r' (drop_while p xs).
Proof. exact (drop_while_lists p r xs fuel). Qed.
Theorem C120_drop_until {A} (p : A -> bool) (r : range A) xs fuel : lists r xs -> (length xs < fuel)%nat ->
  exists r', DropUntil fuel p r = Ok r' /\ lists r' (drop_while (fun x => negb (p x)) xs).
Proof. exact (drop_until_lists p r xs fuel). Qed.
(** Counts of 2^63 and more (npos, for example) are undefined behaviour. *)
Theorem C120_take_huge_refuted {A} n (l : list A) : 2 ^ 63 <= n < 2 ^ 64 -> Z.of_nat (length l) < 2 ^ 63 ->
  exists r', Take (S (length l)) n (of_list l) = Ok r' /\ forall fuel, (length l < fuel)%nat -> for_each fuel r' = UB.
Proof. exact (take_huge n l). Qed.
Theorem C120_skip_huge_refuted {A} n (r : range A) xs fuel : 2 ^ 63 <= n < 2 ^ 64 -> lists r xs -> (length xs < fuel)%nat ->
  Skip fuel n r = UB.
Proof. exact (skip_huge n r xs fuel). Qed.
Print Assumptions C120_take_partial.
Print Assumptions C120_skip_partial.
Print Assumptions C120_drop_while.
Print Assumptions C120_drop_until.
Print Assumptions C120_take_huge_refuted.
Print Assumptions C120_skip_huge_refuted.
Example C120_nontrivial :
  (r <- Take 10 3 (of_list digits) ;; for_each 10 r) = Ok [3; 1; 4] /\
  (r <- Take 10 30 (of_list digits) ;; for_each 10 r) = Ok digits /\
  (r <- Skip 10 6 (of_list digits) ;; for_each 10 r) = Ok [2; 6] /\
  (r <- Skip 10 60 (of_list digits) ;; for_each 10 r) = Ok [] /\
  (r <- DropWhile 10 (fun x => x <? 5) (of_list digits) ;; for_each 10 r) = Ok [5; 9; 2; 6] /\
  (r <- DropUntil 10 Z.even (of_list digits) ;; for_each 10 r) = Ok [4; 1; 5; 9; 2; 6].
Proof. vm_compute. auto 7. Qed.

(** ** C121: Chunk *)
Theorem C121_chunk_partial {A} k (r : range A) xs : 1 <= k < 2 ^ 63 -> visits r xs -> (k | Z.of_nat (length xs)) ->
  exists yss, lists (Chunk k r) yss /\ concat yss = xs /\ Forall (fun ys => Z.of_nat (length ys) = k) yss.
Proof. exact (chunk_lists k r xs). Qed.
Theorem C121_count {A} k (r : range A) xs fuel : 1 <= k < 2 ^ 63 -> visits r xs -> (length xs < fuel)%nat ->
  distance fuel (Chunk k r) (cur (Chunk k r)) = Ok ((Z.of_nat (length xs) + k - 1) / k).
Proof. exact (chunk_count k r xs fuel). Qed.
(** A shorter last chunk is undefined behaviour. *)
Theorem C121_last_refuted {A} k (l : list A) fuel : 1 <= k < 2 ^ 63 -> ~ (k | Z.of_nat (length l)) -> (length l < fuel)%nat ->
  for_each fuel (Chunk k (of_list l)) = UB.
Proof. exact (chunk_partial k l fuel). Qed.
(** Chunks of size 0 never end. *)
Theorem C121_zero_refuted {A} (r : range A) fuel : at_end r (cur r) = false -> for_each fuel (Chunk 0 r) = OutOfFuel.
Proof. exact (chunk_zero r fuel). Qed.
Print Assumptions C121_chunk_partial.
Print Assumptions C121_count.
Print Assumptions C121_last_refuted.
Print Assumptions C121_zero_refuted.
Example C121_nontrivial :
  for_each 10 (Chunk 4 (of_list digits)) = Ok [[3; 1; 4; 1]; [5; 9; 2; 6]] /\
  for_each 10 (Chunk 3 (of_list digits)) = UB /\ Count 10 (Chunk 3 (of_list digits)) = Ok 3.
Proof. vm_compute. auto. Qed.

(** ** C122: Slide *)
Theorem C122_slide_partial {A} w (r : range A) xs : 1 <= w < 2 ^ 63 -> visits r xs -> w <= Z.of_nat (length xs) ->
  lists (Slide w r) (map (fun i => firstn (Z.to_nat w) (skipn i xs)) (seq 0 (length xs - Z.to_nat w + 1))).
Proof. exact (slide_lists w r xs). Qed.
Theorem C122_empty {A} w (r : range A) : visits r [] -> lists (Slide w r) [].
Proof. exact (slide_empty w r). Qed.
(** A range shorter than the window is undefined behaviour instead of no window. *)
Theorem C122_short_refuted {A} w (l : list A) fuel : w < 2 ^ 63 -> 0 < Z.of_nat (length l) < w ->
  for_each (S fuel) (Slide w (of_list l)) = UB.
Proof. exact (slide_short w l fuel). Qed.
Print Assumptions C122_slide_partial.
Print Assumptions C122_empty.
Print Assumptions C122_short_refuted.
Example C122_nontrivial :
  for_each 10 (Slide 6 (of_list digits)) = Ok [[3; 1; 4; 1; 5; 9]; [1; 4; 1; 5; 9; 2]; [4; 1; 5; 9; 2; 6]] /\
  for_each 10 (Slide 9 (of_list digits)) = UB.
Proof. vm_compute. auto. Qed.

(** ** C123: Zip and Enumerate *)
Theorem C123_zip {A B} (r1 : range A) (r2 : range B) xs ys : visits r1 xs -> visits r2 ys -> visits (Zip r1 r2) (combine xs ys).
Proof. exact (zip_visits r1 r2 xs ys). Qed.
Theorem C123_distance_partial {A B} (r1 : range A) (r2 : range B) xs ys : lists r1 xs -> visits r2 ys -> (length xs <= length ys)%nat ->
  lists (Zip r1 r2) (combine xs ys).
Proof. exact (zip_lists r1 r2 xs ys). Qed.
Theorem C123_enumerate_partial {A} T o (r : range A) xs : std_width (width T) -> fits T o -> visits r xs ->
  Z.of_nat (length xs) <= highest T - o -> visits (EnumerateFrom T o r) (indexed o xs).
Proof. exact (enumerate_all T o r xs). Qed.
(** Enumerate stops when the numbers reach the largest value of the type. *)
Theorem C123_truncated_refuted {A} T o (r : range A) xs : std_width (width T) -> fits T o -> visits r xs ->
  visits (EnumerateFrom T o r) (indexed o (firstn (Z.to_nat (highest T - o)) xs)).
Proof. exact (enumerate_visits T o r xs). Qed.
(** The distance is that of the first range, even if the second one is shorter. *)
Theorem C123_count_refuted {A B} (xs : list A) (ys : list B) fuel :
  Count fuel (Zip (of_list xs) (of_list ys)) = Ok (sz (Z.of_nat (length xs))).
Proof. exact (zip_distance xs ys fuel). Qed.
Theorem C123_enumerate_count_refuted {A} (l : list A) fuel : Count fuel (Enumerate u64 (of_list l)) = Ok (2 ^ 64 - 1).
Proof. exact (enumerate_count l fuel). Qed.
Print Assumptions C123_zip.
Print Assumptions C123_distance_partial.
Print Assumptions C123_enumerate_partial.
Print Assumptions C123_truncated_refuted.
Print Assumptions C123_count_refuted.
Print Assumptions C123_enumerate_count_refuted.
Example C123_nontrivial :
  for_each 10 (Zip (of_list digits) (of_list [true; false])) = Ok [(3, true); (1, false)] /\
  for_each 10 (Enumerate u64 (of_list [true; false])) = Ok [(0, true); (1, false)] /\
  for_each 10 (EnumerateFrom i8 125 (of_list digits)) = Ok [(125, 3); (126, 1)].
Proof. vm_compute. auto. Qed.

(** ** C124: Flatten and Concat *)
Theorem C124_flatten_partial {A} (r : range (list A)) xss : visits r xss -> Forall (fun l => l <> []) xss ->
  lists (Flatten r) (concat xss).
Proof. exact (flatten_yields false r (cur r) xss). Qed.
Theorem C124_concat_partial {A} (ls : list (list A)) : empties_last ls -> lists (Concat ls) (concat ls).
Proof. exact (concat_lists ls). Qed.
(** An empty range among the ones to flatten is undefined behaviour, *)
Theorem C124_flatten_empty_refuted {A} (r : range (list A)) xss : visits r xss -> In [] xss ->
  forall fuel, (length (concat xss) < fuel)%nat -> for_each fuel (Flatten r) = UB.
Proof. exact (flatten_empty false r (cur r) xss). Qed.
(** and so is an empty range in front of one that is not empty for Concat. *)
Theorem C124_concat_empty_refuted {A} (ls : list (list A)) fuel : ~ empties_last ls -> (length (concat ls) < fuel)%nat ->
  for_each fuel (Concat ls) = UB.
Proof. exact (concat_refuted ls fuel). Qed.
Print Assumptions C124_flatten_partial.
Print Assumptions C124_concat_partial.
Print Assumptions C124_flatten_empty_refuted.
Print Assumptions C124_concat_empty_refuted.
Example C124_nontrivial :
  for_each 10 (Flatten (of_list [[1; 2]; [3]; [4; 5; 6]])) = Ok [1; 2; 3; 4; 5; 6] /\
  for_each 10 (Flatten (of_list [[1; 2]; []; [4; 5; 6]])) = UB /\
  empties_last [[1; 2]; [3]; []; []] /\ for_each 10 (Concat [[1; 2]; [3]; []; []]) = Ok [1; 2; 3] /\
  ~ empties_last [[1; 2]; []; [3]] /\ for_each 10 (Concat [[1; 2]; []; [3]]) = UB.
Proof.
  split; [reflexivity|]. split; [reflexivity|]. split; [cbn; repeat constructor|]. split; [reflexivity|].
  split; [|reflexivity]. cbn. intros H. inversion H. discriminate.
Qed.

(** ** C125: Unique *)
Theorem C125_unique {A} (eqb : A -> A -> bool) (r : range A) xs fuel : equivalence eqb -> visits r xs -> (length xs < fuel)%nat ->
  lists (Unique fuel eqb r) (changes eqb None xs).
Proof. exact (unique_lists eqb r xs fuel). Qed.
Print Assumptions C125_unique.
Example C125_nontrivial : equivalence Z.eqb /\ for_each 10 (Unique 10 Z.eqb (of_list [1; 1; 2; 2; 2; 1; 3])) = Ok [1; 2; 1; 3].
Proof. split; [|reflexivity]. split; [apply Z.eqb_refl|]. split; [apply Z.eqb_sym|]. intros x y z H1 H2. rewrite Z.eqb_eq in *. congruence. Qed.

(** ** C126: Split *)
(** The fields between the delimiters, without the last one if it is empty. *)
Theorem C126_split {A} (p : A -> bool) l : visits (Split p l) (but_last_empty (fields p l)).
Proof. exact (split_visits p l). Qed.
Theorem C126_split_range_partial {A} (eqb : A -> A -> bool) d l :
  visits (SplitRange eqb [d] l) (but_last_empty (fields (fun x => eqb x d) l)).
Proof. exact (split_one eqb d l). Qed.
(** Only the first element of a longer delimiter is removed. *)
Theorem C126_long_delimiter_refuted : for_each 10 (SplitRange Z.eqb [0; 0] [1; 0; 0; 2]) = Ok [[1]; [0; 2]].
Proof. exact (eq_refl _). Qed.
(** Counting the pieces is undefined behaviour if there are two or more. *)
Theorem C126_count_refuted {A} (p : A -> bool) l fuel :
  Count fuel (Split p l) = match but_last_empty (fields p l) with [] => Ok 0 | [_] => Ok 1 | _ => UB end.
Proof. exact (split_count p l fuel). Qed.
Print Assumptions C126_split.
Print Assumptions C126_split_range_partial.
Print Assumptions C126_long_delimiter_refuted.
Print Assumptions C126_count_refuted.
Example C126_nontrivial :
  for_each 10 (Split (Z.eqb 0) [1; 2; 0; 0; 3; 0]) = Ok [[1; 2]; []; [3]] /\
  fields (Z.eqb 0) [1; 2; 0; 0; 3; 0] = [[1; 2]; []; [3]; []] /\
  Count 10 (Split (Z.eqb 0) [1; 2; 0; 0; 3; 0]) = UB.
Proof. vm_compute. auto. Qed.

(** ** C127: the stages that end a pipeline *)
Theorem C127_find {A B} (eqb : B -> B -> bool) needle (proj : A -> B) (r : range A) xs fuel : visits r xs -> (length xs < fuel)%nat ->
  exists s, Find fuel eqb needle proj r = Ok s /\ visits (from r s) (drop_while (fun x => negb (eqb needle (proj x))) xs).
Proof. exact (find_visits eqb needle proj r xs fuel). Qed.
Theorem C127_find_if {A B} w (needle : list B -> bool) (proj : A -> B) (r : range A) xs fuel : (1 <= w)%nat ->
  visits r xs -> (length xs < fuel)%nat ->
  let p := fun l => needle (map proj l) in
  exists s, FindIf fuel w needle proj r = Ok s /\
    ((exists i, first_match w p xs i /\ visits (from r s) (skipn i xs)) \/ (no_match w p xs /\ visits (from r s) [])).
Proof. exact (find_if_visits w needle proj r xs fuel). Qed.
Theorem C127_contains {A B C} (compare : B -> C -> bool) (proj : A -> B) needle (r : range A) xs fuel : visits r xs -> (length xs < fuel)%nat ->
  Contains fuel compare proj needle r = Ok (existsb (fun x => compare (proj x) needle) xs).
Proof. exact (fun V F => contains_yields false _ r (cur r) xs V fuel F). Qed.
Theorem C127_first {A} (r : range A) xs : visits r xs -> First r = Ok (hd_error xs).
Proof. exact (first_visits r xs). Qed.
Theorem C127_count {A} (r : range A) xs fuel : lists r xs -> (length xs < fuel)%nat -> Z.of_nat (length xs) < 2 ^ 64 ->
  Count fuel r = Ok (Z.of_nat (length xs)).
Proof. exact (count_lists r xs fuel). Qed.
Theorem C127_count_if {A} (p : A -> bool) (r : range A) xs fuel : visits r xs -> (length xs < fuel)%nat -> Z.of_nat (length xs) < 2 ^ 64 ->
  CountIf fuel p r = Ok (Z.of_nat (length (filter p xs))).
Proof. exact (count_if_visits p r xs fuel). Qed.
Theorem C127_sum T (r : range Z) xs fuel : 0 < width T -> visits r xs -> (length xs < fuel)%nat ->
  (forall n, fits T (total (firstn n xs))) -> Sum fuel T r = Ok (total xs).
Proof. exact (sum_fits T r xs fuel). Qed.
Theorem C127_sum_unsigned T (r : range Z) xs fuel : std_width (width T) -> signed T = false -> visits r xs -> (length xs < fuel)%nat ->
  Forall (fits T) xs -> Sum fuel T r = Ok (total xs mod 2 ^ width T).
Proof. exact (sum_wraps T r xs fuel). Qed.
Theorem C127_to_array {A} n (d : A) (r : range A) xs : visits r xs -> ToArray n d r = Ok (firstn n (xs ++ repeat d n)).
Proof. exact (to_array_yields false d r n (cur r) xs). Qed.
Print Assumptions C127_find.
Print Assumptions C127_find_if.
Print Assumptions C127_contains.
Print Assumptions C127_first.
Print Assumptions C127_count.
Print Assumptions C127_count_if.
Print Assumptions C127_sum.
Print Assumptions C127_sum_unsigned.
Print Assumptions C127_to_array.
Example C127_nontrivial :
  Find 10 Z.eqb 5 (fun x => x) (of_list digits) = Ok 4%nat /\
  FindIf 10 2 (fun l => match l with [a; b] => b <? a | _ => false end) (fun x => 0 - x) (of_list digits) = Ok 1%nat /\
  FindIf 10 3 (fun l => match l with [a; b; c] => a =? c | _ => false end) (fun x => x) (of_list digits) = Ok 1%nat /\
  Contains 10 Z.eqb (fun x => x) 9 (of_list digits) = Ok true /\ First (of_list digits) = Ok (Some 3) /\
  Count 10 (of_list digits) = Ok 8 /\ CountIf 10 Z.even (of_list digits) = Ok 3 /\ Sum 10 i32 (of_list digits) = Ok 31 /\
  Sum 10 u8 (of_list [200; 100]) = Ok 44 /\
  ToArray 3 0 (of_list digits) = Ok [3; 1; 4] /\ ToArray 4 0 (of_list [7]) = Ok [7; 0; 0; 0].
Proof. vm_compute. auto 15. Qed.

(** ** C128: iota *)
Theorem C128_iota T first last : std_width (width T) -> fits T first -> fits T last -> first <= last ->
  visits (iota_view T first last) (interval first last).
Proof. exact (iota_visits T first last). Qed.
Theorem C128_distance_partial T first last : std_width (width T) -> fits T first -> fits T last -> first <= last ->
  fits (promote T) (last - first) -> last - first < 2 ^ 63 ->
  lists (iota_view T first last) (interval first last).
Proof. exact (iota_lists T first last). Qed.
(** With a signed type, counting the elements is undefined if there are more than the type can show. *)
Theorem C128_distance_overflow_refuted :
  forall T first last fuel, 0 < width T -> signed T = true -> ~ fits (promote T) (last - first) -> Count fuel (iota_view T first last) = UB.
Proof. exact c128_distance_overflow_refuted_l. Qed.
(** With an unsigned type the count is last - first, also if it is larger than the largest difference of iterators. *)
Theorem C128_count_unsigned :
  forall T first last fuel, std_width (width T) -> signed T = false -> fits T first -> fits T last -> first <= last ->
  Count fuel (iota_view T first last) = Ok (last - first).
Proof. exact c128_count_unsigned_l. Qed.
Print Assumptions C128_count_unsigned.
Print Assumptions C128_distance_overflow_refuted.
Print Assumptions C128_iota.
Print Assumptions C128_distance_partial.
Example C128_nontrivial : for_each 10 (iota_view i8 (-3) 3) = Ok [-3; -2; -1; 0; 1; 2] /\ interval (-3) 3 = [-3; -2; -1; 0; 1; 2] /\
  Count 10 (iota_view u16 7 65535) = Ok 65528.
Proof. vm_compute. auto. Qed.

(** ** C129: Reverse *)
Theorem C129_reverse {A} (l : list A) : lists (Reverse l) (rev l).
Proof. exact (reverse_lists l). Qed.
Theorem C129_twice {A} (l : list A) : lists (ReverseReversed l) l.
Proof. exact (of_list_lists l). Qed.
Print Assumptions C129_reverse.
Print Assumptions C129_twice.
Example C129_nontrivial : for_each 10 (Reverse digits) = Ok [6; 2; 9; 5; 1; 4; 1; 3].
Proof. reflexivity. Qed.

(** ** C130: any pipeline of stages does what its stages mean, in order *)
Theorem C130_pipeline {A} (gs : list (stage A)) fuel (r : range A) xs : Forall good_stage gs -> lists r xs -> (length xs < fuel)%nat ->
  Z.of_nat (length xs) < 2 ^ 63 ->
  exists r', run_pipeline fuel gs r = Ok r' /\ lists r' (meanings gs xs).
Proof. exact (pipeline_lists gs fuel r xs). Qed.
Print Assumptions C130_pipeline.
Example C130_nontrivial :
  Forall good_stage [SFilter (fun x => 1 <? x); SMap (fun x => x * 2); SSkip 1; STake 3] /\
  (r <- run_pipeline 10 [SFilter (fun x => 1 <? x); SMap (fun x => x * 2); SSkip 1; STake 3] (of_list digits) ;; for_each 10 r)
    = Ok [8; 10; 18].
Proof. split; [|reflexivity]. repeat constructor; cbn; lia. Qed.
