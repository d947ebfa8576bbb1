(** The properties of daw::vector, split_buffer and iota_op (C131 to C144). *)
From Verif Require Import Common Ints Math SpecBits Vector SpecVector VectorProofs.
From Coq Require Import Lia.
Open Scope Z_scope.

Definition three : vec Z := Vec [Obj 1; Obj 2; Obj 3] 3.
Example three_holds : holds 100 three [1; 2; 3] /\ max_size_ok 100.
Proof. repeat split; try (cbn; lia). exists 0%nat. reflexivity. Qed.

(** ** C131: a history of operations on a vector is the history of the list *)
Theorem C131_step_partial {A} trivial ms (dflt : A) o v xs : max_size_ok ms -> holds ms v xs ->
  match lstep ms dflt o xs with
  | Ok ys => exists w, vstep trivial ms dflt o v = Ok w /\ holds ms w ys
  | Throw => vstep trivial ms dflt o v = Throw
  | _ => True
  end.
Proof. exact (fun M => one_step trivial ms M dflt o v xs). Qed.
Theorem C131_history_partial {A} trivial ms (dflt : A) os v xs : max_size_ok ms -> holds ms v xs ->
  match run (lstep ms dflt) os xs with
  | Ok ys => exists w, run (vstep trivial ms dflt) os v = Ok w /\ holds ms w ys
  | Throw => run (vstep trivial ms dflt) os v = Throw
  | _ => True
  end.
Proof. exact (fun M => run_all trivial ms M dflt os v xs). Qed.
Theorem C131_new {A} ms : max_size_ok ms -> holds ms (@empty_vec A) [].
Proof. exact (fun M => empty_holds ms M). Qed.
Print Assumptions C131_step_partial.
Print Assumptions C131_history_partial.
Print Assumptions C131_new.
Example C131_nontrivial :
  let os := [OpPush (Val 5); OpPush (Elem 0); OpInsert 1 (Elem 1); OpInsertN 0 3 (Elem 2); OpErase 4;
             OpInsertInput 2 [7; 8; 9]; OpAppend 2 (Elem 0); OpEraseRange 0 2; OpResizeValue 12 (Elem 1); OpEraseIf (fun a => a =? 5); OpShrink] in
  run (lstep 100 0) os [] = Ok [7; 8; 9; 8; 8; 8; 8] /\
  run (vstep false 100 0) os empty_vec = Ok (Vec (map Obj [7; 8; 9; 8; 8; 8; 8]) 7).
Proof. vm_compute. auto. Qed.

(** ** C132: length_error exactly if the result does not fit *)
Theorem C132_throws_partial {A} trivial ms (dflt : A) o v xs : max_size_ok ms -> holds ms v xs -> lstep ms dflt o xs = Throw ->
  vstep trivial ms dflt o v = Throw.
Proof. exact (fun M => step_throws trivial ms M dflt o v xs). Qed.
Theorem C132_never_too_long {A} trivial ms (dflt : A) o v xs ys : max_size_ok ms -> holds ms v xs -> lstep ms dflt o xs = Ok ys ->
  vstep trivial ms dflt o v <> Throw /\ Z.of_nat (length ys) <= ms.
Proof. exact (fun M => step_fits trivial ms M dflt o v xs ys). Qed.
Print Assumptions C132_throws_partial.
Print Assumptions C132_never_too_long.
Example C132_nontrivial : lstep 4 0 (OpInsertN 1 2 (Val 9)) [1; 2; 3] = Throw /\ lstep 5 0 (OpInsertN 1 2 (Val 9)) [1; 2; 3] = Ok [1; 9; 9; 2; 3] /\
  vstep false 4 0 (OpInsertN 1 2 (Val 9)) three = Throw /\ vstep false 3 0 (OpPush (Elem 0)) three = Throw.
Proof. vm_compute. auto. Qed.

(** ** C133: a count with which size( ) + n wraps around *)
Theorem C133_append_refuted {A} trivial ms (v : vec A) xs n x a : max_size_ok ms -> holds ms v xs -> ref_value xs x = Some a ->
  n < 2 ^ 64 <= Z.of_nat (length xs) + n -> append trivial ms v n x = UB.
Proof. exact (fun M => append_wraps trivial ms M v xs n x a). Qed.
Theorem C133_insert_refuted {A} trivial ms (v : vec A) xs p n x a : max_size_ok ms -> holds ms v xs -> (p <= length xs)%nat -> ref_value xs x = Some a ->
  n < 2 ^ 64 <= Z.of_nat (length xs) + n -> insert_n trivial ms v p n x = UB.
Proof. exact (fun M => insert_n_wraps trivial ms M v xs p n x a). Qed.
Print Assumptions C133_append_refuted.
Print Assumptions C133_insert_refuted.
Example C133_nontrivial : holds 100 three [1; 2; 3] /\ ref_value [1; 2; 3] (Val 0) = Some 0 /\
  2 ^ 64 - 1 < 2 ^ 64 <= Z.of_nat (length [1; 2; 3]) + (2 ^ 64 - 1).
Proof. split; [apply three_holds|]. split; [reflexivity|]. cbn. lia. Qed.

(** ** C134: the capacity *)
Theorem C134_stable {A} trivial ms (dflt : A) o v xs ys w : max_size_ok ms -> holds ms v xs -> lstep ms dflt o xs = Ok ys -> keeps_storage o = true ->
  (length ys <= capacity v)%nat -> vstep trivial ms dflt o v = Ok w -> capacity w = capacity v.
Proof. exact (fun M => step_stable trivial ms M dflt o v xs ys w). Qed.
Theorem C134_reserve {A} trivial ms (v : vec A) xs n : holds ms v xs -> n <= ms ->
  exists w, reserve trivial ms v n = Ok w /\ holds ms w xs /\ Z.of_nat (capacity w) = Z.max n (Z.of_nat (capacity v)).
Proof. exact (reserve_cap trivial ms v xs n). Qed.
Theorem C134_shrink {A} trivial ms (v : vec A) xs : holds ms v xs ->
  exists w, shrink_to_fit trivial v = Ok w /\ holds ms w xs /\ capacity w = length xs.
Proof. exact (shrink_cap trivial ms v xs). Qed.
Theorem C134_push {A} trivial ms (v : vec A) xs x a : max_size_ok ms -> holds ms v xs -> ref_value xs x = Some a -> Z.of_nat (length xs) + 1 <= ms ->
  exists w, push_back trivial ms v x = Ok w /\ holds ms w (xs ++ [a]) /\
    Z.of_nat (capacity w) = if (length xs <? capacity v)%nat then Z.of_nat (capacity v)
                            else grown_capacity ms (Z.of_nat (capacity v)) (Z.of_nat (length xs) + 1).
Proof. exact (fun M => push_cap trivial ms M v xs x a). Qed.
(** Pushing n elements changes the capacity a logarithmic number of times. *)
Theorem C134_amortised {A} trivial ms (l : list A) : max_size_ok ms -> 2 * Z.of_nat (length l) <= ms ->
  exists w r, push_counted trivial ms empty_vec l = Ok (w, r) /\ holds ms w l /\ (r <= 1 + Nat.log2_up (length l))%nat.
Proof. exact (fun M => push_count trivial ms M l). Qed.
Print Assumptions C134_stable.
Print Assumptions C134_reserve.
Print Assumptions C134_shrink.
Print Assumptions C134_push.
Print Assumptions C134_amortised.
Example C134_nontrivial : match push_counted false 100 empty_vec [1; 2; 3; 4; 5; 6; 7; 8; 9] with Ok (w, r) => (capacity w, r) | _ => (0, 0)%nat end = (16, 5)%nat /\
  (v <- reserve false 100 three 10 ;; Ok (capacity v)) = Ok 10%nat /\ (v <- push_back false 5 three (Val 4) ;; Ok (capacity v)) = Ok 5%nat.
Proof. vm_compute. auto. Qed.

(** ** C135: positions returned by insert and erase *)
Theorem C135_insert {A} trivial ms (f : vec A -> nat -> ref A -> res (vec A * nat)) v xs p x a : max_size_ok ms ->
  f = insert trivial ms \/ f = emplace trivial ms ->
  holds ms v xs -> (p <= length xs)%nat -> Z.of_nat (length xs) + 1 <= ms -> ref_value xs x = Some a ->
  exists w, f v p x = Ok (w, p) /\ holds ms w (put p [a] xs) /\ index w p = Ok a.
Proof. exact (fun M => insert_at trivial ms M f v xs p x a). Qed.
Theorem C135_insert_n {A} trivial ms (v : vec A) xs p n x a : max_size_ok ms -> holds ms v xs -> (p <= length xs)%nat -> 0 <= n ->
  Z.of_nat (length xs) + n <= ms -> ref_value xs x = Some a ->
  exists w, insert_n trivial ms v p n x = Ok (w, p) /\ holds ms w (put p (repeat a (Z.to_nat n)) xs).
Proof. exact (fun M => insert_many_at trivial ms M v xs p n x a). Qed.
Theorem C135_insert_range {A} trivial ms (f : vec A -> nat -> list A -> res (vec A * nat)) v xs p l : max_size_ok ms ->
  f = insert_range trivial ms \/ f = insert_input trivial ms ->
  holds ms v xs -> (p <= length xs)%nat -> Z.of_nat (length xs) + Z.of_nat (length l) <= ms ->
  exists w, f v p l = Ok (w, p) /\ holds ms w (put p l xs).
Proof. exact (fun M => insert_list_at trivial ms M f v xs p l). Qed.
Theorem C135_erase {A} trivial ms (v : vec A) xs p : holds ms v xs -> (p < length xs)%nat ->
  exists w, erase trivial v p = Ok (w, p) /\ holds ms w (cut p (p + 1) xs) /\ capacity w = capacity v.
Proof. exact (erase_at trivial ms v xs p). Qed.
Theorem C135_erase_range {A} trivial ms (v : vec A) xs p q : holds ms v xs -> (p <= q <= length xs)%nat ->
  exists w, erase_range trivial v p q = Ok (w, p) /\ holds ms w (cut p q xs) /\ capacity w = capacity v.
Proof. exact (erase_range_at trivial ms v xs p q). Qed.
Print Assumptions C135_insert.
Print Assumptions C135_insert_n.
Print Assumptions C135_insert_range.
Print Assumptions C135_erase.
Print Assumptions C135_erase_range.
Example C135_nontrivial : put 1 [8; 9] [1; 2; 3] = [1; 8; 9; 2; 3] /\ cut 1 2 [1; 2; 3] = [1; 3] /\
  (r <- insert_input false 100 three 1 [8; 9] ;; l <- read_all (buf (fst r)) 0 (len (fst r)) ;; Ok (l, snd r)) = Ok ([1; 8; 9; 2; 3], 1%nat) /\
  erase false three 1 = Ok (Vec [Obj 1; Obj 3; Raw] 2, 1%nat).
Proof. vm_compute. auto. Qed.

(** ** C136: construction, copies, moves and destruction *)
Theorem C136_count {A} trivial ms n (a : A) : max_size_ok ms -> 0 <= n ->
  if n <=? ms then exists v, make_n trivial ms n a = Ok v /\ holds ms v (repeat a (Z.to_nat n)) /\ Z.of_nat (capacity v) = n
  else make_n trivial ms n a = Throw.
Proof. exact (fun M => make_count trivial ms M n a). Qed.
Theorem C136_range {A} trivial ms (l : list A) : max_size_ok ms -> Z.of_nat (length l) <= ms ->
  exists v, make_range trivial ms l = Ok v /\ holds ms v l /\ capacity v = length l.
Proof. exact (fun M => make_range_ok trivial ms M l). Qed.
Theorem C136_input {A} trivial ms (l : list A) : max_size_ok ms -> Z.of_nat (length l) <= ms ->
  exists v, make_input trivial ms l = Ok v /\ holds ms v l.
Proof. exact (fun M => make_input_ok trivial ms M l). Qed.
Theorem C136_copy {A} trivial ms (v : vec A) xs : max_size_ok ms -> holds ms v xs -> exists w, copy trivial ms v = Ok w /\ holds ms w xs.
Proof. exact (fun M => copy_ok trivial ms M v xs). Qed.
Theorem C136_copy_assign {A} trivial ms (v w : vec A) xs ys : max_size_ok ms -> holds ms v xs -> holds ms w ys ->
  exists u, copy_assign trivial ms v w = Ok u /\ holds ms u ys.
Proof. exact (fun M => copy_assign_ok trivial ms M v xs w ys). Qed.
Theorem C136_move_assign {A} trivial ms (v w : vec A) xs ys : max_size_ok ms -> holds ms v xs -> holds ms w ys ->
  exists u z, move_assign trivial v w = Ok (u, z) /\ holds ms u ys /\ holds ms z [].
Proof. exact (fun M => move_assign_ok trivial ms M v xs w ys). Qed.
Theorem C136_move_swap {A} ms (v w : vec A) xs ys : max_size_ok ms -> holds ms v xs -> holds ms w ys ->
  (holds ms (fst (move_construct v)) xs /\ holds ms (snd (move_construct v)) []) /\
  (holds ms (fst (swap v w)) ys /\ holds ms (snd (swap v w)) xs).
Proof. exact (fun M => move_swap_ok ms M v w xs ys). Qed.
(** The destructor destroys every element once and leaves nothing behind. *)
Theorem C136_destroy {A} trivial ms (v : vec A) xs : holds ms v xs -> Vector.destruct trivial v = Ok tt.
Proof. exact (destroy_all trivial ms v xs). Qed.
Print Assumptions C136_count.
Print Assumptions C136_range.
Print Assumptions C136_input.
Print Assumptions C136_copy.
Print Assumptions C136_copy_assign.
Print Assumptions C136_move_assign.
Print Assumptions C136_move_swap.
Print Assumptions C136_destroy.
Example C136_nontrivial : make_n false 100 2 7 = Ok (Vec [Obj 7; Obj 7] 2) /\ copy_assign false 100 three (Vec [Obj 9; Raw] 1) = Ok (Vec [Obj 9; Raw; Raw] 1) /\
  Vector.destruct false three = Ok tt /\ Vector.destruct false (Vec [Obj 1; Obj 2; Obj 3] 2) = UB.
Proof. vm_compute. auto. Qed.

(** ** C137: access *)
Theorem C137_at {A} ms (v : vec A) xs n : holds ms v xs -> 0 <= n ->
  at_ v n = match nth_error xs (Z.to_nat n) with Some a => Ok a | None => Throw end.
Proof. exact (at_ok ms v xs n). Qed.
Theorem C137_index {A} ms (v : vec A) xs i a : holds ms v xs -> nth_error xs i = Some a -> index v i = Ok a.
Proof. exact (index_ok ms v xs i a). Qed.
Theorem C137_front {A} ms (v : vec A) x xs : holds ms v (x :: xs) -> front v = Ok x.
Proof. exact (front_ok ms v x xs). Qed.
Theorem C137_back {A} ms (v : vec A) x xs : holds ms v (xs ++ [x]) -> back v = Ok x.
Proof. exact (back_ok ms v x xs). Qed.
Theorem C137_size {A} ms (v : vec A) xs : holds ms v xs ->
  size v = Z.of_nat (length xs) /\ (is_empty v = true <-> xs = []).
Proof. exact (size_ok ms v xs). Qed.
Theorem C137_pop_back_value {A} trivial ms (v : vec A) x xs : holds ms v (xs ++ [x]) ->
  exists w, pop_back_value trivial v = Ok (x, w) /\ holds ms w xs /\ capacity w = capacity v.
Proof. exact (pop_value trivial ms v x xs). Qed.
Print Assumptions C137_at.
Print Assumptions C137_index.
Print Assumptions C137_front.
Print Assumptions C137_back.
Print Assumptions C137_size.
Print Assumptions C137_pop_back_value.
Example C137_nontrivial : at_ three 2 = Ok 3 /\ at_ three 3 = Throw /\ pop_back_value false three = Ok (3, Vec [Obj 1; Obj 2; Raw] 2).
Proof. vm_compute. auto. Qed.

(** ** C138: comparisons *)
Theorem C138_equal {A} ms (eqb : A -> A -> bool) v xs w ys : (forall a b, eqb a b = true <-> a = b) -> holds ms v xs -> holds ms w ys ->
  exists b, equal eqb v w = Ok b /\ (b = true <-> xs = ys).
Proof. exact (equal_ok ms eqb v xs w ys). Qed.
Theorem C138_less {A} ms (ltb : A -> A -> bool) v xs w ys : holds ms v xs -> holds ms w ys ->
  exists b, less ltb v w = Ok b /\ (b = true <-> lex_before ltb xs ys).
Proof. exact (less_ok ms ltb v xs w ys). Qed.
Print Assumptions C138_equal.
Print Assumptions C138_less.
Example C138_nontrivial : less Z.ltb three (Vec [Obj 1; Obj 3] 2) = Ok true /\ less Z.ltb three (Vec [Obj 1; Obj 2] 2) = Ok false /\
  less Z.ltb (Vec [Obj 1; Obj 2] 2) three = Ok true /\ equal Z.eqb three (Vec [Obj 1; Obj 2] 2) = Ok false.
Proof. vm_compute. auto. Qed.

(** ** C139: erase_if *)
Theorem C139_erase_if {A} trivial ms (v : vec A) xs f : max_size_ok ms -> holds ms v xs ->
  exists w, erase_if trivial v f = Ok (w, Z.of_nat (length (filter f xs))) /\ holds ms w (filter (fun a => negb (f a)) xs).
Proof. exact (fun M => erase_if_count trivial ms M v xs f). Qed.
Print Assumptions C139_erase_if.
Example C139_nontrivial : erase_if false three (fun a => a =? 2) = Ok (Vec [Obj 1; Obj 3; Raw] 2, 1).
Proof. reflexivity. Qed.

(** ** C140: resize_and_overwrite and append_and_overwrite *)
(** The operation is given the elements and storage for at least [n]; what it says it wrote
    is the content of the vector, if it filled everything or shrank the vector. *)
Theorem C140_resize_partial {A} ms (v : vec A) xs ys n op (rest : nat -> mem A) r : holds ms v xs -> 0 <= n <= ms ->
  (forall k, n <= Z.of_nat (length xs + k) -> op (map Obj xs ++ repeat Raw k) n = (map Obj ys ++ rest k, r) /\ (length ys + length (rest k) = length xs + k)%nat) ->
  Z.max 0 r = Z.of_nat (length ys) -> r = n \/ (length ys <= length xs)%nat /\ r <= n ->
  exists w, resize_and_overwrite true ms v n op = Ok (w, r) /\ shows w ys.
Proof. exact (resize_over true ms v xs ys n op rest r eq_refl). Qed.
(** A result between the old size and [n] is undefined behaviour. *)
Theorem C140_resize_refuted {A} trivial ms (v : vec A) xs n op (m : nat -> mem A) r : holds ms v xs -> 0 <= n <= ms ->
  (forall k, n <= Z.of_nat (length xs + k) -> op (map Obj xs ++ repeat Raw k) n = (m k, r)) ->
  Z.of_nat (length xs) < r < n -> resize_and_overwrite trivial ms v n op = UB.
Proof. exact (resize_mid_ub trivial ms v xs n op m r). Qed.
(** Shrinking to [n] leaves the elements above undestroyed. *)
Theorem C140_leak_refuted {A} ms (v : vec A) xs n : holds ms v xs -> 0 <= n < Z.of_nat (length xs) ->
  exists w, resize_and_overwrite false ms v n (fun m n => (m, n)) = Ok (w, n) /\ Vector.destruct false w = UB.
Proof. exact (resize_leaks false ms v xs n eq_refl). Qed.
Theorem C140_append_partial {A} trivial ms (v : vec A) xs ys n op (rest : nat -> mem A) r : max_size_ok ms -> holds ms v xs -> 0 <= n -> Z.of_nat (length xs) + n <= ms ->
  (forall k, n <= Z.of_nat k -> op (repeat Raw k) n = (map Obj ys ++ rest k, r)) -> Z.max 0 r = Z.of_nat (length ys) ->
  if r <=? n then exists w, append_and_overwrite trivial ms v n op = Ok (w, r) /\ shows w (xs ++ ys)
  else append_and_overwrite trivial ms v n op = UB.
Proof. exact (fun M => append_over trivial ms M v xs ys n op rest r). Qed.
Theorem C140_append_throws {A} trivial ms (v : vec A) xs n op : max_size_ok ms -> holds ms v xs -> 0 <= n < 2 ^ 63 -> ms < Z.of_nat (length xs) + n ->
  append_and_overwrite trivial ms v n op = Throw.
Proof. exact (fun M => append_over_throw trivial ms M v xs n op). Qed.
(** The operation finds storage for [n] elements, unless size( ) + n wraps around. *)
Theorem C140_append_storage {A} trivial ms (v : vec A) xs n : max_size_ok ms -> holds ms v xs -> 1 <= n -> Z.of_nat (length xs) + n <= ms ->
  exists w, append_and_overwrite trivial ms v n probe = Ok (w, 1).
Proof. exact (fun M => probe_fits trivial ms M v xs n). Qed.
Theorem C140_append_refuted {A} trivial ms (v : vec A) xs n : max_size_ok ms -> holds ms v xs -> n < 2 ^ 64 <= Z.of_nat (length xs) + n ->
  exists w, append_and_overwrite trivial ms v n probe = Ok (w, 0).
Proof. exact (fun M => append_over_wraps trivial ms M v xs n). Qed.
Print Assumptions C140_resize_partial.
Print Assumptions C140_resize_refuted.
Print Assumptions C140_leak_refuted.
Print Assumptions C140_append_partial.
Print Assumptions C140_append_throws.
Print Assumptions C140_append_storage.
Print Assumptions C140_append_refuted.
Example C140_nontrivial :
  let op := fun (m : mem Z) (n : Z) => (Obj 7 :: tl m, 1) in
  resize_and_overwrite true 100 three 3 op = Ok (Vec [Obj 7; Raw; Raw] 1, 1) /\
  append_and_overwrite true 100 three 2 op = Ok (Vec [Obj 1; Obj 2; Obj 3; Obj 7; Raw] 4, 1) /\
  resize_and_overwrite true 100 (@empty_vec Z) 2 op = UB.
Proof. vm_compute. auto. Qed.

(** ** C141: block_append_from *)
Theorem C141_block_refuted {A} trivial ms fuel (v : vec A) cur l b w : l <> [] -> block_append_from trivial ms fuel v cur l b <> Ok w.
Proof. exact (block_stuck trivial ms fuel v cur l b w). Qed.
Theorem C141_nothing {A} trivial ms fuel (v : vec A) cur b : block_append_from trivial ms (S fuel) v cur [] b = Ok v.
Proof. exact (eq_refl (Ok v)). Qed.
Print Assumptions C141_block_refuted.
Print Assumptions C141_nothing.
Example C141_nontrivial : block_append_from true 100 50 (@empty_vec Z) 0 [1; 2; 3] 4 = UB /\
  block_append_from true 100 50 (@empty_vec Z) 0 [1] 0 = OutOfFuel.
Proof. vm_compute. auto. Qed.

(** ** C142: assign( n, u ) of one of the elements *)
Theorem C142_assign_partial {A} trivial ms (v : vec A) xs n u a : holds ms v xs -> 0 <= n <= Z.of_nat (capacity v) -> ref_value xs u = Some a ->
  exists w, assign_n trivial ms v n u = Ok w /\ holds ms w (repeat a (Z.to_nat n)).
Proof. exact (assign_inside trivial ms v xs n u a). Qed.
Theorem C142_assign_refuted {A} trivial ms (v : vec A) xs n i : max_size_ok ms -> holds ms v xs -> Z.of_nat (capacity v) < n <= ms ->
  assign_n trivial ms v n (Elem i) = UB.
Proof. exact (fun M => assign_alias trivial ms M v xs n i). Qed.
Print Assumptions C142_assign_partial.
Print Assumptions C142_assign_refuted.
Example C142_nontrivial : assign_n false 100 three 2 (Elem 1) = Ok (Vec [Obj 2; Obj 2; Raw] 2) /\ assign_n false 100 three 4 (Elem 1) = UB /\
  assign_n false 100 three 4 (Val 2) = Ok (Vec [Obj 2; Obj 2; Obj 2; Obj 2] 4).
Proof. vm_compute. auto. Qed.

(** ** C143: split_buffer is a deque, of trivial types *)
Theorem C143_deque_partial {A} os (b : sbuffer A) xs : sb_holds b xs -> Z.of_nat (length xs + length os) < 2 ^ 63 ->
  match run deque_step os xs with
  | Ok ys => exists c, run (sb_step true) os b = Ok c /\ sb_holds c ys
  | _ => run (sb_step true) os b = UB
  end.
Proof. exact (sb_run true os b xs eq_refl). Qed.
(** For other types too, except for a push that has to shift elements, which assigns to
    raw storage. *)
Theorem C143_objects_partial {A} o (b : sbuffer A) xs : sb_clean b xs -> Z.of_nat (length xs) < 2 ^ 63 -> (xs = [] \/ ~ sb_shifts o b) ->
  match deque_step o xs with
  | Ok ys => exists c, sb_step false o b = Ok c /\ sb_clean c ys
  | _ => sb_step false o b = UB
  end.
Proof. exact (sb_clean_step false o b xs eq_refl). Qed.
Theorem C143_shift_refuted {A} o (b : sbuffer A) xs : sb_clean b xs -> xs <> [] -> sb_shifts o b -> sb_step false o b = UB.
Proof. exact (sb_shift_ub false o b xs eq_refl). Qed.
(** reserve does nothing when more is asked for, and destroys the buffer when less is. *)
Theorem C143_reserve_refuted {A} trivial (b : sbuffer A) xs n : sb_holds b xs ->
  (Z.of_nat (sb_capacity b) <= n -> sb_reserve trivial b n = Ok b) /\
  (0 <= n < Z.of_nat (length xs) -> sb_reserve trivial b n = UB).
Proof. exact (fun H => sb_reserve_wrong trivial b xs n H). Qed.
Theorem C143_input {A} trivial (l : list A) : Z.of_nat (length l) < 2 ^ 63 -> exists b, sb_construct_input trivial (SBuf [] 0 0) l = Ok b /\ sb_clean b l.
Proof. exact (sb_input trivial l). Qed.
Print Assumptions C143_deque_partial.
Print Assumptions C143_objects_partial.
Print Assumptions C143_shift_refuted.
Print Assumptions C143_reserve_refuted.
Print Assumptions C143_input.
Example C143_nontrivial :
  let os := [SPushBack 1; SPushFront 2; SPushBack 3; SPushFront 4; SPopBack; SPushFront 5; SPushFront 6; SPopFront; SShrink] in
  run deque_step os [] = Ok [5; 4; 2; 1] /\ run (sb_step true) os (SBuf [] 0 0) = Ok (SBuf [Obj 5; Obj 4; Obj 2; Obj 1] 0 4) /\
  run (sb_step false) [SPushBack 1; SPushBack 2; SPushBack 3; SPushBack 4] (SBuf [] 0 0) = UB.
Proof. vm_compute. auto. Qed.

(** ** C144: iota_op *)
Theorem C144_iota_partial T trivial first step n k : std_width (width T) -> 0 < step -> fits T first -> fits T (first + n * step) ->
  0 <= n <= Z.of_nat k -> fits T n -> fits (promote T) (n * step) ->
  iota_op T trivial first step (repeat Raw k) n
  = Ok (map Obj (map (fun i => first + Z.of_nat i * step) (seq 0 (Z.to_nat n))) ++ repeat Raw (k - Z.to_nat n), n).
Proof. exact (fun W => iota_ok T W trivial first step n k). Qed.
(** A step that is not positive: nothing is written, but n elements are reported. *)
Theorem C144_down_refuted T trivial first step n m r : std_width (width T) -> step <= 0 -> 0 <= n -> fits T first -> fits T n -> fits T step -> signed T = true ->
  iota_op T trivial first step m n = Ok r -> r = (m, n).
Proof. exact (fun W => iota_none T W trivial first step n m r). Qed.
Print Assumptions C144_iota_partial.
Print Assumptions C144_down_refuted.
Example C144_nontrivial : iota_op i32 false 5 3 (repeat Raw 4) 3 = Ok ([Obj 5; Obj 8; Obj 11; Raw], 3) /\
  iota_op i32 false 5 (-1) (repeat Raw 2) 2 = Ok ([Raw; Raw], 2) /\
  (r <- iota_op u8 false 0 1 (repeat Raw 300) 300 ;; Ok (nth 44 (fst r) Raw, snd r)) = Ok (Raw, 300).
Proof. vm_compute. auto. Qed.
