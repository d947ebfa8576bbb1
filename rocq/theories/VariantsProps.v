(** Properties of variants and tuples. *)
From Verif Require Import Common Ints Math Variants SpecVariants VariantsProofs.
Open Scope Z_scope.

(** * C259 Visiting a variant *)

(** For any number of alternatives the visitor is called with the held alternative, and its result is returned. *)
Theorem C259_held :
  forall (V R : Type) (vis : nat -> V -> res R) v i x, holds v i x ->
  visit_nt v vis = vis i x /\ visit_result v vis = vis i x /\ forall has_npos, visit has_npos v vis = vis i x.
Proof. exact c259_held. Qed.

(** A valueless variant of a class with a member variant_npos gives bad_variant_access. *)
Theorem C259_empty_detected :
  forall (V R : Type) (vis : nat -> V -> res R) v, valueless v -> visit true v vis = Throw.
Proof. exact c259_empty_detected. Qed.

(** A valueless std::variant is not detected by visit, nor by visit<Result>: undefined behaviour. *)
Theorem C259_valueless_refuted :
  forall (V R : Type) (vis : nat -> V -> res R) v, valueless v ->
  visit false v vis = UB /\ visit_result v vis = UB /\ visit_nt v vis = UB.
Proof. exact c259_valueless_refuted. Qed.

Example C259_nonvacuous :
  let v := Variant 40 (Some (33%nat, 7)) in holds v 33 7 /\ visit false v (fun i x => Ok (Z.of_nat i * 100 + x)) = Ok 3307 /\
  (let e := Variant 40 (@None (nat * Z)) in valueless e /\ visit true e (fun i x => Ok x) = Throw /\ visit false e (fun i x => Ok x) = UB).
Proof. cbv zeta. repeat split; first [reflexivity | cbn; lia]. Qed.
Print Assumptions C259_held.
Print Assumptions C259_empty_detected.
Print Assumptions C259_valueless_refuted.

(** * C260 Casting a variant *)

(** The held value is converted if its type is convertible; otherwise bad_variant_access. *)
Theorem C260_cast :
  forall (V T : Type) (to : nat -> option (V -> T)) v i x, holds v i x ->
  (forall f, to i = Some f -> variant_cast to v = Ok (f x)) /\ (to i = None -> variant_cast to v = Throw).
Proof. exact c260_cast. Qed.

(** can_extract<T> is true exactly if the held alternative is a T. *)
Theorem C260_can_extract :
  forall (V : Type) is_t (v : variant V) i x, holds v i x -> can_extract is_t v = Ok (is_t i).
Proof. exact c260_can_extract. Qed.

Example C260_nonvacuous :
  let v := Variant 3 (Some (2%nat, 300)) in holds v 2 300 /\
  variant_cast (fun i => match i with 1%nat => None | _ => Some (conv u8) end) v = Ok 44 /\ variant_cast (fun i => match i with 2%nat => None | _ => Some (conv u8) end) v = Throw /\
  can_extract (Nat.eqb 2) v = Ok true /\ can_extract (Nat.eqb 1) v = Ok false.
Proof. cbv zeta. repeat split; first [reflexivity | cbn; lia]. Qed.
Print Assumptions C260_cast.
Print Assumptions C260_can_extract.

(** * C261 Elements of a tuple *)

(** get( tuple, index ) refers to the element at that position, as that alternative; out of range it ends the program. *)
Theorem C261_get :
  forall n index, 0 <= index ->
  (index < Z.of_nat n -> tuple_get n index = Some (Z.to_nat index)) /\ (Z.of_nat n <= index -> tuple_get n index = None).
Proof. exact c261_get. Qed.

(** for_each and apply call the function once per element, from the first to the last, and each call sees the effects of the earlier ones. *)
Theorem C261_in_order :
  forall (A S : Type) (step : S -> A -> S) (new : S -> A -> A) s tp,
  exists tp', tuple_apply (fun s x => Ok (step s x, new s x)) s tp = Ok (fold_left step tp s, tp') /\ length tp' = length tp /\
    forall i x, nth_error tp i = Some x -> nth_error tp' i = Some (new (fold_left step (firstn i tp) s) x).
Proof. exact c261_in_order. Qed.

(** An exception of a call is passed on and ends the calls. *)
Theorem C261_stops :
  forall (A S : Type) (f : S -> A -> res (S * A)) s tp x rest s' tp',
  tuple_apply f s tp = Ok (s', tp') -> f s' x = Throw -> tuple_apply f s (tp ++ x :: rest) = Throw.
Proof. exact c261_stops. Qed.

(** apply_at makes exactly one call, with the element at that position, and none if the callable does not take it or the index is out of range. *)
Theorem C261_apply_at :
  forall (A E : Type) (tp : list A) index (func : A -> option E), 0 <= index ->
  (forall x e, nth_error tp (Z.to_nat index) = Some x -> func x = Some e -> tuple_apply_at tp index func = [e]) /\
  (forall x, nth_error tp (Z.to_nat index) = Some x -> func x = None -> tuple_apply_at tp index func = []) /\
  (Z.of_nat (length tp) <= index -> tuple_apply_at tp index func = []).
Proof. exact c261_apply_at. Qed.

Example C261_nonvacuous :
  tuple_get 4 2 = Some 2%nat /\ tuple_get 4 4 = None /\
  tuple_apply (fun s x => Ok (s ++ [x], x + Z.of_nat (length s))) [] [5; 6; 7] = Ok ([5; 6; 7], [5; 7; 9]) /\
  tuple_apply (fun s x => if x =? 7 then Throw else Ok (s + x, x)) 0 [5; 7; 6] = Throw /\
  tuple_apply_at [5; 6; 7] 1 (fun x => if x =? 7 then None else Some (10 * x)) = [60] /\ tuple_apply_at [5; 6; 7] 2 (fun x => if x =? 7 then None else Some (10 * x)) = [].
Proof. repeat split. Qed.
Print Assumptions C261_get.
Print Assumptions C261_in_order.
Print Assumptions C261_stops.
Print Assumptions C261_apply_at.

(** * C262 Arithmetic on tuples *)

(** The operators between tuples: each element is the exact result if it is a value of the element type, and equal to it modulo 2^w otherwise. *)
Theorem C262_tuples :
  forall o ts a b, tuple_of ts a -> tuple_of ts b ->
  (forall i T x y, nth_error ts i = Some T -> nth_error a i = Some x -> nth_error b i = Some y -> ~ undefined o T x T y) ->
  exists r, tuple_op_tuple o ts a b = Ok r /\ elementwise (result_of o) ts a b r.
Proof. exact c262_tuples. Qed.

(** The behaviour is undefined if an element divides by 0 or overflows a signed common type; this includes products of 16-bit unsigned elements. *)
Theorem C262_tuples_undefined :
  forall o ts a b, tuple_of ts a -> tuple_of ts b ->
  (exists i T x y, nth_error ts i = Some T /\ nth_error a i = Some x /\ nth_error b i = Some y /\ undefined o T x T y) ->
  tuple_op_tuple o ts a b = UB.
Proof. exact c262_tuples_undefined. Qed.

(** A tuple and a value, if the conversion to the common type changes no operand: the value is the right operand for each element. *)
Theorem C262_value_right :
  forall o ts a B v, tuple_of ts a ->
  (forall i T x, nth_error ts i = Some T -> nth_error a i = Some x -> fits (usual T B) x /\ fits (usual T B) v /\ ~ undefined o T x B v) ->
  exists r, tuple_op_value o ts a B v = Ok r /\ elementwise (result_of o) ts a (repeat v (length ts)) r.
Proof. exact c262_value_right. Qed.

(** A value and a tuple: the value is the left operand for each element. *)
Theorem C262_value_left :
  forall o B v ts b, tuple_of ts b ->
  (forall i T y, nth_error ts i = Some T -> nth_error b i = Some y -> fits (usual B T) v /\ fits (usual B T) y /\ ~ undefined o B v T y) ->
  exists r, value_op_tuple o B v ts b = Ok r /\ elementwise (result_of o) ts (repeat v (length ts)) b r.
Proof. exact c262_value_left. Qed.

Example C262_nonvacuous :
  tuple_of [i32; u8; i64] [7; 200; -9] /\ tuple_op_tuple Add [i32; u8; i64] [7; 200; -9] [1; 100; -1] = Ok [8; 44; -10] /\
  tuple_op_tuple Mul [u16] [65535] [65535] = UB /\ undefined Mul u16 65535 u16 65535 /\ tuple_op_tuple Mul [u32] [65537] [65537] = Ok [131073] /\
  tuple_op_tuple Div [i32; i32] [7; 1] [-2; 0] = UB /\ tuple_op_value Sub [i32; u8] [7; 200] i32 10 = Ok [-3; 190] /\ value_op_tuple Sub i32 10 [i32; u8] [7; 200] = Ok [3; 66] /\
  tuple_op_value Div [i32] [-7] u32 2 = Ok [2147483644] /\ ~ fits (usual i32 u32) (-7).
Proof.
  split; [repeat constructor; first [left; reflexivity | right; left; reflexivity | right; right; left; reflexivity | right; right; right; reflexivity | vm_compute; discriminate]|].
  repeat match goal with |- _ /\ _ => split end; try match goal with |- @eq (res _) _ _ => vm_compute; reflexivity end.
  - right. split; [reflexivity|]. intros z X. inversion X; subst. intros [_ L]. vm_compute in L. apply L. reflexivity.
  - intros [L _]. vm_compute in L. apply L. reflexivity.
Qed.
Print Assumptions C262_tuples.
Print Assumptions C262_tuples_undefined.
Print Assumptions C262_value_right.
Print Assumptions C262_value_left.

(** * C263 min and max of tuples *)

(** min and max of two tuples are taken for each element. *)
Theorem C263_min_max :
  forall ts a b, tuple_of ts a -> tuple_of ts b ->
  (exists r, tuple_min ts a b = Ok r /\ elementwise (fun T x y z => z = Z.min x y) ts a b r) /\
  (exists r, tuple_max ts a b = Ok r /\ elementwise (fun T x y z => z = Z.max x y) ts a b r).
Proof. exact c263_min_max. Qed.

Example C263_nonvacuous : tuple_of [i32; u8] [7; 200] /\ tuple_min [i32; u8] [7; 200] [-3; 255] = Ok [-3; 200] /\ tuple_max [i32; u8] [7; 200] [-3; 255] = Ok [7; 255].
Proof.
  split; [repeat constructor; first [left; reflexivity | right; left; reflexivity | right; right; left; reflexivity | vm_compute; discriminate]|].
  split; vm_compute; reflexivity.
Qed.
Print Assumptions C263_min_max.

(** * C264 Printing a tuple *)

(** The stream gets an opening brace, the elements with commas between them and a space before each, a space and the closing brace, after what was written before. *)
Theorem C264_print :
  forall os t, tuple_print os t = Ok (os ++ [123] ++ listed t ++ [32; 125]).
Proof. exact c264_print. Qed.

(** { 1, 23 } and the empty tuple. *)
Example C264_nonvacuous : tuple_print [9] [[49]; [50; 51]] = Ok [9; 123; 32; 49; 44; 32; 50; 51; 32; 125] /\ tuple_print [] [] = Ok [123; 32; 125].
Proof. split; reflexivity. Qed.
Print Assumptions C264_print.
