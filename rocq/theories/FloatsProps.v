(** Floats: theorems. *)
From Verif Require Import Common Ints Floats SpecFloats SpecFloatMath FloatsProofs.
From Coq Require Import Lia ZArith.
Open Scope Z_scope.

(** * C280 compensated sums *)

(** The arithmetic of the model is that of IEEE 754: each operation gives a number that is nearest to the exact result. *)
Theorem C280_operations :
  forall F a b, proper_fmt F ->
  (exists z, fadd F (Fin a) (Fin b) = fin F z /\ nearest_rep F z (a + b) 1) /\
  (exists z, fsub F (Fin a) (Fin b) = fin F z /\ nearest_rep F z (a - b) 1) /\
  (exists z, fmul F (Fin a) (Fin b) = fin F z /\ nearest_rep F z (a * b) (unit_of F)) /\
  (b <> 0 -> exists z, fdiv F (Fin a) (Fin b) = fin F z /\ nearest_rep F z (a * unit_of F * Z.sgn b) (Z.abs b)).
Proof. exact c280_operations. Qed.

(** The compensation is made of the exact errors of the additions: the sum is the plain sum plus the sum of what the plain sum lost. *)
Theorem C280_compensation :
  forall F xs s, proper_fmt F -> Forall (number F) (fins xs) -> plain_sum F (fins xs) = Fin s ->
  exists es, length es = length xs /\ Forall (number F) (fins es) /\ total xs = s + total es /\ kbn_sum F (fins xs) = fadd F (Fin s) (plain_sum F (fins es)).
Proof. exact c280_compensation. Qed.

(** The error is at most one rounding of the exact sum, plus a term of second order in the precision that grows with the square of the number of elements. *)
Theorem C280_accuracy :
  forall F xs s r, proper_fmt F -> Forall (number F) (fins xs) -> plain_sum F (fins xs) = Fin s -> kbn_sum F (fins xs) = Fin r -> 2 * (Z.of_nat (length xs) + 1) <= 2 ^ prec F ->
  2 ^ prec F * 2 ^ prec F * Z.abs (r - total xs) <= 2 ^ prec F * Z.abs (total xs) + 4 * Z.of_nat (length xs) * Z.of_nat (length xs) * magnitude xs.
Proof. exact c280_accuracy. Qed.

(** A sum that is infinite, also because an element is, comes out as not a number. *)
Theorem C280_overflow_refuted :
  forall F xs s, proper_fmt F -> plain_sum F xs = Inf s -> kbn_sum F xs = NaN.
Proof. exact c280_overflow_refuted. Qed.

Example C280_nonvacuous :
  let big := 2 ^ (1074 + 60) in let one := 2 ^ 1074 in
  proper_fmt double /\ Forall (number double) (fins [one; big; one; - big]) /\ plain_sum double (fins [one; big; one; - big]) = Fin 0 /\ kbn_sum double (fins [one; big; one; - big]) = Fin (2 * one)
  /\ plain_sum double [Inf false] = Inf false.
Proof.
  cbv zeta. split; [exact double_proper|]. split; [|split; [vm_compute; reflexivity|split; vm_compute; reflexivity]].
  assert (P : forall e, 0 <= e < 2098 -> number double (Fin (2 ^ e))) by (intros e He; split; [apply (rep_pow double double_proper); lia|rewrite Z.abs_eq by (apply Z.pow_nonneg; lia); apply Z.pow_lt_mono_r; change (top_exp double) with 2098; lia]).
  repeat apply Forall_cons; try apply Forall_nil; try (apply P; lia). destruct (P 1134 ltac:(lia)) as [A B]. change (1074 + 60) with 1134. split; [apply rep_opp; exact A|rewrite Z.abs_opp; exact B].
Qed.
(** Infinities, divisions by zero and values that are not a number follow IEEE 754. *)
Theorem C280_special_values :
  forall F x a b s t, a < 0 -> 0 < b ->
  (fadd F NaN x = NaN /\ fadd F x NaN = NaN /\ fsub F NaN x = NaN /\ fsub F x NaN = NaN /\ fmul F NaN x = NaN /\ fmul F x NaN = NaN /\ fdiv F NaN x = NaN /\ fdiv F x NaN = NaN) /\
  (fadd F (Inf s) (Inf s) = Inf s /\ fadd F (Inf s) (Inf (negb s)) = NaN /\ fsub F (Inf s) (Inf s) = NaN /\ fsub F (Inf s) (Inf (negb s)) = Inf s) /\
  (forall c, fadd F (Inf s) (Fin c) = Inf s /\ fadd F (Fin c) (Inf s) = Inf s /\ fsub F (Inf s) (Fin c) = Inf s /\ fsub F (Fin c) (Inf s) = Inf (negb s)) /\
  (fmul F (Inf s) (Inf t) = Inf (xorb s t) /\ fmul F (Inf s) (Fin 0) = NaN /\ fmul F (Fin 0) (Inf s) = NaN) /\
  (fmul F (Inf s) (Fin b) = Inf s /\ fmul F (Fin b) (Inf s) = Inf s /\ fmul F (Inf s) (Fin a) = Inf (negb s) /\ fmul F (Fin a) (Inf s) = Inf (negb s)) /\
  (fdiv F (Inf s) (Inf t) = NaN /\ fdiv F (Fin 0) (Fin 0) = NaN /\ fdiv F (Fin b) (Fin 0) = Inf false /\ fdiv F (Fin a) (Fin 0) = Inf true) /\
  (fdiv F (Inf s) (Fin b) = Inf s /\ fdiv F (Inf s) (Fin 0) = Inf s /\ fdiv F (Inf s) (Fin a) = Inf (negb s) /\ forall c, fdiv F (Fin c) (Inf s) = Fin 0) /\
  (fabs (Inf s) = Inf false /\ fabs (Fin a) = Fin (- a) /\ fabs (Fin b) = Fin b).
Proof. exact c280_special_values_l. Qed.
Print Assumptions C280_special_values.
Print Assumptions C280_operations.
Print Assumptions C280_compensation.
Print Assumptions C280_accuracy.
Print Assumptions C280_overflow_refuted.
