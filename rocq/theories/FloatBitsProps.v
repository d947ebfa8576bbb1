(** Floating point functions: theorems. *)
From Verif Require Import Common Ints Math CxMath SpecMath Floats FloatMath SpecFloats SpecFloatMath FloatBitsProofs.
Open Scope Z_scope.

(** * C281 rounding to integers *)

(** The floor of every number that is not negative, and of every integer, is right if the result type can hold it. *)
Theorem C281_floor :
  forall F T d, proper_fmt F -> 0 <= d \/ integral F d -> lowest T <= floor_of F d <= highest T -> m_floor F T (Fin d) = Ok (floor_of F d).
Proof. exact c281_floor. Qed.

(** The floor of every negative number that is no integer is one too large. *)
Theorem C281_floor_refuted :
  forall F T d, proper_fmt F -> d < 0 -> ~ integral F d -> lowest T <= floor_of F d + 1 <= highest T -> m_floor F T (Fin d) = Ok (floor_of F d + 1).
Proof. exact c281_floor_refuted. Qed.

(** Rounding a double from 0 up to 2^52 gives the nearest integer, halves upwards, with one exception. *)
Theorem C281_round :
  forall T d, representable double d -> 0 <= d < 2 ^ 52 * unit_of double -> d <> below_half -> lowest T <= nearest_of double d <= highest T -> m_round_d T (Fin d) = Ok (nearest_of double d).
Proof. exact c281_round. Qed.

(** Rounding a float from 0 up to 2^52 gives the nearest integer, without an exception. *)
Theorem C281_round_float :
  forall T d, representable single d -> 0 <= d < 2 ^ 52 * unit_of single -> lowest T <= nearest_of single d <= highest T -> m_round_f T (Fin d) = Ok (nearest_of single d).
Proof. exact c281_round_float. Qed.

(** The largest double below one half is rounded to 1, and every negative integer to the next greater one. *)
Theorem C281_round_refuted :
  m_round_d i64 (Fin below_half) = Ok 1 /\ 2 * below_half < unit_of double /\
  forall T n, - 2 ^ 52 < n < 0 -> lowest T <= n + 1 <= highest T -> m_round_d T (Fin (n * unit_of double)) = Ok (n + 1).
Proof. exact c281_round_refuted. Qed.

(** The ceiling of a number above -1 that is no integer is right when adding 1 to it is exact. *)
Theorem C281_ceil :
  forall T d, Z.abs d < 2 ^ 52 * unit_of double -> - unit_of double < d -> ~ integral double d -> representable double (d + unit_of double) -> lowest T <= ceil_of double d <= highest T -> m_ceil_d T (Fin d) = Ok (ceil_of double d).
Proof. exact c281_ceil. Qed.

(** The ceiling of every integer, and of every number below -1, is one too large. *)
Theorem C281_ceil_refuted :
  (forall T n, Z.abs n < 2 ^ 52 -> lowest T <= n + 1 <= highest T -> m_ceil_d T (Fin (n * unit_of double)) = Ok (n + 1)) /\
  (forall T d, representable double d -> - (2 ^ 52 * unit_of double) < d < - unit_of double -> ~ integral double d -> lowest T <= ceil_of double d -> ceil_of double d + 1 <= highest T -> m_ceil_d T (Fin d) = Ok (ceil_of double d + 1)).
Proof. exact c281_ceil_refuted. Qed.

(** Rounding down to a multiple, or to the nearest one, leaves multiples alone. *)
Theorem C281_multiples :
  forall n y, 0 < y -> representable double (n * y) -> Z.abs (n * y) < 2 ^ 2098 -> Z.abs n < 2 ^ 52 ->
  m_floor_by (Fin (n * y)) (Fin y) = Ok (Fin (n * y)) /\ (0 <= n -> m_round_by (Fin (n * y)) (Fin y) = Ok (Fin (n * y))).
Proof. exact c281_multiples. Qed.

(** Rounding up to a multiple moves every multiple to the next one. *)
Theorem C281_ceil_by_refuted :
  forall n y, 0 < y -> representable double ((n + 1) * y) -> Z.abs ((n + 1) * y) < 2 ^ 2098 -> Z.abs n < 2 ^ 52 -> m_ceil_by (Fin (n * y)) (Fin y) = Ok (Fin ((n + 1) * y)).
Proof. exact c281_ceil_by_refuted. Qed.

Example C281_nonvacuous :
  m_floor double i32 (Fin (- 7 * 2 ^ 1073)) = Ok (-3) /\ m_round_d i32 (Fin (7 * 2 ^ 1073)) = Ok 4 /\ m_round_d i32 (Fin (- 4 * 2 ^ 1074)) = Ok (-3)
  /\ m_ceil_d i32 (Fin (7 * 2 ^ 1073)) = Ok 4 /\ m_ceil_d i32 (Fin (4 * 2 ^ 1074)) = Ok 5 /\ m_floor_by (Fin (10 * 2 ^ 1074)) (Fin (5 * 2 ^ 1074)) = Ok (Fin (10 * 2 ^ 1074)) /\ m_ceil_by (Fin (10 * 2 ^ 1074)) (Fin (5 * 2 ^ 1074)) = Ok (Fin (15 * 2 ^ 1074)).
Proof. repeat (match goal with |- _ /\ _ => split end); vm_compute; reflexivity. Qed.
Theorem C281_ceil_float_refuted :
  forall T n, Z.abs n < 2 ^ 52 -> lowest T <= n + 1 <= highest T -> m_ceil_f T (Fin (n * unit_of single)) = Ok (n + 1).
Proof. exact c281_ceil_float_refuted_l. Qed.
Print Assumptions C281_ceil_float_refuted.
Print Assumptions C281_floor.
Print Assumptions C281_floor_refuted.
Print Assumptions C281_round.
Print Assumptions C281_round_float.
Print Assumptions C281_round_refuted.
Print Assumptions C281_ceil.
Print Assumptions C281_ceil_refuted.
Print Assumptions C281_multiples.
Print Assumptions C281_ceil_by_refuted.

(** * C282 nearly equal numbers *)

(** The comparison is symmetric and reflexive for all values, and nothing but itself is nearly equal to not a number. *)
Theorem C282_laws :
  forall F, proper_fmt F -> (forall a b eps, nearly_equal F a b eps = nearly_equal F b a eps) /\ (forall a eps, nearly_equal F a a eps = true) /\ (forall a eps, a <> NaN -> nearly_equal F NaN a eps = false).
Proof. exact c282_laws. Qed.

(** Numbers that are nearly equal with the default tolerance differ by at most a few units in the last place. *)
Theorem C282_sound :
  forall F a b, proper_fmt F -> number F (Fin a) -> number F (Fin b) -> a <> 0 -> b <> 0 -> a <> b -> nearly_equal F (Fin a) (Fin b) (epsilon F) = true -> 2 ^ prec F * Z.abs (a - b) <= 4 * (Z.abs a + Z.abs b).
Proof. exact c282_sound. Qed.

(** Numbers whose difference is at most the precision times the sum of their magnitudes are nearly equal. *)
Theorem C282_complete :
  forall F a b, proper_fmt F -> 3 <= prec F -> number F (Fin a) -> number F (Fin b) -> a <> 0 -> b <> 0 -> 2 ^ prec F * Z.abs (a - b) <= Z.min (Z.abs a + Z.abs b) (2 ^ top_exp F) -> nearly_equal F (Fin a) (Fin b) (epsilon F) = true.
Proof. exact c282_complete. Qed.

(** Nothing but zero is nearly equal to zero, however small it is and however large the tolerance: the bound is the exponent of the smallest number, which is negative, instead of the number. *)
Theorem C282_zero_refuted :
  forall F x e, proper_fmt F -> x <> 0 -> 0 < e -> nearly_equal F (Fin 0) (Fin x) (Fin e) = false.
Proof. exact c282_zero_refuted. Qed.

Example C282_nonvacuous : number double (Fin (2 ^ 1074)) /\ number double (Fin (2 ^ 1074 + 2 ^ 1022)) /\ nearly_equal double (Fin (2 ^ 1074)) (Fin (2 ^ 1074 + 2 ^ 1022)) (epsilon double) = true /\
  nearly_equal double (Fin (2 ^ 1074)) (Fin (2 ^ 1074 + 2 ^ 1030)) (epsilon double) = false /\ nearly_equal double (Fin 0) (Fin 1) (epsilon double) = false.
Proof.
  split; [split; [exists 1, 1074; repeat split; lia|vm_compute; reflexivity]|]. split; [split; [exists (2 ^ 52 + 1), 1022; repeat split; lia|vm_compute; reflexivity]|]. repeat (match goal with |- _ /\ _ => split end); vm_compute; reflexivity.
Qed.
Print Assumptions C282_laws.
Print Assumptions C282_sound.
Print Assumptions C282_complete.
Print Assumptions C282_zero_refuted.

(** * C283 sine and cosine *)

(** Sine and cosine of every finite double end after finitely many recursive calls. *)
Theorem C283_ends :
  forall z, number double (Fin z) -> (exists n v, forall m, (n <= m)%nat -> m_sin m (Fin z) = Ok v) /\ (exists n v, forall m, (n <= m)%nat -> m_cos m (Fin z) = Ok v).
Proof. exact c283_ends. Qed.

(** For an infinity and for not a number the recursion has no end. *)
Theorem C283_special_refuted :
  forall n x, (exists s, x = Inf s) \/ x = NaN -> m_sin n x = OutOfFuel /\ m_cos n x = OutOfFuel.
Proof. exact c283_special_refuted. Qed.

Example C283_nonvacuous : number double (Fin (2 ^ 1074)) /\ (exists v, m_sin 3 (Fin (2 ^ 1065)) = Ok (Fin v) /\ 999 * 2 ^ 1065 < 1000 * v < 1000 * 2 ^ 1065) /\ m_cos 0 (Fin 0) = Ok one.
Proof.
  split; [split; [exists 1, 1074; repeat split; lia|vm_compute; reflexivity]|]. split; [eexists; split; [vm_compute; reflexivity|split; vm_compute; reflexivity]|reflexivity].
Qed.
Print Assumptions C283_ends.
Print Assumptions C283_special_refuted.

(** * C284 ldexp *)

(** Scaling by a power of two whose exponent is from -1022 to 1023 gives a double nearest to the product. *)
Theorem C284_scale :
  forall a k, -1022 <= k <= 1023 -> exists z, ldexp (Fin a) k = Ok (fin double z) /\ nearest_rep double z (a * 2 ^ (1074 + k)) (2 ^ 1074).
Proof. exact c284_scale. Qed.

(** Scaling up is exact, or infinite if the product is too large. *)
Theorem C284_exact :
  forall a k, number double (Fin a) -> 0 <= k <= 1023 -> ldexp (Fin a) k = Ok (fin double (a * 2 ^ k)).
Proof. exact c284_exact. Qed.

(** With the exponent 1024 every positive number becomes infinite and with -1023 every number zero, also where the product is a double, such as that of the smallest double. *)
Theorem C284_limits_refuted :
  (forall a, 0 < a -> ldexp (Fin a) 1024 = Ok (Inf false)) /\ (forall a, ldexp (Fin a) (-1023) = Ok (Fin 0)) /\ representable double (1 * 2 ^ 1024) /\ 1 * 2 ^ 1024 < 2 ^ top_exp double.
Proof. exact c284_limits_refuted. Qed.

Example C284_nonvacuous : number double (Fin (3 * 2 ^ 1074)) /\ ldexp (Fin (3 * 2 ^ 1074)) 5 = Ok (Fin (96 * 2 ^ 1074)) /\ ldexp (Fin 3) (-1) = Ok (Fin 2).
Proof. split; [split; [exists 3, 1074; repeat split; lia|vm_compute; reflexivity]|]. repeat (match goal with |- _ /\ _ => split end); vm_compute; reflexivity. Qed.
Print Assumptions C284_scale.
Print Assumptions C284_exact.
Print Assumptions C284_limits_refuted.

(** * C285 tables of powers *)

(** The table of powers of two has exactly 2^e for the exponents from -307 to 307. *)
Theorem C285_pow2 :
  forall e, -307 <= e <= 307 -> dpow2 e = Ok (Fin (2 ^ (1074 + e))).
Proof. exact c285_pow2. Qed.

(** The table of powers of ten is exact where the power is a double with exponent at most 22. *)
Theorem C285_pow10 :
  forall e, 0 <= e <= 22 -> dpow10 e = Ok (Fin (10 ^ e * 2 ^ 1074)).
Proof. exact c285_pow10. Qed.

(** The other powers of ten from -307 to 307 have a relative error of at most 40 * 2^-53. *)
Theorem C285_pow10_error :
  forall e, 0 <= e <= 307 -> (exists z, dpow10 e = Ok (Fin z) /\ 2 ^ 53 * Z.abs (z - 10 ^ e * 2 ^ 1074) <= 34 * (10 ^ e * 2 ^ 1074)) /\
  (exists z, dpow10 (- e) = Ok (Fin z) /\ 2 ^ 53 * Z.abs (z * 10 ^ e - 2 ^ 1074) <= 40 * 2 ^ 1074).
Proof. exact c285_pow10_error. Qed.

(** Other exponents are read outside of the table, although up to 2^1023 and 10^308 the powers are doubles. *)
Theorem C285_outside_refuted :
  forall e, e < -307 \/ 307 < e -> dpow2 e = UB /\ dpow10 e = UB.
Proof. exact c285_outside_refuted. Qed.

(** The powers of ten are not always the nearest doubles. *)
Theorem C285_nearest_refuted :
  exists e z y, dpow10 e = Ok (Fin z) /\ 0 <= e <= 307 /\ representable double y /\ Z.abs (y - 10 ^ e * 2 ^ 1074) < Z.abs (z - 10 ^ e * 2 ^ 1074).
Proof. exact c285_nearest_refuted. Qed.

Example C285_nonvacuous : dpow2 (-3) = Ok (Fin (2 ^ 1071)) /\ dpow10 3 = Ok (Fin (1000 * 2 ^ 1074)) /\ dpow10 308 = UB.
Proof. repeat (match goal with |- _ /\ _ => split end); vm_compute; reflexivity. Qed.
Print Assumptions C285_pow2.
Print Assumptions C285_pow10.
Print Assumptions C285_pow10_error.
Print Assumptions C285_outside_refuted.
Print Assumptions C285_nearest_refuted.

(** * C286 the bits of floating point numbers *)

(** The bits of every finite float other than zero, normal or not, computed without a cast, are those of the number. *)
Theorem C286_bits :
  forall f, number single (Fin f) -> f <> 0 -> exists b, bits_compat (Fin f) = Ok b /\ 0 <= b < 2 ^ 32 /\ of_bits f32 b = Fin f.
Proof. exact c286_bits. Qed.

(** Sign, exponent and the bits of the significand are the fields of the number. *)
Theorem C286_fields :
  forall b, 0 <= b < 2 ^ 32 -> parts_negative b = (ieee_sign 32 b =? 1) /\ parts_exponent b = ieee_exponent 32 23 b - 127 /\ parts_raw_significand b = ieee_significand 23 b.
Proof. exact c286_fields. Qed.

(** The significand of a normal number below two is the magnitude scaled into the range from one to two. *)
Theorem C286_significand :
  forall b, 0 <= b < 2 ^ 32 -> 0 < ieee_exponent 32 23 b <= 127 ->
  exists v x, of_bits f32 b = Fin v /\ parts_significand b = Ok (Fin x) /\ unit_of single <= x < 2 * unit_of single /\ x = Z.abs v * 2 ^ (127 - ieee_exponent 32 23 b).
Proof. exact c286_significand. Qed.

(** Copying a sign gives the sign of the one and the magnitude of the other number, for all bit patterns. *)
Theorem C286_copy_sign :
  forall B n s, B = f32 \/ B = f64 -> 0 <= n < 2 ^ fp_bits B -> 0 <= s < 2 ^ fp_bits B ->
  ieee_sign (fp_bits B) (copy_sign B n s) = ieee_sign (fp_bits B) s /\ ieee_exponent (fp_bits B) (fp_sig B) (copy_sign B n s) = ieee_exponent (fp_bits B) (fp_sig B) n /\ ieee_significand (fp_sig B) (copy_sign B n s) = ieee_significand (fp_sig B) n.
Proof. exact c286_copy_sign. Qed.

(** For a number that is not negative, one unit up is the next double and one unit down takes it back. *)
Theorem C286_next :
  forall d, 0 <= d -> d + 1 < 0x7FF0000000000000 -> exists x y, of_bits f64 d = Fin x /\ of_bits f64 (d + 1) = Fin y /\ adj_ulp d 1 = Ok (d + 1) /\ adj_ulp (d + 1) (-1) = Ok d /\ x < y /\ forall z, representable double z -> ~ (x < z < y).
Proof. exact c286_next. Qed.

(** The sign bit of every value other than zero and not a number is right. *)
Theorem C286_signbit :
  forall B b, B = f32 \/ B = f64 -> of_bits B b <> NaN -> of_bits B b <> Fin 0 -> signbit B b = Z.testbit b (fp_bits B - 1).
Proof. exact c286_signbit. Qed.

(** sign_bit is true for positive numbers; the significand of every number from two on is multiplied instead of divided by the power; only one of the patterns that are not a number is recognised. *)
Theorem C286_parts_refuted :
  (forall b, 0 <= b < 2 ^ 32 -> parts_sign_bit b = (ieee_sign 32 b =? 0)) /\
  (forall b, 0 <= b < 2 ^ 32 -> 127 < ieee_exponent 32 23 b < 254 -> exists v x, of_bits f32 b = Fin v /\ parts_significand b = Ok (fin single x) /\ x = Z.abs v * 2 ^ (ieee_exponent 32 23 b - 127) /\ 4 * unit_of single <= x) /\
  (of_bits f32 0x7F800001 = NaN /\ parts_is_nan 0x7F800001 = false).
Proof. exact c286_parts_refuted. Qed.

(** One unit up moves negative numbers down; the sign bit of negative zero is not seen. *)
Theorem C286_signs_refuted :
  (forall b, 0 <= b -> b + 1 < 0x7FF0000000000000 -> exists x y, of_bits f64 (2 ^ 63 + b) = Fin x /\ adj_ulp (2 ^ 63 + b) 1 = Ok (2 ^ 63 + b + 1) /\ of_bits f64 (2 ^ 63 + b + 1) = Fin y /\ y < x) /\
  signbit f64 (2 ^ 63) = false /\ ieee_sign 64 (2 ^ 63) = 1.
Proof. exact c286_signs_refuted. Qed.

Example C286_nonvacuous : bits_compat (Fin (- 3 * 2 ^ 149)) = Ok 0xC0400000 /\ bits_compat (Fin 5) = Ok 5 /\ ieee_exponent 32 23 0x3F400000 = 126 /\ parts_significand 0x3F400000 = Ok (Fin (3 * 2 ^ 148)) /\ ieee_exponent 32 23 0x40400000 = 128 /\ parts_significand 0x40400000 = Ok (Fin (6 * 2 ^ 149))
  /\ copy_sign f32 0x3F800000 0x80000000 = 0xBF800000 /\ adj_ulp 0x3FEFFFFFFFFFFFFF 1 = Ok 0x3FF0000000000000.
Proof. repeat (match goal with |- _ /\ _ => split end); vm_compute; reflexivity. Qed.
Theorem C286_parts_inf :
  forall b, 0 <= b < 2 ^ 32 -> (parts_is_inf b = true <-> exists s, of_bits f32 b = Inf s).
Proof. exact c286_parts_inf_l. Qed.
Print Assumptions C286_parts_inf.
Print Assumptions C286_bits.
Print Assumptions C286_fields.
Print Assumptions C286_significand.
Print Assumptions C286_copy_sign.
Print Assumptions C286_next.
Print Assumptions C286_signbit.
Print Assumptions C286_parts_refuted.
Print Assumptions C286_signs_refuted.

(** * C287 square roots *)

(** The square root of every positive normal float or double is right up to a few units in the last place: its square differs from the argument by at most 16 * 2^-prec of it. *)
Theorem C287_accuracy :
  forall B b, B = f32 \/ B = f64 -> 2 ^ fp_sig B <= b < fp_infinity B -> exists z r, of_bits B b = Fin z /\ m_sqrt B b = Ok (Fin r) /\ 0 < z /\ 0 < r /\
  2 ^ prec (of_fmt B) * Z.abs (r * r - z * unit_of (of_fmt B)) <= 16 * (z * unit_of (of_fmt B)).
Proof. exact c287_accuracy. Qed.

(** Zero, infinity and not a number are their own square roots. *)
Theorem C287_special :
  forall B, B = f32 \/ B = f64 -> m_sqrt B 0 = Ok (Fin 0) /\ m_sqrt B (fp_infinity B) = Ok (Inf false) /\ m_sqrt B (fp_infinity B + 1) = Ok NaN.
Proof. exact c287_special. Qed.

(** The square root of the float -16 is a finite negative number, that of negative infinity is infinite; neither is not a number. *)
Theorem C287_negative_refuted :
  (exists r, m_sqrt f32 0xC1800000 = Ok (Fin r) /\ of_bits f32 0xC1800000 = Fin (- 16 * unit_of single) /\ r < 0) /\ of_bits f32 0xFF800000 = Inf true /\ m_sqrt f32 0xFF800000 = Ok (Inf false).
Proof. exact c287_negative_refuted. Qed.

(** The square root of a subnormal number is far off: that of the smallest float has a square more than 2^10 times too large. *)
Theorem C287_subnormal_refuted :
  exists r, of_bits f32 1 = Fin 1 /\ m_sqrt f32 1 = Ok (Fin r) /\ 0 < r /\ 2 ^ 10 * (1 * unit_of single) < r * r.
Proof. exact c287_subnormal_refuted. Qed.

Example C287_nonvacuous : exists r, m_sqrt f32 0x40000000 = Ok (Fin r) /\ of_bits f32 0x40000000 = Fin (2 * unit_of single) /\ 14142 * unit_of single < 10000 * r < 14143 * unit_of single.
Proof. eexists. split; [vm_compute; reflexivity|]. split; [vm_compute; reflexivity|]. split; vm_compute; reflexivity. Qed.
Print Assumptions C287_accuracy.
Print Assumptions C287_special.
Print Assumptions C287_negative_refuted.
Print Assumptions C287_subnormal_refuted.
