(** The floating point functions of daw_math.h and daw_cxmath.h, on the numbers of
    Floats.v and on bit patterns (CxMath.v).  No proofs in this file. *)
From Verif Require Import Common Ints Math CxMath Floats.
Open Scope Z_scope.

(** * daw_math.h *)
Definition half : fp := literal double 1 2.
Definition one : fp := of_int double 1.
(** daw_math.h 46-52, 54-60: d + 0.5 is computed in double for both types. *)
Definition m_round_d (T : ity) (d : fp) : res Z := to_int double T (fadd double d half).
Definition m_round_f (T : ity) (d : fp) : res Z := m_round_d T (to_double d).
(** daw_math.h 62-68, 70-76. *)
Definition m_floor (F : fmt) (T : ity) (d : fp) : res Z := to_int F T d.
(** daw_math.h 78-84, 86-92: d + 1.0 is computed in double. *)
Definition m_ceil_d (T : ity) (d : fp) : res Z := to_int double T (fadd double d one).
Definition m_ceil_f (T : ity) (d : fp) : res Z := m_ceil_d T (to_double d).
(** daw_math.h 94-102, 104-112, 114-122 for a double value; the Result of the inner call is intmax_t. *)
Definition by_double (step : ity -> fp -> res Z) (value rnd_by : fp) : res fp :=
  n <- step i64 (fdiv double value rnd_by) ;;
  Ok (fmul double (of_int double n) rnd_by).
Definition m_round_by := by_double m_round_d.
Definition m_floor_by := by_double (m_floor double).
Definition m_ceil_by := by_double m_ceil_d.
(** daw_math.h 124-128, abs of a floating point number. *)
Definition m_abs (t : fp) : fp := if flt t (Fin 0) then fneg t else t.

(** std::numeric_limits: min_exponent, max, epsilon. *)
Definition min_exponent (F : fmt) : Z := prec F - one_exp F.
Definition max_num (F : fmt) : fp := Fin (2 ^ top_exp F - 2 ^ (top_exp F - prec F)).
Definition epsilon (F : fmt) : fp := Fin (2 ^ (one_exp F - prec F + 1)).
(** daw_math.h 269-306 nearly_equal for floating point numbers; a != a is true for NaN only. *)
Definition is_nan_fp (x : fp) : bool := negb (feq x x).
Definition nearly_equal (F : fmt) (a b eps : fp) : bool :=
  if is_nan_fp a then (if is_nan_fp b then true else false)
  else if is_nan_fp b then false
  else
    let absA := m_abs a in
    let absB := m_abs b in
    let diff := m_abs (fsub F a b) in
    if is_nan_fp diff then true
    else if feq a b then true
    else if feq a (Fin 0) || feq b (Fin 0) || flt diff (of_int F (min_exponent F))
         then flt diff (fmul F eps (of_int F (min_exponent F)))
    else
      let s := fadd F absA absB in
      flt (fdiv F diff (if flt (max_num F) s then max_num F else s)) eps.

(** daw_math.h 185-209 sin_helper for double: the two calls with the same argument give the same value, which is computed once here. [tol] is 0.001. *)
Definition tol : fp := literal double 1 1000.
Definition cube (x : fp) : fp := fmul double (fmul double x x) x.
Fixpoint sin_helper (fuel : nat) (x : fp) : res fp :=
  match fuel with
  | O => OutOfFuel
  | S n =>
      if flt x tol then Ok x
      else
        s <- sin_helper n (fdiv double x (of_int double 3)) ;;
        Ok (fsub double (fmul double (of_int double 3) s) (fmul double (of_int double 4) (cube s)))
  end.
(** daw_math.h 42-44 PI<double>: the literal, cut after 40 digits. *)
Definition PI : fp := literal double 31415926535897932384626433832795028841972 (10 ^ 40).
(** daw_math.h 211-214, 216-222. *)
Definition m_sin (fuel : nat) (x : fp) : res fp := sin_helper fuel (if flt x (Fin 0) then fsub double PI x else x).
Definition m_cos (fuel : nat) (x : fp) : res fp :=
  if feq (Fin 0) x then Ok one else m_sin fuel (fsub double (fdiv double PI (of_int double 2)) x).

(** * daw_cxmath.h *)
(** bit_cast of a bit pattern to the number. *)
Definition of_bits (B : fpfmt) (b : Z) : fp :=
  let s := Z.testbit b (fp_bits B - 1) in
  let top := 2 ^ (fp_bits B - 1 - fp_sig B) in
  let e := (b / 2 ^ fp_sig B) mod top in
  let m := b mod 2 ^ fp_sig B in
  if e =? top - 1 then (if m =? 0 then Inf s else NaN)
  else
    let v := if e =? 0 then m else (m + 2 ^ fp_sig B) * 2 ^ (e - 1) in
    Fin (if s then - v else v).

(** daw_cxmath.h 985-996. *)
Definition ldexp (d : fp) (exponent : Z) : res fp :=
  e <- calc i32 (exponent + 1023) ;;
  let dint := 0x4000000000000000 in
  let new_exp := wrap 64 e in
  let remove_mask := wrap 64 (Z.lnot 0x7FF0000000000000) in
  let result := of_bits f64 (Z.lor (Z.land dint remove_mask) (wrap 64 (Z.shiftl new_exp 52))) in
  Ok (fmul double d result).

(** daw_cxmath.h 293-314 pow2_impl2<double>: max_shft is min(308, 64); exp is not negative after line 296. *)
Fixpoint pow2_steps (fuel : nat) (exp : Z) (result : fp) : res (Z * fp) :=
  match fuel with
  | O => OutOfFuel
  | S n => if exp >=? 64 then pow2_steps n (exp - 64) (fmul double result (of_int double (2 ^ 64 - 1))) else Ok (exp, result)
  end.
Definition pow2_impl2 (exp : Z) : res fp :=
  let is_neg := exp <? 0 in
  let exp := if is_neg then - exp else exp in
  er <- pow2_steps 10 exp one ;;
  let (exp, result) := er : Z * fp in
  let result := if exp >? 0 then fmul double result (of_int double (2 ^ exp)) else result in
  Ok (if is_neg && negb (feq result (Fin 0)) then fdiv double one result else result).
(** daw_cxmath.h 330-351 fpow10_impl2<double>: max_spow is min(308, 19). *)
Fixpoint pow10_steps (fuel : nat) (exp : Z) (result : fp) : res (Z * fp) :=
  match fuel with
  | O => OutOfFuel
  | S n => if exp >=? 19 then pow10_steps n (exp - 19) (fmul double result (of_int double (10 ^ 19))) else Ok (exp, result)
  end.
Definition fpow10_impl2 (exp : Z) : res fp :=
  let is_neg := exp <? 0 in
  let exp := if is_neg then - exp else exp in
  er <- pow10_steps 20 exp one ;;
  let (exp, result) := er : Z * fp in
  let result := if exp >? 0 then fmul double result (of_int double (10 ^ exp)) else result in
  Ok (if is_neg && negb (feq result (Fin 0)) then fdiv double one result else result).
(** daw_cxmath.h 362-372, 374-384, 395-405, 407-417: a table of max_exponent10 - min_exponent10 = 308 + 307 numbers, the n-th for n - 307;
    outside of it the access is undefined. *)
Definition table_get (f : Z -> res fp) (pos : Z) : res fp :=
  let zero := 615 / 2 in
  let i := zero + pos in
  if (0 <=? i) && (i <? 615) then f (i - 307) else UB.
(** daw_cxmath.h 998-1000, 1006-1008. *)
Definition dpow2 (exp : Z) : res fp := table_get pow2_impl2 exp.
Definition dpow10 (exp : Z) : res fp := table_get fpow10_impl2 exp.

(** daw_cxmath.h 904-948 bits without bit_cast; the loop multiplies by 2^41 and needs at most six turns. *)
Fixpoint bits_loop (fuel : nat) (abs_f : fp) (exponent : Z) : res (fp * Z) :=
  match fuel with
  | O => OutOfFuel
  | S n =>
      if flt abs_f (of_int single (2 ^ 87)) then bits_loop n (fmul single abs_f (of_int single (2 ^ 41))) (exponent - 41)
      else Ok (abs_f, exponent)
  end.
Definition bits_compat (f : fp) : res Z :=
  if feq f (Fin 0) then Ok 0
  else if flt (max_num single) f then Ok 0x7F800000
  else if flt f (fneg (max_num single)) then Ok 0xFF800000
  else if is_nan_fp f then Ok 0x7FC00000
  else
    let sign := flt f (Fin 0) in
    let abs_f := if sign then fneg f else f in
    ae <- bits_loop 8 abs_f 254 ;;
    let (abs_f, exponent) := ae : fp * Z in
    a <- to_int single u64 (fmul single abs_f (literal single 1 (2 ^ 64))) ;;
    lz <- clz64 a ;;
    let exponent := exponent - lz in
    let (exponent, lz) := if exponent <=? 0 then (0, 7) else (exponent, lz) in
    let significand := wrap 32 (Z.shiftr (wrap 64 (Z.shiftl a (lz + 1))) 41) in
    Ok (Z.lor (Z.lor (wrap 32 (Z.shiftl (if sign then 1 else 0) 31)) (wrap 32 (Z.shiftl exponent 23))) significand).

(** daw_cxmath.h 827-902 float_parts_t of a float with the bits [b]; set_exponent of 2.0f (0x40000000) is on bit patterns. *)
Definition parts_sign_bit (b : Z) : bool := Z.shiftr b 31 =? 0.
Definition parts_negative (b : Z) : bool := negb (parts_sign_bit b).
Definition parts_raw_exponent (b : Z) : Z := conv u8 (Z.shiftr (Z.land 0x7F800000 b) 23).
Definition parts_exponent (b : Z) : Z := conv i16 (parts_raw_exponent b - 127).
Definition parts_raw_significand (b : Z) : Z := Z.land 0x007FFFFF b.
Definition parts_significand (b : Z) : res fp :=
  let f := of_bits f32 b in
  let result := if flt f (Fin 0) then fneg f else f in
  let e := parts_exponent b in
  p <- set_exponent f32 0x40000000 (- e) ;;
  if e <? 0 then Ok (fmul single result (of_bits f32 p)) else Ok (fdiv single result (of_bits f32 p)).
Definition parts_is_inf (b : Z) : bool := (b =? 0x7F800000) || (b =? 0xFF800000).
Definition parts_is_nan (b : Z) : bool := b =? 0x7FC00000.

(** daw_cxmath.h 1164-1175 copy_sign and 1222-1236 adj_ulp, with bit_cast: on bit patterns. *)
Definition copy_sign (B : fpfmt) (number sign : Z) : Z :=
  Z.lor (Z.land number (wrap (fp_bits B) (Z.lnot (fp_sign_mask B)))) (Z.land sign (fp_sign_mask B)).
Definition adj_ulp (d adj : Z) : res Z :=
  if adj <? 0 then n <- calc i32 (- adj) ;; Ok (wrap 64 (d - wrap 64 n)) else Ok (wrap 64 (d + wrap 64 adj)).
(** daw_cxmath.h 1178-1182 signbit of a floating point number. *)
Definition signbit (B : fpfmt) (b : Z) : bool := flt (of_bits B b) (Fin 0).

(** daw_cxmath.h 1069-1106 sqrt_fast and 951-959 fexp3, with bit_cast, of the number with the bits [b]; [extra] is the round for types other than float. *)
Definition fexp3 (B : fpfmt) (F : fmt) (two : Z) (f : fp) (exponent old_exponent : Z) : res fp :=
  let exp_diff := exponent - old_exponent in
  if exp_diff >? 0 then p <- set_exponent B two exp_diff ;; Ok (fmul F (of_bits B p) f)
  else p <- set_exponent B two (- exp_diff) ;; Ok (fdiv F f (of_bits B p)).
(** static_cast of the double literal num / den to the type. *)
Definition cst (B : fpfmt) (num den : Z) : fp :=
  if fp_bits B =? 32 then to_single (literal double num den) else literal double num den.
Definition of_fmt (B : fpfmt) : fmt := if fp_bits B =? 32 then single else double.
(** 284-286 sqrt2, cut after 40 digits; the long double literal is rounded once. *)
Definition sqrt2 (F : fmt) : fp := literal F 14142135623730950488016887242096980785697 (10 ^ 40).
(** The bits of 2.0. *)
Definition two_bits (B : fpfmt) : Z := fp_one B + 2 ^ fp_sig B.
Definition newton (F : fmt) (f y : fp) : fp := fmul F (literal F 1 2) (fadd F y (fdiv F f y)).
Definition sqrt_mant (B : fpfmt) (f : fp) : fp :=
  let F := of_fmt B in
  let y0 := fadd F (cst B 41731 100000) (fmul F (cst B 59016 100000) f) in
  let y0 := newton F f y0 in
  let y0 := if fp_bits B =? 32 then y0 else newton F f y0 in
  let z := fadd F y0 (fdiv F f y0) in
  let y2 := fadd F (fmul F (literal F 1 4) z) (fdiv F f z) in
  newton F f y2.
Definition sqrt_fast (B : fpfmt) (b : Z) : res fp :=
  let F := of_fmt B in
  let N := get_exponent B b in
  f <- fexp3 B F (two_bits B) (of_bits B b) 0 N ;;
  let y := sqrt_mant B f in
  if is_odd i32 N then
    p <- fp_pow2 B (Z.quot (N + 1) 2) ;; Ok (fmul F (fdiv F y (sqrt2 F)) (of_bits B p))
  else p <- fp_pow2 B (Z.quot N 2) ;; Ok (fmul F y (of_bits B p)).
(** daw_cxmath.h 1108-1136 sqrt with bit_cast. *)
Definition m_sqrt (B : fpfmt) (b : Z) : res fp :=
  match (if fp_bits B =? 32 then fp_classify32 b else fp_classify64 b) with
  | FpZero => Ok (Fin 0)
  | FpNan => Ok NaN
  | FpInfinity => Ok (Inf false)
  | _ => sqrt_fast B b
  end.
