(** Model of the integer and bit-pattern functions of include/daw/daw_cxmath.h.
    Where the header chooses between a compiler builtin and a portable
    implementation, the portable one is modelled; the builtin of
    count_leading_zeroes is modelled by its documented meaning
    ([clz_builtin]).  Functions that compute with floating point values are not
    modelled, only those that work on their bit patterns.  daw::UInt32 and
    daw::UInt64 are treated as uint32_t and uint64_t.  No proofs in this file. *)
From Verif Require Import Common Ints Math.
Open Scope Z_scope.

(** daw_cxmath.h 447-464, [pow_n].  [p *= p] and [result = p * result] are
    computed in the promoted type and converted back.  One step of fuel per
    iteration. *)
Fixpoint pow_n_loop (T : ity) (fuel : nat) (result p n : Z) : res Z :=
  match fuel with
  | O => OutOfFuel
  | S fuel' =>
    result' <- (if Z.odd n then assign_op T (p * result) else Ok result) ;;
    let n' := Z.shiftr n 1 in
    if n' =? 0 then Ok result'
    else
      p' <- assign_op T (p * p) ;;
      pow_n_loop T fuel' result' p' n'
  end.
(** An unsigned argument has at most 64 bits. *)
Definition pow_n (T : ity) (x n : Z) : res Z := pow_n_loop T 65 1 x n.

(** daw_cxmath.h 528-532. *)
Definition bit_position : list Z :=
  [ 0;  1;  2;  7;  3;  13; 8;  19; 4;  25; 14; 28; 9;  34; 20; 40;
    5;  17; 26; 38; 15; 46; 29; 48; 10; 31; 35; 54; 21; 50; 41; 57;
    63; 6;  12; 18; 24; 27; 33; 39; 16; 37; 45; 47; 30; 53; 49; 56;
    62; 11; 23; 32; 36; 44; 52; 55; 61; 22; 43; 51; 60; 42; 59; 58 ].

(** [v |= v >> s]. *)
Definition smear (s v : Z) : Z := Z.lor v (Z.shiftr v s).

(** daw_cxmath.h 523-546, the portable [count_leading_zeroes] of a uint64_t. *)
Definition clz64 (v : Z) : res Z :=
  if v =? 0 then Ok 64
  else
    let v1 := smear 32 (smear 16 (smear 8 (smear 4 (smear 2 (smear 1 v))))) in
    let v2 := sz (Z.shiftr v1 1 + 1) in
    b <- rd bit_position (Z.to_nat (Z.shiftr (sz (v2 * 0x0218a392cd3d5dbf)) 58)) ;;
    Ok (wrap 32 (63 - b)).

(** daw_cxmath.h 466-497, [count_leading_zeroes] through __builtin_clz (or
    __builtin_clzg) of a [w]-bit unsigned: the number of zero bits above the
    highest one bit, and [w] for zero. *)
Definition clz_builtin (w v : Z) : Z := if v =? 0 then w else w - 1 - Z.log2 v.

(** daw_cxmath.h 571-597, [count_trailing_zeros_cx32].  The argument is converted
    to int32_t and negated, which is undefined for the lowest int32_t. *)
Definition ctz32 (v : Z) : res Z :=
  if v =? 0 then Ok 32
  else
    m <- calc i32 (- conv i32 v) ;;
    let v := Z.land v (conv u32 m) in
    let c := 32 in
    let c := if v =? 0 then c else c - 1 in
    let c := if Z.land v 0x0000FFFF =? 0 then c else c - 16 in
    let c := if Z.land v 0x00FF00FF =? 0 then c else c - 8 in
    let c := if Z.land v 0x0F0F0F0F =? 0 then c else c - 4 in
    let c := if Z.land v 0x33333333 =? 0 then c else c - 2 in
    let c := if Z.land v 0x55555555 =? 0 then c else c - 1 in
    Ok (wrap 32 c).

(** daw_cxmath.h 599-610, [count_trailing_zeros_cx64]. *)
Definition ctz64 (v : Z) : res Z :=
  if v =? 0 then Ok 64
  else if Z.land v 0xFFFFFFFF =? 0 then
    c <- ctz32 (wrap 32 (Z.shiftr v 32)) ;; Ok (wrap 32 (32 + c))
  else ctz32 (wrap 32 v).

(** daw_cxmath.h 711-724, [pow( b, exp )] for an integer type [T].  The loop
    conditions compare the int32_t exponent with a [T]: for an unsigned [T] of
    32 or more bits it is converted to that type first.  [result /= b] is
    undefined for b = 0. *)
Definition exp_neg (T : ity) (exp : Z) : bool := let C := usual i32 T in conv C exp <? conv C 0.
Definition exp_pos (T : ity) (exp : Z) : bool := let C := usual i32 T in conv C exp >? conv C 0.

Fixpoint cx_pow_up (T : ity) (b : Z) (fuel : nat) (exp result : Z) : res Z :=
  match fuel with
  | O => OutOfFuel
  | S fuel' =>
    if exp_pos T exp then
      r <- assign_op T (result * b) ;;
      e <- calc i32 (exp - 1) ;;
      cx_pow_up T b fuel' e r
    else Ok result
  end.

Fixpoint cx_pow_down (T : ity) (b : Z) (fuel : nat) (exp result : Z) : res (Z * Z) :=
  match fuel with
  | O => OutOfFuel
  | S fuel' =>
    if exp_neg T exp then
      r <- (if b =? 0 then UB else assign_op T (Z.quot result b)) ;;
      e <- calc i32 (exp + 1) ;;
      cx_pow_down T b fuel' e r
    else Ok (exp, result)
  end.

Definition cx_pow (T : ity) (fuel : nat) (b exp : Z) : res Z :=
  ' p <- cx_pow_down T b fuel exp 1 ;;
  cx_pow_up T b fuel (fst p) (snd p).

(** daw_cxmath.h 352-359, 385-394 and 420-430, the table behind pow10: as many entries as
    numeric_limits<uintmax_t>::digits10, which is 19. *)
Fixpoint pow10_impl2 (exp : nat) (result : Z) : Z :=
  match exp with
  | O => result
  | S e => pow10_impl2 e (sz (result * 10))
  end.
Definition pow10_table : list Z := map (fun n => pow10_impl2 n 1) (seq 0 19).

(** daw_cxmath.h 1010-1012, [pow10]. *)
Definition pow10 (exp : Z) : res Z := rd pow10_table (Z.to_nat exp).

(** daw_cxmath.h 1014-1026, [is_odd] and [is_even]. *)
Definition is_odd (T : ity) (i : Z) : bool := Z.land (conv (unsigned_of T) i) 1 =? 1.
Definition is_even (T : ity) (i : Z) : bool := Z.land (conv (unsigned_of T) i) 1 =? 1.

(** daw_cxmath.h 1282-1294, [round_up_pow2] of a [w]-bit unsigned integer, with
    the builtin count_leading_zeroes of that type.  A shift by the full width or
    more is undefined. *)
Definition round_up_pow2 (w v : Z) : res Z :=
  if v =? 0 then Ok 0
  else
    let lz := clz_builtin w v in
    let msb := wrap w (sz ((w - 1) - lz)) in
    if msb <? Z.max w 32 then
      let res := wrap w (Z.shiftl 1 msb) in
      Ok (if res <? v then wrap w (Z.shiftl res 1) else res)
    else UB.

(** daw_cxmath.h 1327-1350, the portable [popcount].  The argument is converted
    to an unsigned type of at least 32 bits. *)
Fixpoint popcount_loop (fuel : nat) (ui count : Z) : res Z :=
  match fuel with
  | O => OutOfFuel
  | S fuel' =>
    if ui =? 0 then Ok count
    else popcount_loop fuel' (Z.shiftr ui 1) (count + Z.land ui 1)
  end.
Definition popcount (T : ity) (i : Z) : res Z :=
  popcount_loop 65 (wrap (Z.max 32 (width T)) i) 0.

(** daw_cxmath.h 1367-1386. *)
Definition powers_of_ten : list Z :=
  [ 10; 100; 1000; 10000; 100000; 1000000; 10000000; 100000000; 1000000000;
    10000000000; 100000000000; 1000000000000; 10000000000000; 100000000000000;
    1000000000000000; 10000000000000000; 100000000000000000;
    1000000000000000000; 10000000000000000000 ].

(** daw_cxmath.h 1388-1394, [count_digits], for any implementation [clz] of
    count_leading_zeroes; the arithmetic is in uint32_t. *)
Definition count_digits (clz : Z -> res Z) (value : Z) : res Z :=
  lz <- clz value ;;
  let b := Z.land (wrap 32 (- (if value >? 0 then 1 else 0))) (wrap 32 (63 - lz)) in
  let a := wrap 32 (b * 77) / 256 in
  p <- rd powers_of_ten (Z.to_nat a) ;;
  Ok (conv i32 (wrap 32 (1 + a + (if value >=? p then 1 else 0)))).

(** Built-in == and < on two integers of types [T] and [U]. *)
Definition builtin_eq (T U : ity) (t u : Z) : bool :=
  let C := usual T U in conv C t =? conv C u.
Definition builtin_less (T U : ity) (t u : Z) : bool :=
  let C := usual T U in conv C t <? conv C u.

(** daw_cxmath.h 1397-1421, [cmp_equal]. *)
Definition cx_cmp_equal (T U : ity) (t u : Z) : bool :=
  if Bool.eqb (signed T) (signed U) then builtin_eq T U t u
  else if signed T then
    (t >=? 0) && builtin_eq (unsigned_of T) U (conv (unsigned_of T) t) u
  else
    (u >=? 0) && builtin_eq T (unsigned_of U) t (conv (unsigned_of U) u).

(** daw_cxmath.h 1423-1432, [cmp_not_equal]. *)
Definition cx_cmp_not_equal (T U : ity) (t u : Z) : bool := negb (cx_cmp_equal T U t u).

(** daw_cxmath.h 1434-1457, [cmp_less]. *)
Definition cx_cmp_less (T U : ity) (t u : Z) : bool :=
  if Bool.eqb (signed T) (signed U) then builtin_less T U t u
  else if signed T then
    (t <? 0) || builtin_less (unsigned_of T) U (conv (unsigned_of T) t) u
  else
    (u >=? 0) && builtin_less T (unsigned_of U) t (conv (unsigned_of U) u).

(** daw_cxmath.h 1459-1490, [cmp_greater], [cmp_less_equal], [cmp_greater_equal]. *)
Definition cx_cmp_greater (T U : ity) (t u : Z) : bool := cx_cmp_less U T u t.
Definition cx_cmp_less_equal (T U : ity) (t u : Z) : bool := negb (cx_cmp_less U T u t).
Definition cx_cmp_greater_equal (T U : ity) (t u : Z) : bool := negb (cx_cmp_less T U t u).

(** Bit patterns of float and double. *)
Inductive fp_class := FpNormal | FpZero | FpSubnormal | FpNan | FpInfinity.

(** daw_cxmath.h 246-261, [fp_classify_impl] of a float's bits. *)
Definition fp_classify32 (f : Z) : fp_class :=
  let f := Z.land f 0x7FFFFFFF in
  if f =? 0 then FpZero
  else if f <? 0x800000 then FpSubnormal
  else if f >? 0x7F800000 then FpNan
  else if f =? 0x7F800000 then FpInfinity
  else FpNormal.

(** daw_cxmath.h 263-281, [fp_classify_impl] of a double's bits. *)
Definition fp_classify64 (d : Z) : fp_class :=
  let lx := wrap 32 (Z.land d 0x00000000FFFFFFFF) in
  let hx := wrap 32 (Z.shiftr d 32) in
  let lx := Z.lor lx (Z.land hx 0x000FFFFF) in
  let hx := Z.land hx 0x7FF00000 in
  if Z.lor hx lx =? 0 then FpZero
  else if hx =? 0 then FpSubnormal
  else if hx =? 0x7FF00000 then
    if negb (lx =? 0) then FpNan else FpInfinity
  else FpNormal.

(** A binary floating point format: total bits, significand bits, and the
    constants of daw_cxmath.h 70-127. *)
Record fpfmt := {
  fp_bits : Z; fp_sig : Z; fp_bias : Z; fp_exp_mask : Z; fp_sign_mask : Z; fp_one : Z;
  fp_max_exponent : Z; fp_min_exponent : Z; fp_infinity : Z
}.
(** float: significand_mask 0x007FFFFF, exponent_mask 0x7F800000, bias 127;
    bit pattern of 1.0f; numeric_limits max_exponent 128, min_exponent -125. *)
Definition f32 := {|
  fp_bits := 32; fp_sig := 23; fp_bias := 127; fp_exp_mask := 0x7F800000;
  fp_sign_mask := 0x80000000; fp_one := 0x3F800000;
  fp_max_exponent := 128; fp_min_exponent := -125; fp_infinity := 0x7F800000 |}.
(** double: exponent_mask 0x7FF0000000000000, bias 1023; bit pattern of 1.0;
    numeric_limits max_exponent 1024, min_exponent -1021. *)
Definition f64 := {|
  fp_bits := 64; fp_sig := 52; fp_bias := 1023; fp_exp_mask := 0x7FF0000000000000;
  fp_sign_mask := 0x8000000000000000; fp_one := 0x3FF0000000000000;
  fp_max_exponent := 1024; fp_min_exponent := -1021; fp_infinity := 0x7FF0000000000000 |}.

(** daw_cxmath.h 173-180, [get_exponent_impl]. *)
Definition get_exponent (F : fpfmt) (d : Z) : Z :=
  conv i32 (Z.shiftr (Z.land d (fp_exp_mask F)) (fp_sig F)) - fp_bias F.

(** daw_cxmath.h 182-196, [set_exponent_impl], which set_exponent (801-817) applies
    to the bits of its argument. *)
Definition set_exponent (F : fpfmt) (d exp : Z) : res Z :=
  if exp =? 0 then Ok (fp_one F)
  else
    e <- calc i32 (exp + fp_bias F) ;;
    let new_exp := wrap (fp_bits F) (Z.shiftl (wrap (fp_bits F) e) (fp_sig F)) in
    let d := Z.land d (wrap (fp_bits F) (Z.lnot (fp_exp_mask F))) in
    Ok (Z.lor d new_exp).

(** daw_cxmath.h 777-791, [pow2<Real>] with bit_cast: the bits of its result. *)
Definition fp_pow2 (F : fpfmt) (exp : Z) : res Z :=
  if exp >=? fp_max_exponent F then Ok (fp_infinity F)
  else if exp <=? fp_min_exponent F then Ok 0
  else set_exponent F 0 exp.
