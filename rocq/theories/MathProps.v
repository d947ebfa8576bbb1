(** Properties C54, C55, C80-C92: the integer functions of daw_math.h and
    daw_cxmath.h, min and max, natural_t, and floating point bit patterns. *)
From Verif Require Import Common Ints Math CxMath SpecBits SpecMath MathProofs CxMathProofs CxPowProofs.
Open Scope Z_scope.

(** * C54: daw::math::pow.  It squares the base once per unit of the exponent, so
    it computes b^(2^e). *)
Theorem C54_refuted T b e : T = u32 \/ T = u64 -> fits T b -> b <> 0 -> (0 < e)%nat ->
  pow T b e = Ok (wrap (width T) (b ^ (2 ^ Z.of_nat e))).
Proof.
  exact (fun H => match H with
    | or_introl E => pow_actual T b e (f_equal signed E) ltac:(rewrite E; cbn; lia)
    | or_intror E => pow_actual T b e (f_equal signed E) ltac:(rewrite E; cbn; lia) end).
Qed.
Print Assumptions C54_refuted.
Theorem C54_witness_refuted : pow u64 3 3 = Ok 6561 /\ wrap 64 (3 ^ 3) = 27 /\
  pow u64 0 0 = Ok 0 /\ wrap 64 (0 ^ 0) = 1.
Proof. vm_compute. auto. Qed.
Print Assumptions C54_witness_refuted.
(** What is missing from C54: all other bases and exponents. *)
Theorem C54_partial T b e : std_width (width T) -> fits T b -> (b = 0 /\ e <> 0%nat) \/ b = 1 \/ (b <> 0 /\ e = 0%nat) ->
  pow T b e = Ok (b ^ Z.of_nat e).
Proof. exact (pow_right T b e). Qed.
Print Assumptions C54_partial.

(** * C55: abs.  Wrong exactly at the least value of the types narrower than 64 bits. *)
Theorem C55_partial T v : std_width (width T) -> signed T = true -> fits T v ->
  (v <> lowest T \/ width T = 64) -> abs u64 T v = Ok (Z.abs v).
Proof. exact (abs_ok T v). Qed.
Print Assumptions C55_partial.
Theorem C55_refuted :
  abs u64 i32 (- 2 ^ 31) = UB /\
  abs u64 i16 (- 2 ^ 15) = Ok (2 ^ 64 - 2 ^ 15) /\
  abs u64 i8 (- 2 ^ 7) = Ok (2 ^ 64 - 2 ^ 7).
Proof. exact (conj abs_i32_min (conj abs_i16_min abs_i8_min)). Qed.
Print Assumptions C55_refuted.
Example C55_nontrivial : abs u64 i32 (-7) = Ok 7 /\ abs u64 i64 (- 2 ^ 63) = Ok (2 ^ 63).
Proof. vm_compute. auto. Qed.

(** * C80: pow2 and factorial. *)
Theorem C80_pow2 T n : std_width (width T) -> 0 <= n -> pow2 T n = conv T (2 ^ n).
Proof. exact (pow2_ok T n). Qed.
Print Assumptions C80_pow2.
Theorem C80_pow2_exact T n : std_width (width T) -> 0 <= n -> fits T (2 ^ n) -> pow2 T n = 2 ^ n.
Proof. exact (pow2_exact T n). Qed.
Print Assumptions C80_pow2_exact.
Theorem C80_factorial T t : std_width (width T) -> signed T = true -> fits T t ->
  (t <> lowest T \/ width T = 64) ->
  factorial T t = Ok (wrap 64 (fact (Z.to_nat (Z.abs t)))).
Proof. exact (factorial_ok T t). Qed.
Print Assumptions C80_factorial.
Example C80_nontrivial : pow2 u8 7 = 128 /\ pow2 i16 3 = 8 /\ factorial i32 5 = Ok 120 /\ factorial i8 (-4) = Ok 24.
Proof. vm_compute. auto. Qed.

(** * C81: variadic max and min.  With arguments of one type they are the greatest
    and least argument, in that type. *)
Theorem C81_max_one_type T v vs : 0 < width T -> (forall x, In x (v :: vs) -> fits T x) ->
  exists m, vmax (T, v) (map (pair T) vs) = (T, m) /\ greatest m (v :: vs).
Proof. exact (max_one_type T v vs). Qed.
Print Assumptions C81_max_one_type.
Theorem C81_min_one_type T v vs : 0 < width T -> (forall x, In x (v :: vs) -> fits T x) ->
  exists m, vmin (T, v) (map (pair T) vs) = (T, m) /\ least m (v :: vs).
Proof. exact (min_one_type T v vs). Qed.
Print Assumptions C81_min_one_type.
(** Mixed types: when all types are signed or no value is negative. *)
Theorem C81_max_mixed_partial x l :
  (forall y, In y (x :: l) -> 0 < width (fst y) /\ fits (fst y) (snd y)) ->
  (forall y, In y (x :: l) -> signed (fst y) = true) \/ (forall y, In y (x :: l) -> 0 <= snd y) ->
  greatest (snd (vmax x l)) (map snd (x :: l)).
Proof. exact (fun W C => proj1 (proj2 (vmax_ok l x W C))). Qed.
Print Assumptions C81_max_mixed_partial.
Theorem C81_min_mixed_partial x l :
  (forall y, In y (x :: l) -> 0 < width (fst y) /\ fits (fst y) (snd y)) ->
  (forall y, In y (x :: l) -> signed (fst y) = true) \/ (forall y, In y (x :: l) -> 0 <= snd y) ->
  least (snd (vmin x l)) (map snd (x :: l)).
Proof. exact (fun W C => proj1 (proj2 (vmin_ok l x W C))). Qed.
Print Assumptions C81_min_mixed_partial.
(** A negative int beside an unsigned: min(-1, 1u) is 1u and max(-1, 1u) is 2^32-1. *)
Theorem C81_mixed_refuted :
  vmin (i32, -1) [(u32, 1)] = (u32, 1) /\ vmax (i32, -1) [(u32, 1)] = (u32, 2 ^ 32 - 1).
Proof. vm_compute. auto. Qed.
Print Assumptions C81_mixed_refuted.
Theorem C81_comp {A} (comp : A -> A -> bool) x y : strict_weak comp ->
  (min_comp comp x y = x \/ min_comp comp x y = y) /\
  comp x (min_comp comp x y) = false /\ comp y (min_comp comp x y) = false /\
  (max_comp comp x y = x \/ max_comp comp x y = y) /\
  comp (max_comp comp x y) x = false /\ comp (max_comp comp x y) y = false.
Proof. exact (comp_ok comp x y). Qed.
Print Assumptions C81_comp.
Theorem C81_value_or_min v m : value_or_min v m = Z.max v m.
Proof. exact (value_or_min_ok v m). Qed.
Print Assumptions C81_value_or_min.
Example C81_nontrivial : vmax (i32, 3) [(i32, -9); (i32, 12); (i32, 5)] = (i32, 12) /\
  vmin (i32, 3) [(i8, -9); (i64, 12)] = (i64, -9).
Proof. vm_compute. auto. Qed.

(** * C82: natural_t.  Every history of assignments, +=, -=, *=, ++ and --, on a
    signed type, or without -= on an unsigned one: the object holds the exact
    value, the call that would go below one throws, and nothing is claimed once
    the type overflows. *)
Theorem C82_history_partial T a cs : std_width (width T) ->
  (signed T = true \/ forall b, ~ In (SSub b) cs) ->
  (forall b, In (SAdd b) cs \/ In (SSub b) cs \/ In (SMul b) cs -> 1 <= b /\ fits T b) ->
  1 <= a -> fits T a ->
  match expect T a cs with
  | Value z => nat_run T a (map call_of cs) = Ok z /\ 1 <= z
  | Rejected => nat_run T a (map call_of cs) = Throw
  | Overflowed => True
  end.
Proof. exact (nat_history T cs a). Qed.
Print Assumptions C82_history_partial.
(** -= on an unsigned type wraps instead of throwing. *)
Theorem C82_subtract_refuted T a b : T = u32 \/ T = u64 -> 1 <= a < b -> b <= highest T ->
  nat_step T a (NSub b) = Ok (2 ^ width T + a - b).
Proof. exact (nat_sub_bad T a b). Qed.
Print Assumptions C82_subtract_refuted.
(** A smaller number divided by a greater one, and a number modulo itself, leave
    a natural_t that holds zero. *)
Theorem C82_divide_refuted T a b : std_width (width T) -> fits T a -> fits T b -> 1 <= a < b ->
  nat_step T a (NDiv b) = Ok 0 /\ nat_step T b (NMod b) = Ok 0.
Proof. exact (nat_div_zero T a b). Qed.
Print Assumptions C82_divide_refuted.
(** So does construction from a wider integer. *)
Theorem C82_construct_refuted T : std_width (width T) -> nat_make T (2 ^ width T) = Ok 0.
Proof. exact (nat_narrow T). Qed.
Print Assumptions C82_construct_refuted.
Example C82_nontrivial :
  expect i32 5 [SAdd 4; SMul 3; SDec; SSub 20] = Value 6 /\
  nat_run i32 5 (map call_of [SAdd 4; SMul 3; SDec; SSub 20]) = Ok 6 /\
  expect i32 5 [SSub 5] = Rejected.
Proof. vm_compute. auto. Qed.

(** * C83: leading and trailing zeroes (portable implementations). *)
Theorem C83_leading v k : 0 <= v < 2 ^ 64 -> top_bit v k -> clz64 v = Ok (63 - k).
Proof. exact (fun V T => clz64_ok v k T (proj2 V)). Qed.
Print Assumptions C83_leading.
Theorem C83_leading_zero : clz64 0 = Ok 64.
Proof. exact clz64_zero. Qed.
Print Assumptions C83_leading_zero.
(** Trailing zeroes: what is missing are the arguments whose examined half is
    2^31, for which the code negates the least int32_t. *)
Theorem C83_trailing32_partial v k : 0 <= v < 2 ^ 32 -> v <> 2 ^ 31 -> low_bit v k -> ctz32 v = Ok k.
Proof. exact (ctz32_ok v k). Qed.
Print Assumptions C83_trailing32_partial.
Theorem C83_trailing64_partial v k : 0 <= v < 2 ^ 64 -> low_bit v k ->
  wrap 32 v <> 2 ^ 31 -> v <> 2 ^ 63 -> ctz64 v = Ok k.
Proof. exact (ctz64_ok v k). Qed.
Print Assumptions C83_trailing64_partial.
Theorem C83_trailing_zero : ctz32 0 = Ok 32 /\ ctz64 0 = Ok 64.
Proof. exact (conj eq_refl eq_refl). Qed.
Print Assumptions C83_trailing_zero.
Theorem C83_trailing32_refuted : ctz32 (2 ^ 31) = UB.
Proof. exact ctz32_bad. Qed.
Print Assumptions C83_trailing32_refuted.
Theorem C83_trailing64_refuted v : 0 <= v < 2 ^ 64 -> wrap 32 v = 2 ^ 31 \/ v = 2 ^ 63 -> ctz64 v = UB.
Proof. exact (ctz64_bad v). Qed.
Print Assumptions C83_trailing64_refuted.
Example C83_nontrivial : top_bit 1000 9 /\ clz64 1000 = Ok 54 /\ low_bit 40 3 /\ ctz32 40 = Ok 3 /\
  ctz64 (2 ^ 40) = Ok 40.
Proof.
  repeat split; try (vm_compute; reflexivity); try lia.
  - exists 5. reflexivity.
  - intros [q E]. change (2 ^ (3 + 1)) with 16 in E. lia.
Qed.

(** * C84: round_up_pow2. *)
Theorem C84_round_up w v p : std_width w -> 0 < v -> next_pow2 v p -> p < 2 ^ w ->
  round_up_pow2 w v = Ok p.
Proof. exact (round_up_exact w v p). Qed.
Print Assumptions C84_round_up.
Theorem C84_not_representable w v : std_width w -> 2 ^ (w - 1) < v < 2 ^ w -> round_up_pow2 w v = Ok 0.
Proof. exact (round_up_overflow w v). Qed.
Print Assumptions C84_not_representable.
Theorem C84_always_exists v : 0 < v -> exists p, next_pow2 v p.
Proof. exact (next_pow2_exists v). Qed.
Print Assumptions C84_always_exists.
Example C84_nontrivial : round_up_pow2 32 100 = Ok 128 /\ round_up_pow2 8 64 = Ok 64 /\ round_up_pow2 16 0 = Ok 0.
Proof. vm_compute. auto. Qed.

(** * C85: popcount. *)
Theorem C85_popcount_partial T i : std_width (width T) -> fits T i -> 32 <= width T \/ 0 <= i ->
  popcount T i = Ok (ones (Z.to_nat (width T)) i).
Proof. exact (popcount_ok T i). Qed.
Print Assumptions C85_popcount_partial.
(** A negative 8- or 16-bit value is sign-extended to 32 bits first. *)
Theorem C85_refuted T i : std_width (width T) -> width T < 32 -> fits T i -> i < 0 ->
  popcount T i = Ok (ones (Z.to_nat (width T)) i + (32 - width T)).
Proof. exact (popcount_narrow_negative T i). Qed.
Print Assumptions C85_refuted.
Example C85_nontrivial : popcount u64 0xF0F0 = Ok 8 /\ ones 64 0xF0F0 = 8 /\ popcount i32 (-1) = Ok 32 /\
  popcount i8 (-1) = Ok 32 /\ ones 8 (-1) = 8.
Proof. vm_compute. repeat split. Qed.

(** * C86: count_digits, with either implementation of count_leading_zeroes. *)
Theorem C86_portable v : 0 <= v < 2 ^ 64 ->
  exists d, count_digits clz64 v = Ok d /\ decimal_digits v d.
Proof. exact (count_digits_portable v). Qed.
Print Assumptions C86_portable.
Theorem C86_builtin v : 0 <= v < 2 ^ 64 ->
  exists d, count_digits (fun x => Ok (clz_builtin 64 x)) v = Ok d /\ decimal_digits v d.
Proof. exact (count_digits_builtin v). Qed.
Print Assumptions C86_builtin.
Example C86_nontrivial : count_digits clz64 999999 = Ok 6 /\ count_digits clz64 1000000 = Ok 7 /\
  count_digits clz64 (2 ^ 64 - 1) = Ok 20.
Proof. vm_compute. auto. Qed.

(** * C87: cxmath::cmp_equal, cmp_less and the rest compare the values. *)
Theorem C87_compare T U t u : 0 < width T -> 0 < width U -> fits T t -> fits U u ->
  cx_cmp_equal T U t u = (t =? u) /\
  cx_cmp_not_equal T U t u = negb (t =? u) /\
  cx_cmp_less T U t u = (t <? u) /\
  cx_cmp_greater T U t u = (u <? t) /\
  cx_cmp_less_equal T U t u = (t <=? u) /\
  cx_cmp_greater_equal T U t u = (u <=? t).
Proof. exact (cx_cmp_ok T U t u). Qed.
Print Assumptions C87_compare.
Example C87_nontrivial : cx_cmp_less i32 u32 (-1) 1 = true /\ builtin_less i32 u32 (-1) 1 = false.
Proof. vm_compute. auto. Qed.

(** * C88: powers by squaring and by repeated multiplication. *)
Theorem C88_pow_n T x n : std_width (width T) -> fits T x -> 0 <= n < 2 ^ 64 -> fits T (x ^ n) ->
  pow_n T x n = Ok (x ^ n).
Proof. exact (pow_n_exact T x n). Qed.
Print Assumptions C88_pow_n.
Theorem C88_pow_n_wraps T x n : signed T = false -> 32 <= width T -> fits T x -> 0 <= n < 2 ^ 64 ->
  pow_n T x n = Ok (wrap (width T) (x ^ n)).
Proof. exact (pow_n_unsigned T x n). Qed.
Print Assumptions C88_pow_n_wraps.
Theorem C88_pow T b n fuel : std_width (width T) -> fits T b -> fits T (b ^ n) ->
  0 <= n < 2 ^ 31 -> n < Z.of_nat fuel -> cx_pow T fuel b n = Ok (b ^ n).
Proof. exact (cx_pow_nonneg T b n fuel). Qed.
Print Assumptions C88_pow.
(** Negative exponents: the reciprocal, rounded towards zero; undefined for the
    unsigned types of at least 32 bits, where the exponent is taken for a large
    positive number. *)
Theorem C88_pow_negative_partial T b e fuel : std_width (width T) -> signed T = true \/ width T < 32 ->
  fits T b -> b <> 0 -> - 2 ^ 31 <= e < 0 -> - e < Z.of_nat fuel ->
  cx_pow T fuel b e = Ok (Z.quot 1 (b ^ (- e))).
Proof. exact (cx_pow_negative T b e fuel). Qed.
Print Assumptions C88_pow_negative_partial.
Theorem C88_pow_negative_refuted T b e fuel : signed T = false -> std_width (width T) -> 32 <= width T ->
  - 2 ^ 31 <= e < 0 -> e + 2 ^ 31 < Z.of_nat fuel -> cx_pow T fuel b e = UB.
Proof. exact (cx_pow_unsigned_negative T b e fuel). Qed.
Print Assumptions C88_pow_negative_refuted.
Example C88_nontrivial : pow_n i32 (-2) 31 = Ok (- 2 ^ 31) /\ pow_n u16 255 2 = Ok 65025 /\
  cx_pow i64 20 3 13 = Ok 1594323 /\ cx_pow i32 20 (-1) (-3) = Ok (-1) /\ cx_pow i32 20 5 (-3) = Ok 0.
Proof. vm_compute. auto 10. Qed.

(** * C89: is_odd is right, is_even gives the opposite of the truth. *)
Theorem C89_is_odd T i : 0 < width T -> is_odd T i = Z.odd i.
Proof. exact (is_odd_ok T i). Qed.
Print Assumptions C89_is_odd.
Theorem C89_is_even_refuted T i : 0 < width T -> is_even T i = negb (Z.even i).
Proof. exact (is_even_actual T i). Qed.
Print Assumptions C89_is_even_refuted.
Example C89_nontrivial : is_odd i8 (-3) = true /\ is_even i8 (-3) = true /\ is_even u64 4 = false.
Proof. vm_compute. auto. Qed.

(** * C90: fp_classify of every bit pattern. *)
Theorem C90_float f : 0 <= f < 2 ^ 32 ->
  match fp_classify32 f with
  | FpNormal => ieee_normal 32 23 f
  | FpZero => ieee_zero 32 23 f
  | FpSubnormal => ieee_subnormal 32 23 f
  | FpNan => ieee_nan 32 23 f
  | FpInfinity => ieee_infinity 32 23 f
  end.
Proof. exact (fp_classify32_ok f). Qed.
Print Assumptions C90_float.
Theorem C90_double d : 0 <= d < 2 ^ 64 ->
  match fp_classify64 d with
  | FpNormal => ieee_normal 64 52 d
  | FpZero => ieee_zero 64 52 d
  | FpSubnormal => ieee_subnormal 64 52 d
  | FpNan => ieee_nan 64 52 d
  | FpInfinity => ieee_infinity 64 52 d
  end.
Proof. exact (fp_classify64_ok d). Qed.
Print Assumptions C90_double.
Example C90_nontrivial : fp_classify64 0x7FF0000000000001 = FpNan /\ fp_classify64 0xFFF0000000000000 = FpInfinity /\
  fp_classify64 1 = FpSubnormal /\ fp_classify32 0x80000000 = FpZero /\ fp_classify32 0x3F800000 = FpNormal.
Proof. vm_compute. auto 10. Qed.

(** * C91: reading and replacing the exponent of a float or double. *)
Theorem C91_get F d : F = f32 \/ F = f64 -> 0 <= d < 2 ^ fp_bits F ->
  get_exponent F d = ieee_exponent (fp_bits F) (fp_sig F) d - ieee_bias (fp_bits F) (fp_sig F).
Proof. exact (get_exponent_ok F d). Qed.
Print Assumptions C91_get.
(** What is missing: the exponent zero, see below. *)
Theorem C91_set_partial F d exp : F = f32 \/ F = f64 -> 0 <= d < 2 ^ fp_bits F -> exp <> 0 ->
  1 - ieee_bias (fp_bits F) (fp_sig F) <= exp <= ieee_bias (fp_bits F) (fp_sig F) ->
  exists r, set_exponent F d exp = Ok r /\ 0 <= r < 2 ^ fp_bits F /\
    ieee_sign (fp_bits F) r = ieee_sign (fp_bits F) d /\
    ieee_significand (fp_sig F) r = ieee_significand (fp_sig F) d /\
    ieee_exponent (fp_bits F) (fp_sig F) r = exp + ieee_bias (fp_bits F) (fp_sig F).
Proof. exact (set_exponent_ok F d exp). Qed.
Print Assumptions C91_set_partial.
(** set_exponent( r, 0 ) is 1.0 for every r. *)
Theorem C91_set_refuted : (forall d, set_exponent f64 d 0 = Ok 0x3FF0000000000000) /\
  ieee_sign 64 0xC008000000000000 = 1 /\ ieee_sign 64 0x3FF0000000000000 = 0 /\
  ieee_significand 52 0xC008000000000000 <> 0 /\ ieee_significand 52 0x3FF0000000000000 = 0.
Proof. repeat split; vm_compute; congruence. Qed.
Print Assumptions C91_set_refuted.
Theorem C91_pow2_partial F exp : F = f32 \/ F = f64 ->
  2 - ieee_bias (fp_bits F) (fp_sig F) < exp <= ieee_bias (fp_bits F) (fp_sig F) ->
  exists r, fp_pow2 F exp = Ok r /\ ieee_sign (fp_bits F) r = 0 /\
    ieee_significand (fp_sig F) r = 0 /\ ieee_normal (fp_bits F) (fp_sig F) r /\
    ieee_exponent (fp_bits F) (fp_sig F) r = exp + ieee_bias (fp_bits F) (fp_sig F).
Proof. exact (fp_pow2_ok F exp). Qed.
Print Assumptions C91_pow2_partial.
Theorem C91_pow2_large F exp : F = f32 \/ F = f64 -> ieee_bias (fp_bits F) (fp_sig F) < exp ->
  exists r, fp_pow2 F exp = Ok r /\ ieee_infinity (fp_bits F) (fp_sig F) r.
Proof. exact (fun R H => ex_intro _ (fp_infinity F) (fp_pow2_large F exp R H)). Qed.
Print Assumptions C91_pow2_large.
(** The two smallest normal powers of two (exponents 1-bias and 2-bias), and the
    representable subnormal ones, come out as zero. *)
Theorem C91_pow2_refuted F exp : F = f32 \/ F = f64 -> exp <= 2 - ieee_bias (fp_bits F) (fp_sig F) ->
  fp_pow2 F exp = Ok 0.
Proof. exact (fp_pow2_small F exp). Qed.
Print Assumptions C91_pow2_refuted.
Example C91_nontrivial : get_exponent f64 0xC008000000000000 = 1 /\
  set_exponent f64 0xC008000000000000 4 = Ok 0xC038000000000000 /\ fp_pow2 f32 5 = Ok 0x42000000.
Proof. vm_compute. auto. Qed.

(** * C92: pow10.  10^19 fits uintmax_t but is outside the table. *)
Theorem C92_pow10_partial e : 0 <= e <= 18 -> pow10 e = Ok (10 ^ e).
Proof. exact (pow10_ok e). Qed.
Print Assumptions C92_pow10_partial.
Theorem C92_refuted : pow10 19 = UB /\ 10 ^ 19 <= highest u64.
Proof. exact pow10_19. Qed.
Print Assumptions C92_refuted.
Example C92_nontrivial : pow10 18 = Ok 1000000000000000000.
Proof. vm_compute. reflexivity. Qed.
