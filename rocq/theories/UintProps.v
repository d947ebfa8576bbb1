(** Theorems about daw_uint_types.h (C196-C199). *)
From Verif Require Import Common Ints UintTypes SpecUint UintProofs.
Open Scope Z_scope.

(** * C196: the operators compute in the right width *)
(** Every binary operator but uint8_t / UInt64 gives the value of the operation on the
    mathematical values of its operands, reduced to the bits of the result type. *)
Theorem C196_values : forall r x y, In r overloads -> line r <> 2597 ->
  value_of (lhs_ty r) x -> value_of (rhs_ty r) y -> meaningful (oper r) (bits_of (lhs_ty r)) y ->
  call r x y = Ok (result (oper r) (bits_of (ret r)) x y).
Proof. exact values. Qed.
(** Otherwise the behaviour is undefined. *)
Theorem C196_div_zero : forall r x, In r overloads -> oper r = OpDiv -> call r x 0 = UB.
Proof. exact div_zero. Qed.
Theorem C196_far_shift : forall r x y, In r overloads -> is_shift (oper r) = true -> value_of (rhs_ty r) y ->
  Z.max 32 (bits_of (lhs_ty r)) <= y -> call r x y = UB.
Proof. exact shift_far. Qed.
(** uint8_t / UInt64 reduces the divisor to 32 bits. *)
Theorem C196_uint8_div_refuted : forall x y, value_of U8 x -> value_of E64 y ->
  forall r, In r overloads -> line r = 2597 ->
  oper r = OpDiv /\ assigns r = false /\ lhs_ty r = U8 /\ rhs_ty r = E64 /\
  call r x y = (if y mod 2 ^ 32 =? 0 then UB else Ok (x / (y mod 2 ^ 32))).
Proof. exact row_2597. Qed.
(** Result types: bool for comparisons, the left type for compound assignment, the left
    width for shifts, the wider width for the rest, but for four overloads. *)
Theorem C196_types : forall r, In r overloads ->
  (is_comparison (oper r) = true -> assigns r = false /\ ret r = B) /\
  (assigns r = true -> ret r = lhs_ty r) /\
  (is_comparison (oper r) = false -> assigns r = false ->
    (is_shift (oper r) = true -> bits_of (ret r) = bits_of (lhs_ty r)) /\
    (is_shift (oper r) = false -> enum_of (ret r) = true /\
       (~ In (line r) [2559; 2564; 2592; 2597] -> bits_of (ret r) = Z.max (bits_of (lhs_ty r)) (bits_of (rhs_ty r))))).
Proof. exact types. Qed.
(** Arithmetic is provided between any two of the four types, and bitwise operators but for
    UInt8 with UInt16; compound assignment when the right type is not wider. *)
Theorem C196_provided : forall o a b, enum_of a = true -> enum_of b = true ->
  (arithmetic o = true -> provided o false a b) /\
  (bitwise o = true -> ~ (a = E8 /\ b = E16) -> provided o false a b) /\
  (is_comparison o = false -> bits_of b <= bits_of a -> provided o true a b).
Proof. exact provided_spec. Qed.
(** Unary operators. *)
Theorem C196_not : forall w v, uint_bits w -> 0 <= v < 2 ^ w -> u_not w v = (v =? 0) /\ u_plus w v = v.
Proof. exact (fun w v W V => conj (unary_not w v W V) eq_refl). Qed.
Theorem C196_inc_dec : forall w v, uint_bits w -> 0 <= v < 2 ^ w ->
  u_inc w v = Ok ((v + 1) mod 2 ^ w) /\ u_dec w v = Ok ((v - 1) mod 2 ^ w) /\
  u_inc_post w v = Ok (v, (v + 1) mod 2 ^ w) /\ u_dec_post w v = Ok (v, (v - 1) mod 2 ^ w).
Proof. exact unary_inc. Qed.
Theorem C196_complement : forall w v, uint_bits w -> 0 <= v < 2 ^ w -> u_com w v = 2 ^ w - 1 - v.
Proof. exact unary_com. Qed.
(** Negation overflows for UInt64 2^63 and UInt32 2^31. *)
Theorem C196_negate_refuted : forall w v, uint_bits w -> 0 <= v < 2 ^ w ->
  u_neg w v = (if (32 <=? w) && (v =? 2 ^ (w - 1)) then UB else Ok ((- v) mod 2 ^ w)).
Proof. exact unary_neg. Qed.
(** The values of each type. *)
Theorem C196_ranges :
  (forall x, value_of B x <-> x = 0 \/ x = 1) /\
  (forall x, value_of U8 x <-> 0 <= x <= 255) /\ (forall x, value_of E8 x <-> 0 <= x <= 255) /\
  (forall x, value_of U16 x <-> 0 <= x <= 65535) /\ (forall x, value_of E16 x <-> 0 <= x <= 65535) /\
  (forall x, value_of U32 x <-> 0 <= x <= 4294967295) /\ (forall x, value_of E32 x <-> 0 <= x <= 4294967295) /\
  (forall x, value_of U64 x <-> 0 <= x <= 18446744073709551615) /\
  (forall x, value_of E64 x <-> 0 <= x <= 18446744073709551615).
Proof. exact c196_ranges_l. Qed.
Print Assumptions C196_ranges.
Print Assumptions C196_values.
Print Assumptions C196_div_zero.
Print Assumptions C196_far_shift.
Print Assumptions C196_uint8_div_refuted.
Print Assumptions C196_types.
Print Assumptions C196_provided.
Print Assumptions C196_not.
Print Assumptions C196_inc_dec.
Print Assumptions C196_complement.
Print Assumptions C196_negate_refuted.
(** Examples: UInt16 * UInt16 does not overflow an int; the four narrow results. *)
Example C196_nontrivial : length overloads = 453%nat /\
  existsb (fun r => match oper r, lhs_ty r, rhs_ty r with OpMul, E16, E16 => negb (assigns r) | _, _, _ => false end) overloads = true /\
  (forall r, In r overloads -> lhs_ty r = E16 -> rhs_ty r = E16 -> oper r = OpMul -> call r 65535 65535 = Ok 1) /\
  (exists r, In r overloads /\ line r = 2597 /\ call r 200 (2 ^ 32) = UB /\ call r 200 (2 ^ 32 + 3) = Ok 66) /\
  (exists r, In r overloads /\ line r = 2559 /\ lhs_ty r = E8 /\ rhs_ty r = U64 /\ call r 16 17 = Ok 16).
Proof.
  split; [vm_compute; reflexivity|]. split; [vm_compute; reflexivity|]. split.
  { assert (forallb (fun r => match oper r, lhs_ty r, rhs_ty r with OpMul, E16, E16 => match call r 65535 65535 with Ok v => v =? 1 | _ => false end | _, _, _ => true end) overloads = true) as G by (vm_compute; reflexivity).
    rewrite forallb_forall in G. intros r I A C D. specialize (G r I). rewrite A, C, D in G.
    destruct (call r 65535 65535); try discriminate G. apply Z.eqb_eq in G. subst. reflexivity. }
  split; [exists (Row 2597 OpDiv false U8 E64 U32 U32 U8 E8)|exists (Row 2559 OpMul false E8 U64 U32 U64 E8 E8)].
  - split; [unfold overloads; repeat (try (left; reflexivity); right)|vm_compute; repeat split].
  - split; [unfold overloads; repeat (try (left; reflexivity); right)|vm_compute; repeat split].
Qed.

(** * C197: rotations *)
Theorem C197_rotate_left : forall w v bits, uint_bits w -> 0 <= v < 2 ^ w -> turnable w bits ->
  exists r, rotate_left w v bits = Ok r /\ 0 <= r < 2 ^ w /\
    forall i, 0 <= i < w -> Z.testbit r i = Z.testbit v ((i - bits) mod w).
Proof. exact rotl. Qed.
Theorem C197_rotate_right : forall w v bits, uint_bits w -> 0 <= v < 2 ^ w -> turnable w bits ->
  exists r, rotate_right w v bits = Ok r /\ 0 <= r < 2 ^ w /\
    forall i, 0 <= i < w -> Z.testbit r i = Z.testbit v ((i + bits) mod w).
Proof. exact rotr. Qed.
(** Any other distance is undefined: rotating a UInt64 or UInt32 by 0, which the library's
    static_assert allows, and any type by more than its width. *)
Theorem C197_rotate_refuted : forall w v bits, uint_bits w -> 0 <= bits < 2 ^ 32 -> ~ turnable w bits ->
  rotate_left w v bits = UB /\ rotate_right w v bits = UB.
Proof. exact rot_ub. Qed.
Print Assumptions C197_rotate_left.
Print Assumptions C197_rotate_right.
Print Assumptions C197_rotate_refuted.
Example C197_nontrivial : rotate_left 32 (2 ^ 31 + 5) 4 = Ok 88 /\ rotate_right 16 1 1 = Ok 32768 /\ rotate_left 8 200 8 = Ok 200 /\
  rotate_left 64 7 0 = UB /\ turnable 64 63 /\ turnable 16 0 /\ ~ turnable 64 0 /\ ~ turnable 16 17.
Proof. unfold turnable. vm_compute. repeat split; try (left; split; congruence); try (right; repeat split; congruence); intros [[A C]|[A [C D]]]; congruence. Qed.

(** * C198: single bits and masks *)
(** set_bit<N> of a UInt32, UInt16 or UInt8 changes just that bit; of a UInt64 it also
    clears the upper half. *)
Theorem C198_set_bit : forall w n v s, uint_bits w -> 0 <= n < 32 -> 0 <= v < 2 ^ w ->
  exists r, set_bit w n v s = Ok r /\ 0 <= r < 2 ^ w /\
    forall i, 0 <= i < w -> Z.testbit r i = if i =? n then s else (i <? 32) && Z.testbit v i.
Proof. exact setb. Qed.
Theorem C198_set_bit_high_refuted : forall w n v s, 32 <= n -> set_bit w n v s = UB.
Proof. exact setb_ub. Qed.
Theorem C198_get_bit : forall w n v, uint_bits w -> 0 <= v < 2 ^ w -> 0 <= n ->
  get_bit w n v = (if n <? Z.max 32 w then Ok (of_bool (Z.testbit v n)) else UB).
Proof. exact getb. Qed.
Theorem C198_mask : forall w n, uint_bits w -> 0 <= n <= w -> mask_from_lsb w n = Ok (2 ^ n - 1).
Proof. exact mask. Qed.
Print Assumptions C198_set_bit.
Print Assumptions C198_set_bit_high_refuted.
Print Assumptions C198_get_bit.
Print Assumptions C198_mask.
(** Setting bit 0 of UInt64 2^40 + 2 gives 3. *)
Example C198_set_bit_refuted : set_bit 64 0 (2 ^ 40 + 2) true = Ok 3 /\ set_bit 64 40 0 true = UB /\ get_bit 64 64 1 = UB.
Proof. vm_compute. repeat split. Qed.
Example C198_nontrivial : set_bit 16 4 65535 false = Ok 65519 /\ set_bit 8 3 1 true = Ok 9 /\ set_bit 8 8 1 true = Ok 1 /\
  get_bit 64 40 (2 ^ 40) = Ok 1 /\ mask_from_lsb 64 64 = Ok (2 ^ 64 - 1) /\ mask_from_lsb 16 5 = Ok 31.
Proof. vm_compute. repeat split. Qed.

(** * C199: buffers, literals and limits *)
(** The first w / 8 characters, the least significant first. *)
Theorem C199_buffer : forall w ptr, (w = 64 \/ w = 32 \/ w = 16) -> (Z.to_nat (w / 8) <= length ptr)%nat ->
  to_uint_buffer w ptr = Ok (bytes_value (map byte (firstn (Z.to_nat (w / 8)) ptr))).
Proof. exact buffer. Qed.
Theorem C199_buffer_short : forall w ptr, (w = 64 \/ w = 32 \/ w = 16) -> (length ptr < Z.to_nat (w / 8))%nat ->
  to_uint_buffer w ptr = UB.
Proof. exact buffer_short. Qed.
(** The literals reject, in builds with assert, what does not fit, and also 65535_u16 and
    255_u8. *)
Theorem C199_literals_refuted : forall w dbg value, uint_bits w -> 0 <= value < 2 ^ 64 ->
  literal dbg w value =
    (if dbg && ((w =? 32) && (2 ^ 32 <=? value) || ((w =? 16) || (w =? 8)) && (2 ^ w - 1 <=? value)) then Throw else Ok (value mod 2 ^ w)).
Proof. exact literals. Qed.
(** min and max are the bounds; digits10 is the number of decimal digits that always fit. *)
Theorem C199_limits : forall w, uint_bits w ->
  nl_min w = 0 /\ nl_max w = 2 ^ w - 1 /\ nl_digits w = w /\
  10 ^ nl_digits10 w - 1 <= nl_max w < 10 ^ (nl_digits10 w + 1) - 1.
Proof. exact limits. Qed.
Theorem C199_to_uint : forall w num, to_uint w num = num mod 2 ^ w.
Proof. exact uw_conv. Qed.
Print Assumptions C199_buffer.
Print Assumptions C199_buffer_short.
Print Assumptions C199_literals_refuted.
Print Assumptions C199_limits.
Print Assumptions C199_to_uint.
Example C199_nontrivial : to_uint_buffer 32 [-1; 2; 3; -128; 7] = Ok 2147681023 /\ to_uint_buffer 64 [1; 2; 3] = UB /\
  literal true 16 65535 = Throw /\ literal false 16 65535 = Ok 65535 /\ literal true 16 65534 = Ok 65534 /\ to_uint 8 (-1) = 255.
Proof. vm_compute. repeat split. Qed.
