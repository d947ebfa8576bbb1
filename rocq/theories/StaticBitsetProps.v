(** Properties C44, C45, C65-C68: static_bitset.  [num m] is the number the limbs
    denote, bit [i] of the bitset being [Z.testbit (num m) i]. *)
From Verif Require Import Common CommonProofs Ints BitsModel SpecBits StaticBitset StaticBitsetProofs.
Open Scope Z_scope.

(** * C44: single bits.  set_bit(3) does not set bit 3 but changes the set,
    clear_bit(0) does not clear bit 0, get_bit(0) misreads it. *)
Theorem C44_set_bit_refuted : exists bw m i m', sb_wf bw m /\ 0 <= i < bw /\
  sb_set_bit m i = Ok m' /\ Z.testbit (num m') i = false /\ m' <> m.
Proof. exact sb_set_bad. Qed.
Print Assumptions C44_set_bit_refuted.
Theorem C44_clear_bit_refuted : exists bw m i m', sb_wf bw m /\ 0 <= i < bw /\
  sb_clear_bit m i = Ok m' /\ Z.testbit (num m') i = true.
Proof. exact sb_clear_bad. Qed.
Print Assumptions C44_clear_bit_refuted.
Theorem C44_get_bit_refuted : exists bw m i, sb_wf bw m /\ 0 <= i < bw /\
  sb_get_bit m i = Ok false /\ Z.testbit (num m) i = true.
Proof. exact sb_get_bad. Qed.
Print Assumptions C44_get_bit_refuted.

(** What the three calls do: they act on the bits set in 2*(i mod 64), within the
    limb of [i] (touched i j), instead of on bit i. *)
Theorem C44_set_bit_partial bw m i : sb_wf bw m -> 0 <= i < bw ->
  exists m', sb_set_bit m i = Ok m' /\ sb_wf bw m' /\
    forall j, 0 <= j -> Z.testbit (num m') j = Z.testbit (num m) j || touched i j.
Proof. exact (sb_set_ok bw m i). Qed.
Print Assumptions C44_set_bit_partial.
Theorem C44_clear_bit_partial bw m i : sb_wf bw m -> 0 <= i < bw ->
  exists m', sb_clear_bit m i = Ok m' /\ sb_wf bw m' /\
    forall j, 0 <= j -> Z.testbit (num m') j = Z.testbit (num m) j && negb (touched i j).
Proof. exact (sb_clear_bit_ok bw m i). Qed.
Print Assumptions C44_clear_bit_partial.
Theorem C44_get_bit_partial bw m i : sb_wf bw m -> 0 <= i < bw ->
  exists b, sb_get_bit m i = Ok b /\
    (b = true <-> exists j, 0 <= j /\ touched i j = true /\ Z.testbit (num m) j = true).
Proof. exact (sb_get_ok bw m i). Qed.
Print Assumptions C44_get_bit_partial.
(** Hence the property holds exactly where touched i is the bit i itself. *)
Theorem C44_right_indices_partial i j : 0 <= i -> i mod 64 = 1 \/ i mod 64 = 2 -> 0 <= j ->
  touched i j = (j =? i).
Proof. exact (touched_right i j). Qed.
Print Assumptions C44_right_indices_partial.

Example C44_nontrivial : sb_wf 70 [5; 33] /\ sb_set_bit [5; 33] 66 = Ok [5; 37].
Proof. repeat split; try lia. repeat constructor; lia. Qed.

(** * C45: shifts, for 1 to 32 bits, for at least the width, and for single-limb
    bitsets. *)
Theorem C45_shift_left_partial bw m n : sb_wf bw m -> 0 < n -> n <= 32 \/ bw <= n \/ bw <= 64 ->
  exists m', sb_shl bw m n = Ok m' /\ sb_wf bw m' /\
    forall i, 0 <= i < bw -> Z.testbit (num m') i = (n <=? i) && Z.testbit (num m) (i - n).
Proof. exact (sb_shl_ok bw m n). Qed.
Print Assumptions C45_shift_left_partial.
Theorem C45_shift_right_partial bw m n : sb_wf bw m -> num m < 2 ^ bw -> 0 <= n ->
  n <= 32 \/ bw <= n \/ bw <= 64 ->
  exists m', sb_shr bw m n = Ok m' /\ sb_wf bw m' /\
    forall i, 0 <= i -> Z.testbit (num m') i = Z.testbit (num m) (i + n).
Proof. exact (sb_shr_ok bw m n). Qed.
Print Assumptions C45_shift_right_partial.

(** 33 to 63 bits lose carries; 0 bits to the left, and 64 or more bits below the
    width in either direction, are undefined. *)
Theorem C45_shift_left_refuted : exists bw m n m' i, sb_wf bw m /\ 0 < n < 64 /\ 0 <= i < bw /\ n <= i /\
  sb_shl bw m n = Ok m' /\ Z.testbit (num m') i <> Z.testbit (num m) (i - n).
Proof. exact sb_shl_bad. Qed.
Print Assumptions C45_shift_left_refuted.
Theorem C45_shift_right_refuted : exists bw m n m' i, sb_wf bw m /\ 0 < n < 64 /\ 0 <= i < bw - n /\
  sb_shr bw m n = Ok m' /\ Z.testbit (num m') i <> Z.testbit (num m) (i + n).
Proof. exact sb_shr_bad. Qed.
Print Assumptions C45_shift_right_refuted.
Theorem C45_shift_left_zero_refuted bw m : sb_wf bw m -> sb_shl bw m 0 = UB.
Proof. exact (sb_shl_zero bw m). Qed.
Print Assumptions C45_shift_left_zero_refuted.
Theorem C45_shift_64_refuted bw m n : 64 <= n < bw -> sb_shl bw m n = UB /\ sb_shr bw m n = UB.
Proof. exact (sb_shift_64 bw m n). Qed.
Print Assumptions C45_shift_64_refuted.

Example C45_nontrivial : sb_wf 100 [2 ^ 63; 7] /\ num [2 ^ 63; 7] < 2 ^ 100 /\
  sb_shl 100 [2 ^ 63; 7] 4 = Ok [0; 120] /\ sb_shr 100 [2 ^ 63; 7] 4 = Ok [2 ^ 59 + 7 * 2 ^ 60; 0].
Proof. repeat split; try lia. repeat constructor; lia. Qed.

(** * C65: bitwise operators and comparison of bitsets of one width. *)
Theorem C65_bitwise bw m1 m2 : sb_wf bw m1 -> sb_wf bw m2 ->
  sb_wf bw (sb_or m1 m2) /\ sb_wf bw (sb_and m1 m2) /\ sb_wf bw (sb_xor m1 m2) /\
  forall i, 0 <= i ->
    Z.testbit (num (sb_or m1 m2)) i = Z.testbit (num m1) i || Z.testbit (num m2) i /\
    Z.testbit (num (sb_and m1 m2)) i = Z.testbit (num m1) i && Z.testbit (num m2) i /\
    Z.testbit (num (sb_xor m1 m2)) i = xorb (Z.testbit (num m1) i) (Z.testbit (num m2) i).
Proof. exact (sb_bitwise_ok bw m1 m2). Qed.
Print Assumptions C65_bitwise.
Theorem C65_equality bw m1 m2 : sb_wf bw m1 -> sb_wf bw m2 ->
  (sb_eq m1 m2 = true <-> num m1 = num m2) /\ sb_ne m1 m2 = negb (sb_eq m1 m2).
Proof. exact (sb_eq_ok bw m1 m2). Qed.
Print Assumptions C65_equality.
Theorem C65_complement_partial bw m i : sb_wf bw m -> 0 <= i < bw ->
  Z.testbit (num (sb_not m)) i = negb (Z.testbit (num m) i).
Proof. exact (sb_not_bits bw m i). Qed.
Print Assumptions C65_complement_partial.
(** ~ also sets bits beyond the width, which == then sees. *)
Theorem C65_complement_refuted : exists bw m1 m2, sb_wf bw m1 /\ sb_wf bw m2 /\
  (forall i, 0 <= i < bw -> Z.testbit (num m2) i = negb (Z.testbit (num m1) i)) /\
  num m2 < 2 ^ bw /\ sb_eq (sb_not m1) m2 = false.
Proof. exact sb_not_bad. Qed.
Print Assumptions C65_complement_refuted.

(** * C66: construction from integers (lowest limb first). *)
Theorem C66_construct_partial bw values : 0 < bw < 64 \/ (64 < bw /\ bw mod 64 = 0) ->
  Z.of_nat (length values) <= (bw + 63) / 64 -> Forall (fun x => 0 <= x < 2 ^ 64) values ->
  exists m, sb_of bw values = Ok m /\ sb_wf bw m /\ num m = num values mod 2 ^ bw.
Proof. exact (sb_of_ok_short bw values). Qed.
Print Assumptions C66_construct_partial.
(** A static_bitset<64> constructed from any integer is zero. *)
Theorem C66_construct_64_refuted x : 0 <= x < 2 ^ 64 -> sb_of 64 [x] = Ok [0].
Proof. exact (sb_of_64_zero x). Qed.
Print Assumptions C66_construct_64_refuted.
Theorem C66_construct_refuted : exists bw values m, 64 < bw /\ Forall (fun x => 0 <= x < 2 ^ 64) values /\
  Z.of_nat (length values) = (bw + 63) / 64 /\ num values < 2 ^ bw /\
  sb_of bw values = Ok m /\ num m <> num values.
Proof. exact sb_of_bad. Qed.
Print Assumptions C66_construct_refuted.

Example C66_nontrivial : sb_of 16 [0xDEADBEEF] = Ok [0xBEEF] /\ sb_of 128 [3] = Ok [3; 0].
Proof. split; reflexivity. Qed.

(** * C67: construction from a string of binary digits. *)
Theorem C67_from_string bw str : 0 < bw -> Z.of_nat (length str) <= bw -> binary_string str ->
  exists m, sb_of_string bw str = Ok m /\ sb_wf bw m /\ num m = val (string_bits str).
Proof. exact (sb_of_string_ok bw str). Qed.
Print Assumptions C67_from_string.
Theorem C67_from_bad_string bw str : 0 < bw ->
  Z.of_nat (length str) > bw \/ ~ binary_string str -> sb_of_string bw str = Throw.
Proof. exact (sb_of_string_throws bw str). Qed.
Print Assumptions C67_from_bad_string.

Example C67_nontrivial : binary_string [49; 48; 49; 49] /\ sb_of_string 70 [49; 48; 49; 49] = Ok [11; 0].
Proof.
  split; [|reflexivity]. intros c [<- |[<- |[<- |[<- |[]]]]]; auto.
Qed.

(** * C68: hexadecimal output: 16 digits per limb, digit k counted from the right
    being the k-th base 16 digit of the content. *)
Theorem C68_to_hex bw m : sb_wf bw m -> bw < 2 ^ 60 ->
  exists str, sb_to_hex m = Ok str /\ length str = (16 * length m)%nat /\
    forall k, (k < length str)%nat ->
      nth (length str - 1 - k) str 0 = nth (Z.to_nat ((num m / 16 ^ Z.of_nat k) mod 16)) hex_digits 0.
Proof. exact (sb_to_hex_digits bw m). Qed.
Print Assumptions C68_to_hex.

Example C68_nontrivial : sb_to_hex [0x1A2B] =
  Ok [48; 48; 48; 48; 48; 48; 48; 48; 48; 48; 48; 48; 49; 65; 50; 66].
Proof. reflexivity. Qed.
