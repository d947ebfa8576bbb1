(** C36-C40 and C43: integer comparisons, bit reversal, byte order, bit masks and
    daw::bitset. *)
From Verif Require Import Common Ints BitsModel SpecBits BitsProofs.
Open Scope Z_scope.

(** * C36: mixed-sign comparisons are mathematical. *)
Theorem C36_comparisons T U t u :
  0 < width T -> 0 < width U -> fits T t -> fits U u ->
  cmp_equal T U t u = (t =? u) /\
  cmp_not_equal T U t u = negb (t =? u) /\
  cmp_less T U t u = (t <? u) /\
  cmp_greater T U t u = (u <? t) /\
  cmp_less_equal T U t u = (t <=? u) /\
  cmp_greater_equal T U t u = (u <=? t).
Proof.
  exact (fun HT HU Ft Fu =>
    conj (cmp_equal_ok T U t u HT HU Ft Fu)
    (conj (cmp_not_equal_ok T U t u HT HU Ft Fu)
    (conj (cmp_less_ok T U t u HT HU Ft Fu)
    (conj (cmp_less_ok U T u t HU HT Fu Ft)
    (conj (eq_trans (f_equal negb (cmp_less_ok U T u t HU HT Fu Ft)) (eq_sym (Z.leb_antisym u t)))
          (eq_trans (f_equal negb (cmp_less_ok T U t u HT HU Ft Fu)) (eq_sym (Z.leb_antisym t u)))))))).
Qed.
Print Assumptions C36_comparisons.

Theorem C36_in_range R T t :
  0 < width R -> 0 < width T -> fits T t ->
  (in_range R T t = true <-> fits R t).
Proof. exact (in_range_ok R T t). Qed.
Print Assumptions C36_in_range.

(** The built-in comparison gets exactly these mixed cases wrong. *)
Example C36_nontrivial :
  cmp_less i32 u32 (-1) 1 = true /\ op_lt i32 u32 (-1) 1 = false /\
  cmp_equal i64 u64 (-1) (2 ^ 64 - 1) = false /\ op_eq i64 u64 (-1) (2 ^ 64 - 1) = true /\
  in_range u8 i32 300 = false /\ in_range i8 u64 127 = true /\
  fits i32 (-1) /\ fits u64 (2 ^ 64 - 1).
Proof. repeat split; vm_compute; congruence. Qed.

(** * C37: reverse_bits mirrors the word and undoes itself. *)
Theorem C37_reverse_bits8 v : 0 <= v < 2 ^ 8 ->
  mirrored 8 v (reverse_bits8 v) /\ reverse_bits8 (reverse_bits8 v) = v.
Proof.
  exact (fun H => conj (reverse_bits8_ok v H)
    (mirrored_twice 8 v _ _ eq_refl H (reverse_bits8_ok v H)
       (reverse_bits8_ok _ (proj1 (reverse_bits8_ok v H))))).
Qed.
Print Assumptions C37_reverse_bits8.
Theorem C37_reverse_bits16 v : 0 <= v < 2 ^ 16 ->
  mirrored 16 v (reverse_bits16 v) /\ reverse_bits16 (reverse_bits16 v) = v.
Proof.
  exact (fun H => conj (reverse_bits16_ok v H)
    (mirrored_twice 16 v _ _ eq_refl H (reverse_bits16_ok v H)
       (reverse_bits16_ok _ (proj1 (reverse_bits16_ok v H))))).
Qed.
Print Assumptions C37_reverse_bits16.
Theorem C37_reverse_bits32 v : 0 <= v < 2 ^ 32 ->
  mirrored 32 v (reverse_bits32 v) /\ reverse_bits32 (reverse_bits32 v) = v.
Proof.
  exact (fun H => conj (reverse_bits32_ok v H)
    (mirrored_twice 32 v _ _ eq_refl H (reverse_bits32_ok v H)
       (reverse_bits32_ok _ (proj1 (reverse_bits32_ok v H))))).
Qed.
Print Assumptions C37_reverse_bits32.
Theorem C37_reverse_bits64 v : 0 <= v < 2 ^ 64 ->
  mirrored 64 v (reverse_bits64 v) /\ reverse_bits64 (reverse_bits64 v) = v.
Proof.
  exact (fun H => conj (reverse_bits64_ok v H)
    (mirrored_twice 64 v _ _ eq_refl H (reverse_bits64_ok v H)
       (reverse_bits64_ok _ (proj1 (reverse_bits64_ok v H))))).
Qed.
Print Assumptions C37_reverse_bits64.

Example C37_nontrivial :
  reverse_bits8 0x16 = 0x68 /\ reverse_bits16 0x1 = 0x8000 /\
  reverse_bits32 0x12345678 = 0x1E6A2C48 /\
  reverse_bits64 0x0123456789ABCDEF = 0xF7B3D591E6A2C480.
Proof. vm_compute. repeat split. Qed.

(** * C38: swap_bytes reverses the bytes and undoes itself. *)
Theorem C38_swap_bytes T v : std_width (width T) -> fits T v ->
  fits T (swap_bytes T v) /\ bytes_reversed (width T) v (swap_bytes T v) /\
  swap_bytes T (swap_bytes T v) = v.
Proof.
  exact (fun W F => conj (proj1 (swap_bytes_ok T v W F))
          (conj (proj2 (swap_bytes_ok T v W F)) (swap_bytes_twice T v W F))).
Qed.
Print Assumptions C38_swap_bytes.

Example C38_nontrivial :
  swap_bytes u32 0x12345678 = 0x78563412 /\ swap_bytes u16 0xABCD = 0xCDAB /\
  swap_bytes u64 0x0102030405060708 = 0x0807060504030201 /\
  swap_bytes i16 0x0080 = -0x8000 /\ std_width (width i16) /\ fits i16 0x0080.
Proof. unfold std_width. repeat split; vm_compute; try congruence; auto. Qed.

(** * C39: endian conversions.  "To big (little) endian and back to native" is
    refuted for the two functions that convert back: with a different native
    order they return their argument unchanged instead of swapping it. *)
Theorem C39_network_to_host_refuted :
  exists T v, std_width (width T) /\ fits T v /\
    network_to_host_endian little T (to_big_endian little T v) <> v.
Proof. exact network_to_host_bad. Qed.
Print Assumptions C39_network_to_host_refuted.

Theorem C39_to_native_refuted :
  (exists T v, std_width (width T) /\ fits T v /\
    to_native_endian little big T (to_big_endian little T v) <> v) /\
  (exists T v, std_width (width T) /\ fits T v /\
    to_native_endian big little T (to_little_endian big T v) <> v).
Proof. exact to_native_bad. Qed.
Print Assumptions C39_to_native_refuted.

(** What holds on every platform: the "to" conversions are exact (identity on the
    matching platform, byte reversal on the other) and each is its own inverse. *)
Theorem C39_to_conversions_partial native T v : std_width (width T) -> fits T v ->
  to_big_endian native T (to_big_endian native T v) = v /\
  to_little_endian native T (to_little_endian native T v) = v /\
  to_little_endian little T v = v /\ to_big_endian big T v = v /\
  bytes_reversed (width T) v (to_big_endian little T v) /\
  bytes_reversed (width T) v (to_little_endian big T v).
Proof. exact (to_conversions native T v). Qed.
Print Assumptions C39_to_conversions_partial.

(** The round trip works when source and native order agree, and otherwise leaves
    the bytes reversed. *)
Theorem C39_round_trip_partial native source T v : std_width (width T) -> fits T v ->
  (source = native ->
     to_native_endian native source T
       (match source with little => to_little_endian native T v | big => to_big_endian native T v end) = v) /\
  (source <> native ->
     bytes_reversed (width T) v (to_native_endian native source T
       (match source with little => to_little_endian native T v | big => to_big_endian native T v end))) /\
  (native = big -> network_to_host_endian native T (to_big_endian native T v) = v).
Proof. exact (round_trip native source T v). Qed.
Print Assumptions C39_round_trip_partial.

Example C39_nontrivial : to_big_endian little u16 0x0102 = 0x0201.
Proof. reflexivity. Qed.

(** * C40: masks and bit operations. *)
Theorem C40_masks w n : 0 < w -> 0 <= n ->
  (0 <= mask_msb w n < 2 ^ w /\ forall i, 0 <= i < w -> (Z.testbit (mask_msb w n) i = true <-> i < w - n)) /\
  (0 <= mask_lsb w n < 2 ^ w /\ forall i, 0 <= i < w -> (Z.testbit (mask_lsb w n) i = true <-> n <= i)).
Proof. exact (masks_ok w n). Qed.
Theorem C40_unchecked_masks :
  forall w n, 0 < w -> 0 <= n ->
  (n < Z.max w 32 -> get_left_mask w n = Ok (mask_msb w n) /\ get_right_mask w n = Ok (mask_lsb w n)) /\
  (Z.max w 32 <= n -> get_left_mask w n = UB /\ get_right_mask w n = UB).
Proof. exact c40_unchecked_masks_l. Qed.
Print Assumptions C40_unchecked_masks.
Print Assumptions C40_masks.

Theorem C40_bit_operations w v b bs : std_width w -> 0 <= v < 2 ^ w ->
  (forall x, In x (b :: bs) -> 0 <= x < w) ->
  exists s u g,
    set_bits w v b bs = Ok s /\ unset_bits w v b bs = Ok u /\ get_bits w v b bs = Ok g /\
    0 <= s < 2 ^ w /\ 0 <= u < 2 ^ w /\ 0 <= g < 2 ^ w /\
    forall i, 0 <= i < w ->
      (In i (b :: bs) ->
         Z.testbit s i = true /\ Z.testbit u i = false /\ Z.testbit g i = Z.testbit v i) /\
      (~ In i (b :: bs) ->
         Z.testbit s i = Z.testbit v i /\ Z.testbit u i = Z.testbit v i /\ Z.testbit g i = false).
Proof. exact (bits_ops_in w v b bs). Qed.
Print Assumptions C40_bit_operations.

(** are_set answers "any of the mask bits is set" (not all of them). *)
Theorem C40_are_set value mask masks : 0 <= value ->
  (are_set value mask masks = true <->
   exists i m, 0 <= i /\ In m (mask :: masks) /\ Z.testbit m i = true /\ Z.testbit value i = true).
Proof. exact (are_set_ok value mask masks). Qed.
Print Assumptions C40_are_set.

Example C40_nontrivial :
  set_bits 8 0x10 0 [7] = Ok 0x91 /\ unset_bits 8 0xFF 0 [7] = Ok 0x7E /\
  get_bits 16 0xFFFF 3 [9] = Ok 0x208 /\ mask_msb 8 3 = 0x1F /\ mask_lsb 8 3 = 0xF8 /\
  are_set 1 1 [2] = true /\ are_set 4 1 [2] = false.
Proof. vm_compute. repeat split. Qed.

(** * C43: daw::bitset. *)
Theorem C43_empty n : 2 < n -> bs_wf n (bs_new n) /\
  forall i, 0 <= i < n -> bs_test (bs_new n) i = Ok false.
Proof. exact (bs_new_ok n). Qed.
Theorem C43_assign :
  forall n m i b, bs_wf n m -> 0 <= i < n ->
  exists m', bs_assign m i b = Ok m' /\ bs_wf n m' /\ bs_test m' i = Ok b.
Proof. exact c43_assign_l. Qed.
Print Assumptions C43_assign.
Print Assumptions C43_empty.

Theorem C43_set n m i : bs_wf n m -> 0 <= i < n ->
  exists m', bs_set m i = Ok m' /\ bs_wf n m' /\ bs_test m' i = Ok true /\
    forall j, 0 <= j < n -> j <> i -> bs_test m' j = bs_test m j.
Proof. exact (bs_set_test n m i). Qed.
Print Assumptions C43_set.

(** The set holding exactly the given positions, as find_first_of builds it. *)
Theorem C43_set_many n l : 2 < n -> (forall x, In x l -> 0 <= x < n) ->
  exists m, fold_left (fun r x => m <- r ;; bs_set m x) l (Ok (bs_new n)) = Ok m /\
    forall j, 0 <= j < n -> exists b, bs_test m j = Ok b /\ (b = true <-> In j l).
Proof. exact (bs_set_many n l). Qed.
Print Assumptions C43_set_many.

(** unset clears its bit, but also bit [i mod 4] of the same 32-bit limb. *)
Theorem C43_unset_refuted :
  exists n m i j m', bs_wf n m /\ 0 <= i < n /\ 0 <= j < n /\ j <> i /\
    bs_unset m i = Ok m' /\ bs_test m j = Ok true /\ bs_test m' j = Ok false.
Proof. exact bs_unset_bad. Qed.
Print Assumptions C43_unset_refuted.

Theorem C43_unset_partial n m i : bs_wf n m -> 0 <= i < n ->
  exists m', bs_unset m i = Ok m' /\ bs_wf n m' /\ bs_test m' i = Ok false /\
    forall j, 0 <= j < n -> j <> i ->
      bs_test m' j = if j =? 32 * (i / 32) + i mod 4 then Ok false else bs_test m j.
Proof. exact (bs_unset_test n m i). Qed.
Print Assumptions C43_unset_partial.

Example C43_nontrivial : bs_wf 256 (bs_new 256) /\ bs_test [0; 5; 0] 34 = Ok true.
Proof. split; [apply bs_new_wf; lia | reflexivity]. Qed.
