(** Proofs about daw_cxmath.h: bit counting, digits, comparisons. *)
From Coq Require Import ZifyBool.
From Verif Require Import Common Ints Math CxMath SpecBits SpecMath BitsModel BitsProofs MathProofs.
Open Scope Z_scope.
Local Arguments Z.mul : simpl never.
Local Arguments Z.add : simpl never.
Local Arguments Z.sub : simpl never.
Local Arguments Z.pow : simpl never.
Local Arguments Z.of_nat : simpl never.

(** Finite checks over 0 <= k < n. *)
Lemma check_below (P : Z -> bool) n k :
  forallb (fun i => P (Z.of_nat i)) (seq 0 n) = true -> 0 <= k < Z.of_nat n -> P k = true.
Proof.
  intros H K. rewrite forallb_forall in H.
  rewrite <- (Z2Nat.id k) by lia. apply H. apply in_seq. lia.
Qed.

(** * count_leading_zeroes *)

(** The bits L, L-1, ..., L-n+1 of [v] are set and L is the highest one. *)
Definition run_of_ones (L n v : Z) : Prop :=
  0 <= v /\ (forall i, L < i -> Z.testbit v i = false) /\
  (forall i, 0 <= i <= L -> L - n < i -> Z.testbit v i = true).

Lemma smear_run L n s v : 0 <= L -> 0 <= s <= n -> run_of_ones L n v ->
  run_of_ones L (n + s) (smear s v).
Proof.
  intros HL HS (P & H1 & H2). unfold smear, run_of_ones.
  assert (B : forall i, 0 <= i -> Z.testbit (Z.lor v (Z.shiftr v s)) i =
                                  Z.testbit v i || Z.testbit v (i + s)).
  { intros i Hi. rewrite Z.lor_spec, Z.shiftr_spec by auto. reflexivity. }
  split; [|split].
  - apply Z.lor_nonneg. split; [auto|]. apply Z.shiftr_nonneg. auto.
  - intros i Hi. rewrite B by lia. rewrite !H1 by lia. reflexivity.
  - intros i Hi Hn. rewrite B by lia.
    destruct (Z.lt_ge_cases (L - n) i).
    + rewrite H2 by lia. reflexivity.
    + rewrite (H2 (i + s)) by lia. apply orb_true_r.
Qed.

Lemma top_bit_run v k : top_bit v k -> run_of_ones k 1 v.
Proof.
  intros (K & R). assert (E : k = Z.log2 v) by (symmetry; apply Z.log2_unique; auto).
  split; [|split].
  - lia.
  - intros i Hi. apply Z.bits_above_log2; lia.
  - intros i Hi Hn. replace i with (Z.log2 v) by lia. apply Z.bit_log2.
    pose proof (pow_pos k). lia.
Qed.

Lemma run_full L n v : 0 <= L < n -> run_of_ones L n v -> v = 2 ^ (L + 1) - 1.
Proof.
  intros HL (P & H1 & H2). apply Z.bits_inj'. intros i Hi.
  rewrite ones_bit by lia. destruct (Z.ltb_spec i (L + 1)).
  - apply H2; lia.
  - apply H1; lia.
Qed.

Lemma bit_position_ok k : 0 <= k < 64 ->
  rd bit_position (Z.to_nat (Z.shiftr (sz (2 ^ k * 0x0218a392cd3d5dbf)) 58)) = Ok k.
Proof.
  intros K.
  pose (P := fun k => match rd bit_position (Z.to_nat (Z.shiftr (sz (2 ^ k * 0x0218a392cd3d5dbf)) 58)) with
                      | Ok b => b =? k | _ => false end).
  assert (H : P k = true).
  { apply (check_below P 64); [vm_compute; reflexivity|lia]. }
  unfold P in H. destruct (rd _ _); try discriminate. f_equal. lia.
Qed.

Lemma clz64_ok v k : top_bit v k -> v < 2 ^ 64 -> clz64 v = Ok (63 - k).
Proof.
  intros T V. pose proof T as (K & R). pose proof (pow_pos k K).
  assert (K64 : k < 64).
  { destruct (Z.lt_ge_cases k 64); auto. assert (2 ^ 64 <= 2 ^ k) by (apply Z.pow_le_mono_r; lia). lia. }
  unfold clz64. destruct (Z.eqb_spec v 0); [lia|]. cbv zeta.
  pose proof (top_bit_run v k T) as RN.
  apply (smear_run k 1 1) in RN; [|lia|lia].
  apply (smear_run k _ 2) in RN; [|lia|lia].
  apply (smear_run k _ 4) in RN; [|lia|lia].
  apply (smear_run k _ 8) in RN; [|lia|lia].
  apply (smear_run k _ 16) in RN; [|lia|lia].
  apply (smear_run k _ 32) in RN; [|lia|lia].
  apply run_full in RN; [|lia]. rewrite RN.
  assert (E : Z.shiftr (2 ^ (k + 1) - 1) 1 = 2 ^ k - 1).
  { rewrite Z.shiftr_div_pow2 by lia. change (2 ^ 1) with 2.
    rewrite Z.pow_add_r by lia. change (2 ^ 1) with 2.
    symmetry. apply Z.div_unique with 1; lia. }
  rewrite E. replace (2 ^ k - 1 + 1) with (2 ^ k) by lia.
  assert (sz (2 ^ k) = 2 ^ k) as ->.
  { apply Z.mod_small. split; [lia|]. apply Z.pow_lt_mono_r; lia. }
  rewrite bit_position_ok by lia. cbn [bind]. f_equal. apply wrap_id. lia.
Qed.

Lemma clz64_zero : clz64 0 = Ok 64.
Proof. reflexivity. Qed.

Lemma clz_builtin_ok w v k : top_bit v k -> clz_builtin w v = w - 1 - k.
Proof.
  intros (K & R). pose proof (pow_pos k K). unfold clz_builtin. destruct (Z.eqb_spec v 0); [lia|].
  rewrite (Z.log2_unique v k); auto.
Qed.

(** * count_trailing_zeros *)
Lemma isolate_low v k : low_bit v k -> Z.land v (- v) = 2 ^ k.
Proof.
  intros (K & [q E] & N).
  assert (O : Z.odd q = true).
  { rewrite <- Z.negb_even. destruct (Z.even q) eqn:EV; auto. exfalso. apply N.
    apply Z.even_spec in EV. destruct EV as [m Em]. exists m. rewrite E, Em, Z.pow_add_r by lia.
    change (2 ^ 1) with 2. ring. }
  apply Z.odd_spec in O. destruct O as [m Em].
  replace (- v) with (Z.lnot (v - 1)) by (unfold Z.lnot; lia).
  assert (Q : (v - 1) / 2 ^ k = 2 * m).
  { pose proof (pow_pos k K). symmetry. apply Z.div_unique with (2 ^ k - 1); [lia|]. rewrite E, Em. ring. }
  apply Z.bits_inj'. intros i Hi.
  rewrite Z.land_spec, Z.lnot_spec by auto.
  destruct (Z.lt_trichotomy i k) as [L|[L|L]].
  - rewrite E, Z.mul_pow2_bits_low by lia. rewrite Z.pow2_bits_false by lia. reflexivity.
  - rewrite L. rewrite Z.pow2_bits_true by lia.
    rewrite E, Z.mul_pow2_bits by lia. rewrite Z.sub_diag, Em.
    rewrite Z.testbit_odd_0. rewrite <- Em, <- E.
    replace (Z.testbit (v - 1) k) with false; auto.
    replace (Z.testbit (v - 1) k) with (Z.testbit ((v - 1) / 2 ^ k) 0).
    2: { rewrite <- Z.shiftr_div_pow2, Z.shiftr_spec by lia. f_equal. }
    rewrite Q. symmetry. apply Z.testbit_even_0.
  - rewrite Z.pow2_bits_false by lia.
    rewrite E at 1. rewrite Z.mul_pow2_bits by lia.
    replace (Z.testbit (v - 1) i) with (Z.testbit ((v - 1) / 2 ^ k) (i - k)).
    2: { rewrite <- Z.shiftr_div_pow2, Z.shiftr_spec by lia. f_equal. lia. }
    rewrite Q, Em. replace (i - k) with (Z.succ (i - k - 1)) by lia.
    rewrite Z.testbit_odd_succ, Z.testbit_even_succ by lia.
    apply andb_negb_r.
Qed.

(** The part of ctz32 after the lowest bit has been isolated. *)
Definition ctz_count (v : Z) : Z :=
  let c := 32 in
  let c := if v =? 0 then c else c - 1 in
  let c := if Z.land v 0x0000FFFF =? 0 then c else c - 16 in
  let c := if Z.land v 0x00FF00FF =? 0 then c else c - 8 in
  let c := if Z.land v 0x0F0F0F0F =? 0 then c else c - 4 in
  let c := if Z.land v 0x33333333 =? 0 then c else c - 2 in
  let c := if Z.land v 0x55555555 =? 0 then c else c - 1 in
  wrap 32 c.

Lemma ctz_count_ok k : 0 <= k < 32 -> ctz_count (2 ^ k) = k.
Proof.
  intros K.
  assert (H : (ctz_count (2 ^ k) =? k) = true).
  { apply (check_below (fun k => ctz_count (2 ^ k) =? k) 32); [vm_compute; reflexivity|lia]. }
  lia.
Qed.

Lemma ctz32_unfold v : v <> 0 ->
  ctz32 v = (m <- calc i32 (- conv i32 v) ;; Ok (ctz_count (Z.land v (conv u32 m)))).
Proof. intros N. unfold ctz32. destruct (Z.eqb_spec v 0); [lia|]. reflexivity. Qed.

Lemma conv_i32_cases v : 0 <= v < 2 ^ 32 -> conv i32 v = if v <? 2 ^ 31 then v else v - 2 ^ 32.
Proof.
  intros V. unfold conv, i32. cbn [signed width]. unfold swrap.
  rewrite Z.mod_small by auto. reflexivity.
Qed.

Lemma low_bit_pos v k : low_bit v k -> v <> 0.
Proof. intros (K & D & N) ->. apply N. apply Z.divide_0_r. Qed.

Lemma low_bit_lt v k w : 0 <= v < 2 ^ w -> low_bit v k -> k < w.
Proof.
  intros V L. pose proof (low_bit_pos v k L). destruct L as (K & D & N).
  destruct (Z.lt_ge_cases k w); auto.
  apply Z.divide_pos_le in D; [|lia].
  assert (0 <= w) by (destruct (Z.lt_ge_cases w 0); auto; rewrite Z.pow_neg_r in V by auto; lia).
  assert (2 ^ w <= 2 ^ k) by (apply Z.pow_le_mono_r; lia). lia.
Qed.

Lemma ctz32_ok v k : 0 <= v < 2 ^ 32 -> v <> 2 ^ 31 -> low_bit v k -> ctz32 v = Ok k.
Proof.
  intros V N L. pose proof (low_bit_pos v k L) as NZ. pose proof (low_bit_lt v k 32 V L) as KL.
  pose proof L as (K & _).
  rewrite ctz32_unfold, conv_i32_cases by auto.
  rewrite calc_fits; [|reflexivity|].
  2: { unfold fits, lowest, highest, i32; cbn [signed width]. change (2 ^ (32 - 1)) with (2 ^ 31).
       destruct (Z.ltb_spec v (2 ^ 31)); lia. }
  cbn [bind]. f_equal.
  assert (E : conv u32 (- (if v <? 2 ^ 31 then v else v - 2 ^ 32)) = wrap 32 (- v)).
  { unfold conv, u32; cbn [signed width]. unfold wrap. destruct (v <? 2 ^ 31); auto.
    replace (- (v - 2 ^ 32)) with (- v + 1 * 2 ^ 32) by ring. apply Z.mod_add. lia. }
  rewrite E.
  assert (Z.land v (wrap 32 (- v)) = Z.land v (- v)) as ->.
  { apply Z.bits_inj'. intros i Hi. rewrite !Z.land_spec.
    destruct (Z.lt_ge_cases i 32).
    - rewrite wrap_bit by lia. reflexivity.
    - rewrite (high_bit 32 v) by lia. reflexivity. }
  rewrite (isolate_low v k L). apply ctz_count_ok. lia.
Qed.

Lemma ctz32_bad : ctz32 (2 ^ 31) = UB.
Proof. vm_compute. reflexivity. Qed.

Lemma land_low w v : 0 <= w -> Z.land v (2 ^ w - 1) = v mod 2 ^ w.
Proof.
  intros. rewrite <- Z.land_ones by auto. f_equal. rewrite Z.ones_equiv. lia.
Qed.

Lemma low_bit_wrap v k w : 0 <= k < w -> low_bit v k -> low_bit (wrap w v) k.
Proof.
  intros K (_ & D & N). unfold wrap. pose proof (pow_pos w).
  assert (DW : (2 ^ (k + 1) | 2 ^ w)).
  { exists (2 ^ (w - k - 1)). rewrite <- Z.pow_add_r by lia. f_equal. lia. }
  assert (DW' : (2 ^ k | 2 ^ w)).
  { exists (2 ^ (w - k)). rewrite <- Z.pow_add_r by lia. f_equal. lia. }
  rewrite Z.mod_eq by lia.
  split; [lia|]. split.
  - apply Z.divide_sub_r; auto. apply Z.divide_mul_l; auto.
  - intros C. apply N. replace v with ((v - 2 ^ w * (v / 2 ^ w)) + 2 ^ w * (v / 2 ^ w)) by ring.
    apply Z.divide_add_r; auto. apply Z.divide_mul_l; auto.
Qed.

Lemma low_bit_shift v k w : 0 <= w -> low_bit (v * 2 ^ w) k -> w <= k -> low_bit v (k - w).
Proof.
  intros W (K & [q E] & N) G. pose proof (pow_pos w W). split; [lia|]. split.
  - exists q. apply (Z.mul_reg_r _ _ (2 ^ w)); [lia|]. rewrite E.
    rewrite <- Z.mul_assoc, <- Z.pow_add_r by lia. do 2 f_equal. lia.
  - intros [m Em]. apply N. exists m. rewrite Em, <- Z.mul_assoc, <- Z.pow_add_r by lia.
    do 2 f_equal. lia.
Qed.

Lemma ctz64_ok v k : 0 <= v < 2 ^ 64 -> low_bit v k ->
  wrap 32 v <> 2 ^ 31 -> v <> 2 ^ 63 -> ctz64 v = Ok k.
Proof.
  intros V L N1 N2. pose proof (low_bit_pos v k L) as NZ. pose proof L as (K & D & ND).
  pose proof (low_bit_lt v k 64 V L) as KL.
  unfold ctz64. destruct (Z.eqb_spec v 0); [lia|].
  change 0xFFFFFFFF with (2 ^ 32 - 1). rewrite land_low by lia.
  assert (DV : v = 2 ^ 32 * (v / 2 ^ 32) + v mod 2 ^ 32) by (apply Z.div_mod; lia).
  destruct (Z.eqb_spec (v mod 2 ^ 32) 0) as [E0|NE0].
  - assert (K32 : 32 <= k).
    { destruct (Z.lt_ge_cases k 32); auto. exfalso. apply ND.
      apply Z.divide_trans with (2 ^ 32).
      - exists (2 ^ (32 - k - 1)). rewrite <- Z.pow_add_r by lia. f_equal. lia.
      - apply Z.mod_divide; lia. }
    assert (H : 0 <= v / 2 ^ 32 < 2 ^ 32).
    { split; [apply Z.div_pos; lia|]. apply Z.div_lt_upper_bound; lia. }
    rewrite Z.shiftr_div_pow2 by lia. rewrite wrap_id by lia.
    rewrite (ctz32_ok _ (k - 32)); auto.
    + cbn [bind]. f_equal. rewrite wrap_id by lia. lia.
    + intros C. apply N2. rewrite DV, E0, C. reflexivity.
    + apply low_bit_shift; [lia| |auto]. replace (v / 2 ^ 32 * 2 ^ 32) with v by lia. auto.
  - assert (K32 : k < 32).
    { destruct (Z.lt_ge_cases k 32) as [|G]; auto. exfalso. apply NE0. apply Z.mod_divide; [lia|].
      apply Z.divide_trans with (2 ^ k); auto.
      exists (2 ^ (k - 32)). rewrite <- Z.pow_add_r by lia. f_equal. lia. }
    apply ctz32_ok; auto.
    + apply wrap_range. lia.
    + apply low_bit_wrap; auto; lia.
Qed.

Lemma ctz64_bad v : 0 <= v < 2 ^ 64 -> wrap 32 v = 2 ^ 31 \/ v = 2 ^ 63 -> ctz64 v = UB.
Proof.
  intros V [E | ->]; [|vm_compute; reflexivity].
  unfold ctz64. destruct (Z.eqb_spec v 0) as [->|]; [vm_compute in E; discriminate|].
  change 0xFFFFFFFF with (2 ^ 32 - 1). rewrite land_low by lia.
  unfold wrap in E |- *. rewrite E. vm_compute. reflexivity.
Qed.

(** * popcount *)
Lemma ones_zero n : ones n 0 = 0.
Proof. induction n as [|n IH]; cbn [ones]; auto. rewrite Z.testbit_0_l, IH. reflexivity. Qed.

Lemma ones_shift n v : ones (S n) v = Z.land v 1 + ones n (Z.shiftr v 1).
Proof.
  induction n as [|n IH].
  - cbn [ones]. change (Z.of_nat 0) with 0. rewrite (land_low 1) by lia.
    rewrite Z.add_0_r, Z.add_0_r. change (2 ^ 1) with 2. rewrite Zmod_odd, Z.bit0_odd. reflexivity.
  - cbn [ones] in IH |- *. rewrite IH. rewrite Z.shiftr_spec by lia.
    replace (Z.of_nat n + 1) with (Z.of_nat (S n)) by lia. ring.
Qed.

Lemma popcount_loop_ok n : forall fuel ui c, 0 <= ui < 2 ^ Z.of_nat n -> (n < fuel)%nat ->
  popcount_loop fuel ui c = Ok (c + ones n ui).
Proof.
  induction n as [|n IH]; intros fuel ui c U F; (destruct fuel as [|fuel]; [lia|]); cbn [popcount_loop].
  - change (2 ^ Z.of_nat 0) with 1 in U. destruct (Z.eqb_spec ui 0); [|lia]. cbn [ones]. f_equal. lia.
  - destruct (Z.eqb_spec ui 0) as [->|NZ].
    + rewrite ones_zero. f_equal. lia.
    + rewrite IH; [| |lia].
      * rewrite ones_shift. f_equal. ring.
      * rewrite Z.shiftr_div_pow2 by lia. change (2 ^ 1) with 2.
        rewrite Nat2Z.inj_succ, Z.pow_succ_r in U by lia.
        split; [apply Z.div_pos; lia|]. apply Z.div_lt_upper_bound; lia.
Qed.

Lemma ones_ext n a b : (forall i, 0 <= i < Z.of_nat n -> Z.testbit a i = Z.testbit b i) ->
  ones n a = ones n b.
Proof.
  induction n as [|n IH]; intros H; cbn [ones]; auto.
  rewrite (H (Z.of_nat n)) by lia. rewrite IH; auto. intros i Hi. apply H. lia.
Qed.

Lemma popcount_actual T i : std_width (width T) ->
  popcount T i = Ok (ones (Z.to_nat (Z.max 32 (width T))) i).
Proof.
  intros W. unfold popcount. set (w := Z.max 32 (width T)).
  assert (B : 0 < w <= 64) by (unfold std_width in W; lia).
  rewrite (popcount_loop_ok (Z.to_nat w)); [| |lia].
  - f_equal. rewrite Z.add_0_l. apply ones_ext. intros j Hj. apply wrap_bit. lia.
  - rewrite Z2Nat.id by lia. apply wrap_range. lia.
Qed.

Lemma ones_split n m v : ones (n + m) v = ones n v + ones m (Z.shiftr v (Z.of_nat n)).
Proof.
  induction m as [|m IH].
  - rewrite Nat.add_0_r. cbn [ones]. lia.
  - rewrite Nat.add_succ_r. cbn [ones]. rewrite IH, Z.shiftr_spec by lia.
    replace (Z.of_nat m + Z.of_nat n) with (Z.of_nat (n + m)) by lia. ring.
Qed.

Lemma ones_minus_one n : ones n (-1) = Z.of_nat n.
Proof. induction n as [|n IH]; cbn [ones]; auto. rewrite Z.bits_m1, IH by lia. lia. Qed.

Lemma popcount_ok T i : std_width (width T) -> fits T i -> 32 <= width T \/ 0 <= i ->
  popcount T i = Ok (ones (Z.to_nat (width T)) i).
Proof.
  intros W F C. rewrite popcount_actual by auto.
  destruct (Z.lt_ge_cases (width T) 32) as [L|G].
  - rewrite Z.max_l by lia. destruct C as [C|C]; [lia|]. f_equal.
    replace (Z.to_nat 32) with (Z.to_nat (width T) + (32 - Z.to_nat (width T)))%nat by (pose proof (std_pos _ W); lia).
    rewrite ones_split, Z2Nat.id by (pose proof (std_pos _ W); lia).
    rewrite Z.shiftr_div_pow2 by (pose proof (std_pos _ W); lia).
    assert (i / 2 ^ width T = 0) as ->.
    { apply Z.div_small. unfold fits, highest in F.
      pose proof (pow_half (width T) (std_pos _ W)).
      pose proof (pow_pos (width T - 1)). pose proof (std_pos _ W). destruct (signed T); lia. }
    rewrite ones_zero. lia.
  - rewrite Z.max_r by lia. reflexivity.
Qed.

Lemma popcount_narrow_negative T i : std_width (width T) -> width T < 32 -> fits T i -> i < 0 ->
  popcount T i = Ok (ones (Z.to_nat (width T)) i + (32 - width T)).
Proof.
  intros W L F N. pose proof (std_pos _ W) as P. rewrite popcount_actual, Z.max_l by (auto; lia).
  f_equal.
  replace (Z.to_nat 32) with (Z.to_nat (width T) + (32 - Z.to_nat (width T)))%nat by lia.
  rewrite ones_split, Z2Nat.id by lia. rewrite Z.shiftr_div_pow2 by lia.
  assert (i / 2 ^ width T = -1) as ->.
  { unfold fits, lowest, highest in F. destruct (signed T); [|lia].
    pose proof (pow_half (width T) P). pose proof (pow_pos (width T - 1)).
    symmetry. apply Z.div_unique with (i + 2 ^ width T); lia. }
  rewrite ones_minus_one. lia.
Qed.

(** * round_up_pow2 *)
Lemma round_up_ok w v p : std_width w -> 0 < v < 2 ^ w -> next_pow2 v p ->
  round_up_pow2 w v = Ok (wrap w p).
Proof.
  intros W V (LE & (k & K & ->) & MIN). pose proof (std_pos _ W) as P.
  pose proof (Z.log2_spec v ltac:(lia)) as LS. pose proof (Z.log2_nonneg v) as LN.
  set (L := Z.log2 v) in *.
  assert (LW : L < w).
  { destruct (Z.lt_ge_cases L w); auto. assert (2 ^ w <= 2 ^ L) by (apply Z.pow_le_mono_r; lia). lia. }
  unfold round_up_pow2. destruct (Z.eqb_spec v 0); [lia|]. cbv zeta.
  unfold clz_builtin. destruct (Z.eqb_spec v 0); [lia|]. fold L.
  replace (w - 1 - (w - 1 - L)) with L by lia.
  assert (sz L = L) as ->.
  { apply Z.mod_small. split; [lia|]. assert (L < 2 ^ L) by (apply Z.pow_gt_lin_r; lia).
    assert (2 ^ L <= 2 ^ 64) by (apply Z.pow_le_mono_r; unfold std_width in W; lia). lia. }
  assert (wrap w L = L) as ->.
  { apply wrap_id. split; [lia|]. assert (L < 2 ^ L) by (apply Z.pow_gt_lin_r; lia).
    assert (2 ^ L <= 2 ^ w) by (apply Z.pow_le_mono_r; lia). lia. }
  destruct (Z.ltb_spec L (Z.max w 32)); [|lia].
  rewrite !Z.shiftl_mul_pow2 by lia. rewrite Z.mul_1_l.
  rewrite (wrap_id w (2 ^ L)) by (split; [lia|apply Z.pow_lt_mono_r; lia]).
  f_equal. destruct (Z.ltb_spec (2 ^ L) v) as [LT|GE].
  - f_equal. change (2 ^ 1) with 2. rewrite Z.pow_succ_r in LS by lia.
    specialize (MIN (L + 1)). rewrite Z.pow_add_r in MIN by lia. change (2 ^ 1) with 2 in MIN.
    assert (L < k) by (apply (Z.pow_lt_mono_r_iff 2); lia).
    assert (2 ^ (L + 1) <= 2 ^ k) by (apply Z.pow_le_mono_r; lia).
    rewrite Z.pow_add_r in H1 by lia. change (2 ^ 1) with 2 in H1. lia.
  - rewrite <- (wrap_id w (2 ^ L)) at 1 by (split; [lia|apply Z.pow_lt_mono_r; lia]).
    f_equal. specialize (MIN L). lia.
Qed.

Lemma next_pow2_exists v : 0 < v -> exists p, next_pow2 v p.
Proof.
  intros V. exists (2 ^ Z.log2_up v). pose proof (Z.log2_up_nonneg v).
  split; [|split].
  - apply Z.log2_log2_up_spec; auto.
  - exists (Z.log2_up v). auto.
  - intros k K LE. apply Z.pow_le_mono_r; [lia|].
    apply Z.log2_up_le_pow2; auto.
Qed.

Lemma round_up_exact w v p : std_width w -> 0 < v -> next_pow2 v p -> p < 2 ^ w ->
  round_up_pow2 w v = Ok p.
Proof.
  intros W V N L. pose proof N as (LE & _). rewrite (round_up_ok w v p) by (auto; lia).
  f_equal. apply wrap_id. lia.
Qed.

Lemma round_up_overflow w v : std_width w -> 2 ^ (w - 1) < v < 2 ^ w -> round_up_pow2 w v = Ok 0.
Proof.
  intros W V. pose proof (std_pos _ W) as P. pose proof (pow_pos (w - 1)).
  rewrite (round_up_ok w v (2 ^ w)); [| |lia|].
  - f_equal. unfold wrap. apply Z.mod_same. lia.
  - auto.
  - split; [lia|]. split; [exists w; lia|]. intros k K LE.
    apply Z.pow_le_mono_r; [lia|].
    assert (w - 1 < k); [|lia]. apply (Z.pow_lt_mono_r_iff 2); lia.
Qed.

(** * count_digits *)
Definition digits_check (k : Z) : bool :=
  let a := wrap 32 (k * 77) / 256 in
  match rd powers_of_ten (Z.to_nat a) with
  | Ok p => (0 <=? a) && (a <? 100) && (p =? 10 ^ (a + 1)) && (10 ^ a <=? 2 ^ k) && (2 ^ (k + 1) <=? 10 ^ (a + 2))
  | _ => false
  end.

Lemma digits_check_ok k : 0 <= k < 64 -> digits_check k = true.
Proof. intros K. apply (check_below digits_check 64); [vm_compute; reflexivity|lia]. Qed.

Lemma count_digits_ok clz v : 0 <= v < 2 ^ 64 ->
  clz 0 = Ok 64 -> (forall k, top_bit v k -> clz v = Ok (63 - k)) ->
  exists d, count_digits clz v = Ok d /\ decimal_digits v d.
Proof.
  intros V C0 CK. destruct (Z.eqb_spec v 0) as [->|NZ].
  - exists 1. unfold count_digits. rewrite C0. split; [vm_compute; reflexivity|].
    split; [lia|]. left; auto.
  - pose proof (Z.log2_spec v ltac:(lia)) as LS. pose proof (Z.log2_nonneg v) as LN.
    set (k := Z.log2 v) in *.
    assert (K : k < 64).
    { destruct (Z.lt_ge_cases k 64); auto. assert (2 ^ 64 <= 2 ^ k) by (apply Z.pow_le_mono_r; lia). lia. }
    unfold count_digits. rewrite (CK k) by (split; auto). cbn [bind].
    replace (v >? 0) with true by lia.
    replace (63 - (63 - k)) with k by lia. cbv zeta.
    assert (Z.land (wrap 32 (- (1))) (wrap 32 k) = k) as ->.
    { change (- (1)) with (-1). rewrite (wrap_id 32 k) by lia. change (wrap 32 (-1)) with (2 ^ 32 - 1).
      rewrite Z.land_comm, land_low by lia. apply Z.mod_small. lia. }
    pose proof (digits_check_ok k ltac:(lia)) as D. unfold digits_check in D.
    set (a := wrap 32 (k * 77) / 256) in *.
    destruct (rd powers_of_ten (Z.to_nat a)) as [p| | |]; try discriminate. cbn [bind].
    assert (E10 : 10 ^ (a + 1) = 10 * 10 ^ a).
    { rewrite Z.pow_add_r by lia. change (10 ^ 1) with 10. ring. }
    assert (W : forall b, 0 <= b <= 1 -> conv i32 (wrap 32 (1 + a + b)) = 1 + a + b).
    { intros b Hb. rewrite wrap_id by lia. apply conv_id; [reflexivity|].
      unfold fits, lowest, highest, i32; cbn [signed width]. lia. }
    assert (2 ^ (k + 1) = 2 ^ Z.succ k) by (f_equal; lia).
    destruct (Z.geb_spec v p).
    + exists (1 + a + 1). rewrite W by lia. split; auto. split; [lia|]. right.
      replace (1 + a + 1 - 1) with (a + 1) by lia. replace (1 + a + 1) with (a + 2) by lia. lia.
    + exists (1 + a + 0). rewrite W by lia. split; auto. split; [lia|]. right.
      replace (1 + a + 0 - 1) with a by lia. replace (1 + a + 0) with (a + 1) by lia. lia.
Qed.

Lemma count_digits_portable v : 0 <= v < 2 ^ 64 ->
  exists d, count_digits clz64 v = Ok d /\ decimal_digits v d.
Proof.
  intros V. apply count_digits_ok; auto. intros k T. apply clz64_ok; auto. lia.
Qed.
Lemma count_digits_builtin v : 0 <= v < 2 ^ 64 ->
  exists d, count_digits (fun x => Ok (clz_builtin 64 x)) v = Ok d /\ decimal_digits v d.
Proof.
  intros V. apply count_digits_ok; auto. intros k T. f_equal. rewrite (clz_builtin_ok 64 v k T). lia.
Qed.

(** * cmp_equal and friends *)
Lemma cx_cmp_equal_ok T U t u : 0 < width T -> 0 < width U -> fits T t -> fits U u ->
  cx_cmp_equal T U t u = (t =? u).
Proof.
  intros. rewrite <- (cmp_equal_ok T U t u) by auto. unfold cx_cmp_equal, cmp_equal. cbv zeta.
  change builtin_eq with op_eq.
  destruct (Bool.eqb _ _); auto.
  destruct (signed T).
  - replace (t >=? 0) with (negb (t <? 0)) by lia. destruct (t <? 0); reflexivity.
  - replace (u >=? 0) with (negb (u <? 0)) by lia. destruct (u <? 0); reflexivity.
Qed.

Lemma cx_cmp_less_ok T U t u : 0 < width T -> 0 < width U -> fits T t -> fits U u ->
  cx_cmp_less T U t u = (t <? u).
Proof.
  intros. rewrite <- (cmp_less_ok T U t u) by auto. unfold cx_cmp_less, cmp_less. cbv zeta.
  change builtin_less with op_lt.
  destruct (Bool.eqb _ _); auto.
  destruct (signed T).
  - destruct (t <? 0); reflexivity.
  - replace (u >=? 0) with (negb (u <? 0)) by lia. destruct (u <? 0); reflexivity.
Qed.

Lemma cx_cmp_ok T U t u : 0 < width T -> 0 < width U -> fits T t -> fits U u ->
  cx_cmp_equal T U t u = (t =? u) /\
  cx_cmp_not_equal T U t u = negb (t =? u) /\
  cx_cmp_less T U t u = (t <? u) /\
  cx_cmp_greater T U t u = (u <? t) /\
  cx_cmp_less_equal T U t u = (t <=? u) /\
  cx_cmp_greater_equal T U t u = (u <=? t).
Proof.
  intros. unfold cx_cmp_not_equal, cx_cmp_greater, cx_cmp_less_equal, cx_cmp_greater_equal.
  rewrite !cx_cmp_equal_ok, !cx_cmp_less_ok by auto. repeat apply conj; auto; lia.
Qed.

(** * is_odd, is_even *)
Lemma low_bit_of_conv T i : 0 < width T -> (Z.land (conv (unsigned_of T) i) 1 =? 1) = Z.odd i.
Proof.
  intros W. rewrite (land_low 1) by lia. change (2 ^ 1) with 2. rewrite Zmod_odd.
  rewrite <- (Z.bit0_odd (conv _ i)), conv_bit by (cbn [width unsigned_of]; lia).
  rewrite Z.bit0_odd. destruct (Z.odd i); reflexivity.
Qed.

Lemma is_odd_ok T i : 0 < width T -> is_odd T i = Z.odd i.
Proof. apply low_bit_of_conv. Qed.
Lemma is_even_actual T i : 0 < width T -> is_even T i = negb (Z.even i).
Proof. intros. rewrite Z.negb_even. apply low_bit_of_conv. auto. Qed.

(** * pow10 *)
Lemma pow10_ok e : 0 <= e <= 18 -> pow10 e = Ok (10 ^ e).
Proof.
  intros E.
  assert (H : (match pow10 e with Ok p => p =? 10 ^ e | _ => false end) = true).
  { apply (check_below (fun e => match pow10 e with Ok p => p =? 10 ^ e | _ => false end) 19);
    [vm_compute; reflexivity|lia]. }
  destruct (pow10 e); try discriminate. f_equal. lia.
Qed.
Lemma pow10_ub e : 19 <= e -> pow10 e = UB.
Proof.
  intros E. unfold pow10, rd. assert (H : nth_error pow10_table (Z.to_nat e) = None); [|rewrite H; auto].
  apply nth_error_None. unfold pow10_table. rewrite map_length, seq_length. lia.
Qed.

Lemma pow10_19 : pow10 19 = UB /\ 10 ^ 19 <= highest u64.
Proof.
  split; [apply pow10_ub; lia|]. change (highest u64) with 18446744073709551615.
  change (10 ^ 19) with 10000000000000000000. lia.
Qed.
