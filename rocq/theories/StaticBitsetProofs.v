From Verif Require Import Common CommonProofs Ints BitsModel SpecBits BitsProofs BitQueueProofs StaticBitset.
From Coq Require Import ZifyNat.
Open Scope Z_scope.
Local Arguments Z.mul : simpl never.
Local Arguments Z.add : simpl never.
Local Arguments Z.sub : simpl never.
Local Arguments Z.pow : simpl never.
Local Arguments Z.of_nat : simpl never.
Ltac Zify.zify_post_hook ::= Z.div_mod_to_equations.

Definition limbs64 (m : list Z) : Prop := Forall (fun x => 0 <= x < 2 ^ 64) m.

Lemma num_cons x m : num (x :: m) = x + 2 ^ 64 * num m.
Proof. reflexivity. Qed.
Lemma num_nil : num [] = 0.
Proof. reflexivity. Qed.

Lemma num_range m : limbs64 m -> 0 <= num m < 2 ^ (64 * Z.of_nat (length m)).
Proof.
  induction 1 as [|x m Hx Hm IH]; [rewrite num_nil; simpl; lia|]. cbv beta in Hx.
  rewrite ?num_cons, ?num_nil. change (length (x :: m)) with (S (length m)).
  replace (64 * Z.of_nat (S (length m))) with (64 + 64 * Z.of_nat (length m)) by lia.
  rewrite Z.pow_add_r by lia. set (P := 2 ^ (64 * Z.of_nat (length m))) in *. clearbody P.
  pose proof (Z.mul_le_mono_nonneg_l (num m) (P - 1) (2 ^ 64) ltac:(lia) ltac:(lia)). lia.
Qed.

Lemma num_cons_bit x m i : 0 <= x < 2 ^ 64 -> 0 <= i ->
  Z.testbit (num (x :: m)) i = if i <? 64 then Z.testbit x i else Z.testbit (num m) (i - 64).
Proof.
  intros Hx Hi. rewrite ?num_cons, ?num_nil. rewrite Z.add_comm, Z.mul_comm.
  rewrite <- lor_disjoint by lia. rewrite Z.lor_spec.
  destruct (Z.ltb_spec i 64).
  - rewrite Z.mul_pow2_bits_low by lia. auto.
  - rewrite Z.mul_pow2_bits by lia. rewrite (high_bit 64 x) by lia. apply orb_false_r.
Qed.

Lemma num_bit m i : limbs64 m -> 0 <= i ->
  Z.testbit (num m) i = Z.testbit (nth (Z.to_nat (i / 64)) m 0) (i mod 64).
Proof.
  intros H. revert i. induction H as [|x m Hx Hm IH]; intros i Hi.
  - rewrite ?num_cons, ?num_nil. rewrite Z.bits_0. destruct (Z.to_nat (i / 64)); simpl; rewrite Z.bits_0; auto.
  - rewrite num_cons_bit by auto. destruct (Z.ltb_spec i 64).
    + rewrite Z.div_small, Z.mod_small by lia. reflexivity.
    + rewrite IH by lia.
      replace (i / 64) with ((i - 64) / 64 + 1) by lia.
      replace (Z.to_nat ((i - 64) / 64 + 1)) with (S (Z.to_nat ((i - 64) / 64))) by lia.
      simpl nth. f_equal. lia.
Qed.

Lemma limbs_of bw : 0 < bw -> Z.of_nat (sb_limbs bw) = (bw + 63) / 64.
Proof.
  intros. unfold sb_limbs. destruct (Z.leb_spec bw 64); [lia|].
  destruct (Z.eqb_spec (bw mod 64) 0); simpl negb; cbv iota; lia.
Qed.

Lemma repeat_zero_limbs n : limbs64 (repeat 0 n).
Proof. apply Forall_forall. intros x H. apply repeat_spec in H. lia. Qed.

Lemma num_repeat n : num (repeat 0 n) = 0.
Proof. induction n; simpl repeat; rewrite ?num_cons, ?num_nil; lia. Qed.

Lemma sb_zero_wf bw : 0 < bw -> sb_wf bw (sb_zero bw) /\ num (sb_zero bw) = 0.
Proof.
  intros. unfold sb_wf, sb_zero. rewrite repeat_length, limbs_of by lia.
  repeat split; auto using num_repeat. apply repeat_zero_limbs.
Qed.

Lemma sb_wf_len bw m : sb_wf bw m -> bw <= 64 * Z.of_nat (length m) /\ (0 < length m)%nat.
Proof. intros (H & L & _). lia. Qed.

Lemma sb_clear_ok bw m : sb_wf bw m -> sb_wf bw (sb_clear m) /\ num (sb_clear m) = 0.
Proof.
  intros (H & L & F). unfold sb_wf, sb_clear. rewrite map_length. repeat split; auto.
  - apply Forall_forall. intros x I. apply in_map_iff in I. destruct I as (y & <- & _). lia.
  - clear. induction m; simpl map; rewrite ?num_cons, ?num_nil; lia.
Qed.

(** * Shifts *)
Lemma shl_carry x b : 0 <= x < 2 ^ 64 -> 0 < b <= 32 ->
  Z.shiftr (Z.land x (mask_lsb 64 b)) (64 - b) = x / 2 ^ (64 - b).
Proof.
  intros Hx Hb. rewrite <- Z.shiftr_div_pow2 by lia.
  apply Z.bits_inj'. intros i Hi. rewrite !Z.shiftr_spec by lia. rewrite Z.land_spec.
  destruct (Z_lt_le_dec (i + (64 - b)) 64).
  - rewrite mask_lsb_bit by lia.
    destruct (Z.leb_spec b (i + (64 - b))); [|lia]. destruct (Z.ltb_spec (i + (64 - b)) 64); [|lia].
    apply andb_true_r.
  - rewrite (high_bit 64 x) by lia. auto.
Qed.

Lemma shl_limb x b carry : 0 <= x < 2 ^ 64 -> 0 < b < 64 -> 0 <= carry < 2 ^ b ->
  Z.lor (wrap 64 (Z.shiftl x b)) carry = (x * 2 ^ b) mod 2 ^ 64 + carry /\
  x * 2 ^ b = (x * 2 ^ b) mod 2 ^ 64 + 2 ^ 64 * (x / 2 ^ (64 - b)) /\
  0 <= (x * 2 ^ b) mod 2 ^ 64 + carry < 2 ^ 64.
Proof.
  intros Hx Hb Hc. rewrite Z.shiftl_mul_pow2 by lia. unfold wrap.
  assert (E : 2 ^ 64 = 2 ^ (64 - b) * 2 ^ b) by (rewrite <- Z.pow_add_r by lia; f_equal; lia).
  pose proof (pow_pos b ltac:(lia)) as Pb. pose proof (pow_pos (64 - b) ltac:(lia)) as Pc.
  assert (M : (x * 2 ^ b) mod 2 ^ 64 = (x mod 2 ^ (64 - b)) * 2 ^ b).
  { rewrite E. apply Z.mul_mod_distr_r; lia. }
  rewrite M. split; [apply lor_disjoint; lia|]. split.
  - rewrite E. pose proof (Z.div_mod x (2 ^ (64 - b)) ltac:(lia)). nia.
  - pose proof (Z.mod_pos_bound x (2 ^ (64 - b)) Pc). rewrite E. nia.
Qed.

Lemma shl_loop_ok b : 0 < b < 64 -> forall m carry, limbs64 m -> 0 <= carry < 2 ^ b ->
  (length m <= 1)%nat \/ b <= 32 ->
  exists r, sb_shl_loop b carry m = Ok r /\ limbs64 r /\ length r = length m /\
    num r = (num m * 2 ^ b + carry) mod 2 ^ (64 * Z.of_nat (length m)).
Proof.
  intros Hb. induction m as [|x m IH]; intros carry F Hc Hl.
  - exists []. simpl. repeat split; auto; try constructor. rewrite Z.mod_1_r. auto.
  - inv F. simpl sb_shl_loop. destruct (Z.leb_spec 64 (64 - b)); [lia|].
    destruct (shl_limb x b carry) as (E1 & E2 & R); auto.
    set (nc := Z.shiftr (Z.land x (mask_lsb 64 b)) (64 - b)).
    assert (Hnc : 0 <= nc < 2 ^ b /\ (b <= 32 -> nc = x / 2 ^ (64 - b))).
    { split.
      - unfold nc. rewrite Z.shiftr_div_pow2 by lia.
        assert (0 <= Z.land x (mask_lsb 64 b) < 2 ^ 64).
        { assert (0 <= Z.land x (mask_lsb 64 b)) by (apply Z.land_nonneg; lia).
          split; auto. apply range_of_bits; try lia.
          intros i Hi. rewrite Z.land_spec, (high_bit 64 x) by lia. auto. }
        assert (E : 2 ^ 64 = 2 ^ b * 2 ^ (64 - b)) by (rewrite <- Z.pow_add_r by lia; f_equal; lia).
        pose proof (pow_pos (64 - b) ltac:(lia)).
        split; [apply Z.div_pos; lia|]. apply Z.div_lt_upper_bound; lia.
      - intros. apply shl_carry; auto; lia. }
    destruct (IH nc) as (r & E & Fr & Lr & N); auto; try tauto.
    { destruct Hl as [Hl|Hl]; auto. left. simpl in Hl. lia. }
    rewrite E. simpl bind. eexists. split; [reflexivity|]. rewrite E1.
    split; [constructor; auto|]. split; [simpl; lia|].
    rewrite ?num_cons, ?num_nil. rewrite N. change (length (x :: m)) with (S (length m)).
    replace (64 * Z.of_nat (S (length m))) with (64 + 64 * Z.of_nat (length m)) by lia.
    rewrite Z.pow_add_r by lia.
    pose proof (pow_pos (64 * Z.of_nat (length m)) ltac:(lia)) as PL.
    set (P := 2 ^ (64 * Z.of_nat (length m))) in *.
    destruct Hl as [Hl|Hl].
    + simpl in Hl. destruct m; [|simpl in Hl; lia]. subst P. rewrite ?num_cons, ?num_nil. simpl length.
      change (2 ^ (64 * Z.of_nat 0)) with 1. rewrite Z.mod_1_r, Z.mul_1_r.
      rewrite Z.mul_0_r, !Z.add_0_r.
      rewrite <- Z.add_mod_idemp_l by lia. symmetry. apply Z.mod_small. auto.
    + destruct Hnc as (_ & Hnc). rewrite Hnc by auto.
      set (hi := x / 2 ^ (64 - b)) in *. set (lo := (x * 2 ^ b) mod 2 ^ 64) in *.
      replace ((x + 2 ^ 64 * num m) * 2 ^ b + carry)
        with ((lo + carry) + 2 ^ 64 * (num m * 2 ^ b + hi)) by lia.
      rewrite Z.rem_mul_r by lia.
      rewrite (Z.mul_comm (2 ^ 64) (num m * 2 ^ b + hi)).
      rewrite Z_mod_plus_full, Z.div_add by lia.
      rewrite (Z.mod_small (lo + carry)), (Z.div_small (lo + carry)) by lia. rewrite Z.add_0_l. reflexivity.
Qed.

Lemma sb_shl_ok bw m n : sb_wf bw m -> 0 < n -> n <= 32 \/ bw <= n \/ bw <= 64 ->
  exists m', sb_shl bw m n = Ok m' /\ sb_wf bw m' /\
    forall i, 0 <= i < bw -> Z.testbit (num m') i = (n <=? i) && Z.testbit (num m) (i - n).
Proof.
  intros W Hn Hc. pose proof (sb_wf_len bw m W) as (Lw & Lm). unfold sb_shl.
  destruct (Z.leb_spec bw n).
  - destruct (sb_clear_ok bw m W) as (W' & N). eexists; split; [reflexivity|]. split; auto.
    intros i Hi. rewrite N, Z.bits_0. destruct (Z.leb_spec n i); simpl; auto; lia.
  - destruct W as (W0 & W1 & W2).
    destruct (Z.ltb_spec n 64); [|lia].
    destruct (shl_loop_ok n ltac:(lia) m 0) as (r & E & F & L & N); auto.
    { pose proof (pow_pos n). lia. }
    { destruct Hc as [Hc|[Hc|Hc]]; [right; lia|lia|left; lia]. }
    rewrite E. eexists. split; [reflexivity|]. split.
    { split; [auto|]. rewrite L. auto. }
    intros i Hi. rewrite N, Z.add_0_r.
    rewrite Z.mod_pow2_bits_low by lia.
    destruct (Z.leb_spec n i); simpl.
    + rewrite Z.mul_pow2_bits by lia. auto.
    + rewrite Z.mul_pow2_bits_low by lia. auto.
Qed.

Lemma shr_carry x b : 0 <= x < 2 ^ 64 -> 0 < b <= 32 ->
  wrap 64 (Z.shiftl (Z.land x (mask_msb 64 b)) (64 - b)) = (x mod 2 ^ b) * 2 ^ (64 - b).
Proof.
  intros Hx Hb. apply Z.bits_inj'. intros i Hi.
  destruct (Z_lt_le_dec i 64).
  - rewrite wrap_bit by lia. rewrite Z.shiftl_spec by lia.
    destruct (Z_lt_le_dec i (64 - b)).
    + rewrite Z.testbit_neg_r by lia. rewrite Z.mul_pow2_bits_low by lia. auto.
    + rewrite Z.mul_pow2_bits by lia. rewrite Z.land_spec, mask_msb_bit by lia.
      rewrite Z.mod_pow2_bits_low by lia.
      destruct (Z.ltb_spec (i - (64 - b)) (64 - b)); [apply andb_true_r|lia].
  - rewrite wrap_bit_high by lia. rewrite Z.mul_pow2_bits by lia.
    rewrite Z.mod_pow2_bits_high by lia. auto.
Qed.

Lemma shr_loop_ok b : 0 < b < 64 -> forall m, limbs64 m ->
  (length m <= 1)%nat \/ b <= 32 ->
  exists r c, sb_shr_loop b m = (r, c) /\ limbs64 r /\ length r = length m /\
    num r = num m / 2 ^ b /\ (b <= 32 -> c = (num m mod 2 ^ b) * 2 ^ (64 - b)).
Proof.
  intros Hb. induction m as [|x m IH]; intros F Hl.
  - exists [], 0. simpl. repeat split; auto; try constructor; intros; rewrite ?Z.mod_0_l; lia.
  - inv F. simpl sb_shr_loop.
    destruct IH as (r & c & E & Fr & Lr & N & C); auto.
    { destruct Hl as [Hl|Hl]; auto. left. simpl in Hl. lia. }
    rewrite E. do 2 eexists. split; [reflexivity|].
    assert (E64 : 2 ^ 64 = 2 ^ b * 2 ^ (64 - b)) by (rewrite <- Z.pow_add_r by lia; f_equal; lia).
    pose proof (pow_pos b ltac:(lia)) as Pb. pose proof (pow_pos (64 - b) ltac:(lia)) as Pc.
    assert (X : 0 <= x / 2 ^ b < 2 ^ (64 - b)).
    { split; [apply Z.div_pos; lia|]. apply Z.div_lt_upper_bound; lia. }
    pose proof (Z.div_mod x (2 ^ b) ltac:(lia)) as Dx.
    pose proof (Z.mod_pos_bound x (2 ^ b) Pb) as Mx.
    pose proof (Z.div_mod (num m) (2 ^ b) ltac:(lia)) as Dm.
    pose proof (Z.mod_pos_bound (num m) (2 ^ b) Pb) as Mm.
    destruct Hl as [Hl|Hl].
    + simpl in Hl. destruct m; [|simpl in Hl; lia]. simpl in E. inv E.
      rewrite Z.lor_0_r, Z.shiftr_div_pow2 by lia. split; [constructor; auto; lia|].
      split; auto. split; [rewrite !num_cons, num_nil, Z.mul_0_r, !Z.add_0_r; auto|].
      intros. rewrite shr_carry by lia. rewrite ?num_cons, ?num_nil. rewrite Z.mul_0_r, Z.add_0_r. auto.
    + assert (R : Z.lor (Z.shiftr x b) c = x / 2 ^ b + (num m mod 2 ^ b) * 2 ^ (64 - b)).
      { rewrite C by auto. rewrite Z.shiftr_div_pow2, Z.lor_comm by lia.
        rewrite lor_disjoint by lia. lia. }
      rewrite R. split; [constructor; auto; nia|]. split; [simpl; lia|]. split.
      * rewrite ?num_cons, ?num_nil. rewrite N. symmetry.
        assert (D : (x + 2 ^ 64 * num m) / 2 ^ b = x / 2 ^ b + 2 ^ (64 - b) * num m).
        { rewrite E64. replace (x + 2 ^ b * 2 ^ (64 - b) * num m)
            with (x + (2 ^ (64 - b) * num m) * 2 ^ b) by lia. apply Z.div_add. lia. }
        rewrite D. rewrite E64. nia.
      * intros. rewrite shr_carry by lia. f_equal. rewrite ?num_cons, ?num_nil.
        rewrite E64. replace (x + 2 ^ b * 2 ^ (64 - b) * num m)
            with (x + (2 ^ (64 - b) * num m) * 2 ^ b) by lia.
        rewrite Z_mod_plus_full. auto.
Qed.

Lemma sb_shr_ok bw m n : sb_wf bw m -> num m < 2 ^ bw -> 0 <= n -> n <= 32 \/ bw <= n \/ bw <= 64 ->
  exists m', sb_shr bw m n = Ok m' /\ sb_wf bw m' /\
    forall i, 0 <= i -> Z.testbit (num m') i = Z.testbit (num m) (i + n).
Proof.
  intros W T Hn Hc. pose proof (sb_wf_len bw m W) as (Lw & Lm). unfold sb_shr.
  destruct (Z.leb_spec bw n).
  - destruct (sb_clear_ok bw m W) as (W' & N). eexists; split; [reflexivity|]. split; auto.
    destruct W as (W0 & W1 & W2). pose proof (num_range m W2).
    intros i Hi. rewrite N, Z.bits_0. rewrite (high_bit bw (num m)) by lia. auto.
  - destruct (Z.eqb_spec n 0) as [->|].
    { eexists; split; [reflexivity|]. split; auto. intros. f_equal. lia. }
    destruct W as (W0 & W1 & W2).
    destruct (Z.ltb_spec n 64); [|lia].
    destruct (shr_loop_ok n ltac:(lia) m) as (r & c & E & F & L & N & _); auto.
    { destruct Hc as [Hc|[Hc|Hc]]; [right; lia|lia|left; lia]. }
    rewrite E. eexists. split; [reflexivity|]. split.
    { split; [auto|]. simpl. rewrite L. auto. }
    intros i Hi. simpl fst. rewrite N. rewrite Z.div_pow2_bits by lia. auto.
Qed.

Lemma sb_shift_64 bw m n : 64 <= n < bw -> sb_shl bw m n = UB /\ sb_shr bw m n = UB.
Proof.
  intros. unfold sb_shl, sb_shr.
  destruct (Z.leb_spec bw n); [lia|]. destruct (Z.ltb_spec n 64); [lia|].
  destruct (Z.eqb_spec n 0); [lia|]. auto.
Qed.

Lemma sb_shl_zero bw m : sb_wf bw m -> sb_shl bw m 0 = UB.
Proof.
  intros (H & L & _). unfold sb_shl. destruct (Z.leb_spec bw 0); [lia|]. simpl.
  destruct m; [simpl in L; lia|reflexivity].
Qed.

Lemma sb_shl_bad : exists bw m n m' i, sb_wf bw m /\ 0 < n < 64 /\ 0 <= i < bw /\ n <= i /\
  sb_shl bw m n = Ok m' /\ Z.testbit (num m') i <> Z.testbit (num m) (i - n).
Proof.
  exists 128, [2 ^ 31; 0], 33, [0; 0], 64. split.
  - repeat split; auto; try lia. repeat constructor; lia.
  - repeat split; try lia. vm_compute. discriminate.
Qed.

Lemma sb_shr_bad : exists bw m n m' i, sb_wf bw m /\ 0 < n < 64 /\ 0 <= i < bw - n /\
  sb_shr bw m n = Ok m' /\ Z.testbit (num m') i <> Z.testbit (num m) (i + n).
Proof.
  exists 128, [0; 2 ^ 32], 33, [0; 0], 63. split.
  - repeat split; auto; try lia. repeat constructor; lia.
  - repeat split; try lia. vm_compute. discriminate.
Qed.

(** * Single bits *)
Lemma sb_index_ok bw m i : sb_wf bw m -> 0 <= i < bw ->
  exists x, nth_error m (sb_index i) = Some x /\ 0 <= x < 2 ^ 64 /\ nth (sb_index i) m 0 = x.
Proof.
  intros (W0 & W1 & W2) Hi. unfold sb_index.
  destruct (nth_error m (Z.to_nat (i / 64))) eqn:E.
  - exists z. split; auto. split; [|apply nth_error_nth; auto].
    rewrite Forall_forall in W2. apply W2. apply nth_error_In in E. auto.
  - apply nth_error_None in E. lia.
Qed.

Lemma sb_bit_value i : 0 <= i -> sb_bit i = i mod 64.
Proof. unfold sb_bit. lia. Qed.

Lemma sb_mask_value i : 0 <= i -> wrap 64 (Z.shiftl (sb_bit i) 1) = 2 * (i mod 64).
Proof. intros. rewrite Z.shiftl_mul_pow2, sb_bit_value by lia. rewrite wrap_id; lia. Qed.

Lemma num_upd_bit m k y j : limbs64 m -> (k < length m)%nat -> 0 <= y < 2 ^ 64 -> 0 <= j ->
  Z.testbit (num (upd m k y)) j =
    if (Z.to_nat (j / 64) =? k)%nat then Z.testbit y (j mod 64) else Z.testbit (num m) j.
Proof.
  intros F L Hy Hj. rewrite !num_bit; auto.
  2:{ apply upd_Forall; auto. }
  rewrite nth_upd by auto. destruct (Nat.eqb_spec (Z.to_nat (j / 64)) k); auto.
Qed.

Lemma sb_set_ok bw m i : sb_wf bw m -> 0 <= i < bw ->
  exists m', sb_set_bit m i = Ok m' /\ sb_wf bw m' /\
    forall j, 0 <= j -> Z.testbit (num m') j = Z.testbit (num m) j || touched i j.
Proof.
  intros W Hi. destruct (sb_index_ok bw m i W Hi) as (x & E & Hx & En).
  unfold sb_set_bit. rewrite (rd_some _ _ _ E). cbn [bind]. rewrite sb_mask_value by lia.
  pose proof (nth_error_some_lt _ _ _ E) as Lt.
  assert (R : 0 <= Z.lor x (2 * (i mod 64)) < 2 ^ 64).
  { assert (0 <= Z.lor x (2 * (i mod 64))) by (apply Z.lor_nonneg; lia). split; auto.
    apply range_of_bits; try lia. intros k Hk. rewrite Z.lor_spec.
    rewrite (high_bit 64 x), (high_bit 64 (2 * (i mod 64))) by lia. auto. }
  rewrite wr_ok by auto. eexists. split; [reflexivity|].
  destruct W as (W0 & W1 & W2). split.
  { split; [auto|]. rewrite upd_length. split; auto. apply upd_Forall; auto. }
  intros j Hj. rewrite num_upd_bit by auto. unfold touched, sb_index in *.
  destruct (Nat.eqb_spec (Z.to_nat (j / 64)) (Z.to_nat (i / 64))), (Z.eqb_spec (j / 64) (i / 64));
    try lia; cbn [andb].
  - rewrite Z.lor_spec, num_bit, e0, En by auto. auto.
  - rewrite orb_false_r. auto.
Qed.

Lemma sb_clear_bit_ok bw m i : sb_wf bw m -> 0 <= i < bw ->
  exists m', sb_clear_bit m i = Ok m' /\ sb_wf bw m' /\
    forall j, 0 <= j -> Z.testbit (num m') j = Z.testbit (num m) j && negb (touched i j).
Proof.
  intros W Hi. destruct (sb_index_ok bw m i W Hi) as (x & E & Hx & En).
  unfold sb_clear_bit. rewrite (rd_some _ _ _ E). cbn [bind]. rewrite sb_mask_value by lia.
  pose proof (nth_error_some_lt _ _ _ E) as Lt.
  assert (R : 0 <= Z.land x (wrap 64 (Z.lnot (2 * (i mod 64)))) < 2 ^ 64).
  { assert (0 <= Z.land x (wrap 64 (Z.lnot (2 * (i mod 64))))) by (apply Z.land_nonneg; lia). split; auto.
    apply range_of_bits; try lia. intros k Hk. rewrite Z.land_spec.
    rewrite (high_bit 64 x) by lia. auto. }
  rewrite wr_ok by auto. eexists. split; [reflexivity|].
  destruct W as (W0 & W1 & W2). split.
  { split; [auto|]. rewrite upd_length. split; auto. apply upd_Forall; auto. }
  intros j Hj. rewrite num_upd_bit by auto. unfold touched, sb_index in *.
  destruct (Nat.eqb_spec (Z.to_nat (j / 64)) (Z.to_nat (i / 64))), (Z.eqb_spec (j / 64) (i / 64));
    try lia; cbn [andb negb].
  - rewrite Z.land_spec, wrap_bit, Z.lnot_spec by lia. rewrite num_bit, e0, En by auto. auto.
  - rewrite andb_true_r. auto.
Qed.

Lemma sb_get_ok bw m i : sb_wf bw m -> 0 <= i < bw ->
  exists b, sb_get_bit m i = Ok b /\
    (b = true <-> exists j, 0 <= j /\ touched i j = true /\ Z.testbit (num m) j = true).
Proof.
  intros W Hi. destruct (sb_index_ok bw m i W Hi) as (x & E & Hx & En).
  unfold sb_get_bit. rewrite (rd_some _ _ _ E). cbn [bind]. rewrite sb_mask_value by lia.
  eexists. split; [reflexivity|]. destruct W as (W0 & W1 & W2).
  rewrite negb_true_iff, Z.eqb_neq. split.
  - intros N. assert (T : exists k, 0 <= k /\ Z.testbit (Z.land x (2 * (i mod 64))) k = true).
    { assert (0 < Z.land x (2 * (i mod 64))).
      { assert (0 <= Z.land x (2 * (i mod 64))) by (apply Z.land_nonneg; lia). lia. }
      exists (Z.log2 (Z.land x (2 * (i mod 64)))). split; [apply Z.log2_nonneg|].
      apply Z.bit_log2. auto. }
    destruct T as (k & Hk & T). rewrite Z.land_spec in T. apply andb_true_iff in T. destruct T as (T1 & T2).
    assert (k < 64).
    { destruct (Z_lt_le_dec k 64); auto. rewrite (high_bit 64 x) in T1 by lia. discriminate. }
    exists (64 * (i / 64) + k). split; [lia|].
    assert (D : (64 * (i / 64) + k) / 64 = i / 64) by lia.
    assert (M : (64 * (i / 64) + k) mod 64 = k) by lia.
    unfold touched. rewrite num_bit, D, M by (auto; lia). unfold sb_index in En. rewrite En.
    rewrite Z.eqb_refl, T2, T1. auto.
  - intros (j & Hj & T & B) Z0. unfold touched in T. apply andb_true_iff in T. destruct T as (T1 & T2).
    apply Z.eqb_eq in T1. rewrite num_bit, T1 in B by auto. unfold sb_index in En. rewrite En in B.
    assert (Z.testbit (Z.land x (2 * (i mod 64))) (j mod 64) = true) by (rewrite Z.land_spec, B, T2; auto).
    rewrite Z0, Z.bits_0 in H. discriminate.
Qed.

(** Indices where the single-bit calls happen to be right. *)
Lemma touched_right i j : 0 <= i -> i mod 64 = 1 \/ i mod 64 = 2 -> 0 <= j ->
  touched i j = (j =? i).
Proof.
  intros Hi H Hj. unfold touched. destruct (Z.eqb_spec (j / 64) (i / 64)).
  - cbn [andb]. destruct H as [H|H]; rewrite H.
    + change (2 * 1) with (2 ^ 1). rewrite Z.pow2_bits_eqb by lia.
      destruct (Z.eqb_spec 1 (j mod 64)), (Z.eqb_spec j i); auto; lia.
    + change (2 * 2) with (2 ^ 2). rewrite Z.pow2_bits_eqb by lia.
      destruct (Z.eqb_spec 2 (j mod 64)), (Z.eqb_spec j i); auto; lia.
  - cbn [andb]. destruct (Z.eqb_spec j i); auto. subst. lia.
Qed.

Lemma sb_set_right bw m i : sb_wf bw m -> 0 <= i < bw -> i mod 64 = 1 \/ i mod 64 = 2 ->
  exists m', sb_set_bit m i = Ok m' /\ sb_wf bw m' /\
    forall j, 0 <= j -> Z.testbit (num m') j = if j =? i then true else Z.testbit (num m) j.
Proof.
  intros W Hi H. destruct (sb_set_ok bw m i W Hi) as (m' & E & W' & B).
  exists m'. repeat split; auto; try apply W'. intros j Hj. rewrite B, touched_right by (auto; lia).
  destruct (j =? i); auto using orb_true_r, orb_false_r.
Qed.

Lemma sb_set_bad : exists bw m i m', sb_wf bw m /\ 0 <= i < bw /\
  sb_set_bit m i = Ok m' /\ Z.testbit (num m') i = false /\ m' <> m.
Proof.
  exists 64, [0], 3, [6]. repeat split; try lia.
  - repeat constructor; lia.
  - discriminate.
Qed.
Lemma sb_clear_bad : exists bw m i m', sb_wf bw m /\ 0 <= i < bw /\
  sb_clear_bit m i = Ok m' /\ Z.testbit (num m') i = true.
Proof.
  exists 64, [1], 0, [1]. repeat split; try lia. repeat constructor; lia.
Qed.
Lemma sb_get_bad : exists bw m i, sb_wf bw m /\ 0 <= i < bw /\
  sb_get_bit m i = Ok false /\ Z.testbit (num m) i = true.
Proof.
  exists 64, [1], 0. repeat split; try lia. repeat constructor; lia.
Qed.

(** * Bitwise operators *)
Lemma zip_ok f bw m1 m2 :
  (forall x y, 0 <= x < 2 ^ 64 -> 0 <= y < 2 ^ 64 ->
     0 <= f x y < 2 ^ 64) ->
  sb_wf bw m1 -> sb_wf bw m2 -> sb_wf bw (sb_zip f m1 m2).
Proof.
  intros Hf (W0 & W1 & W2) (_ & V1 & V2). split; [auto|].
  assert (L : length m1 = length m2) by lia. clear V1.
  rewrite <- W1. clear W1 W0. revert m2 V2 L. induction W2 as [|x m Hx Hm IH]; intros m2 V2 L.
  - simpl. auto.
  - destruct m2 as [|y m2]; [discriminate|]. inv V2. simpl in L.
    destruct (IH m2) as (A & B); auto. simpl sb_zip. split.
    + simpl length. lia.
    + constructor; auto.
Qed.

Lemma zip_bit f g m1 m2 i :
  (forall x y i, 0 <= i -> Z.testbit (f x y) i = g (Z.testbit x i) (Z.testbit y i)) ->
  g false false = false ->
  (forall x y, 0 <= x < 2 ^ 64 -> 0 <= y < 2 ^ 64 -> 0 <= f x y < 2 ^ 64) ->
  limbs64 m1 -> limbs64 m2 -> length m1 = length m2 -> 0 <= i ->
  Z.testbit (num (sb_zip f m1 m2)) i = g (Z.testbit (num m1) i) (Z.testbit (num m2) i).
Proof.
  intros Hf Hg Hr F. revert m2 i. induction F as [|x m Hx Hm IH]; intros m2 i F2 L Hi.
  - destruct m2; [|discriminate]. simpl sb_zip. rewrite num_nil, Z.bits_0. auto.
  - destruct m2 as [|y m2]; [discriminate|]. inv F2. simpl in L. simpl sb_zip.
    rewrite !num_cons_bit by auto. destruct (Z.ltb_spec i 64); auto. apply IH; auto. lia.
Qed.

Lemma lor_range x y : 0 <= x < 2 ^ 64 -> 0 <= y < 2 ^ 64 -> 0 <= Z.lor x y < 2 ^ 64.
Proof.
  intros. assert (0 <= Z.lor x y) by (apply Z.lor_nonneg; lia). split; auto.
  apply range_of_bits; try lia. intros i Hi. rewrite Z.lor_spec, (high_bit 64 x), (high_bit 64 y) by lia. auto.
Qed.
Lemma land_range x y : 0 <= x < 2 ^ 64 -> 0 <= y < 2 ^ 64 -> 0 <= Z.land x y < 2 ^ 64.
Proof.
  intros. assert (0 <= Z.land x y) by (apply Z.land_nonneg; lia). split; auto.
  apply range_of_bits; try lia. intros i Hi. rewrite Z.land_spec, (high_bit 64 x), (high_bit 64 y) by lia. auto.
Qed.
Lemma lxor_range x y : 0 <= x < 2 ^ 64 -> 0 <= y < 2 ^ 64 -> 0 <= Z.lxor x y < 2 ^ 64.
Proof.
  intros. assert (0 <= Z.lxor x y) by (apply Z.lxor_nonneg; lia). split; auto.
  apply range_of_bits; try lia. intros i Hi. rewrite Z.lxor_spec, (high_bit 64 x), (high_bit 64 y) by lia. auto.
Qed.

Lemma sb_bitwise_ok bw m1 m2 : sb_wf bw m1 -> sb_wf bw m2 ->
  sb_wf bw (sb_or m1 m2) /\ sb_wf bw (sb_and m1 m2) /\ sb_wf bw (sb_xor m1 m2) /\
  forall i, 0 <= i ->
    Z.testbit (num (sb_or m1 m2)) i = Z.testbit (num m1) i || Z.testbit (num m2) i /\
    Z.testbit (num (sb_and m1 m2)) i = Z.testbit (num m1) i && Z.testbit (num m2) i /\
    Z.testbit (num (sb_xor m1 m2)) i = xorb (Z.testbit (num m1) i) (Z.testbit (num m2) i).
Proof.
  intros W1 W2.
  split; [apply zip_ok; auto using lor_range|].
  split; [apply zip_ok; auto using land_range|].
  split; [apply zip_ok; auto using lxor_range|].
  destruct W1 as (_ & L1 & F1), W2 as (_ & L2 & F2). assert (length m1 = length m2) by lia.
  intros i Hi. split; [|split].
  - apply (zip_bit Z.lor orb); auto using lor_range. intros; apply Z.lor_spec.
  - apply (zip_bit Z.land andb); auto using land_range. intros; apply Z.land_spec.
  - apply (zip_bit Z.lxor xorb); auto using lxor_range. intros; apply Z.lxor_spec.
Qed.

Lemma num_inj m1 m2 : limbs64 m1 -> limbs64 m2 -> length m1 = length m2 -> num m1 = num m2 -> m1 = m2.
Proof.
  intros F. revert m2. induction F as [|x m Hx Hm IH]; intros m2 F2 L E.
  - destruct m2; [auto|discriminate].
  - destruct m2 as [|y m2]; [discriminate|]. inv F2. rewrite !num_cons in E.
    assert (num m = num m2) by lia. f_equal; [lia|]. apply IH; auto.
Qed.

Lemma sb_eq_list m1 m2 : length m1 = length m2 ->
  (sb_eq m1 m2 = true <-> m1 = m2) /\ sb_ne m1 m2 = negb (sb_eq m1 m2).
Proof.
  revert m2. induction m1 as [|x m1 IH]; intros [|y m2] L; try discriminate.
  - simpl. split; [tauto|auto].
  - simpl in L. destruct (IH m2) as (A & B); [lia|]. simpl.
    destruct (Z.eqb_spec x y); simpl.
    + split; auto. rewrite A. split; [congruence|intros H; inv H; auto].
    + split; auto. split; [discriminate|congruence].
Qed.

Lemma sb_eq_ok bw m1 m2 : sb_wf bw m1 -> sb_wf bw m2 ->
  (sb_eq m1 m2 = true <-> num m1 = num m2) /\ sb_ne m1 m2 = negb (sb_eq m1 m2).
Proof.
  intros (_ & L1 & F1) (_ & L2 & F2). destruct (sb_eq_list m1 m2) as (A & B); [lia|].
  split; auto. rewrite A. split; [congruence|]. apply num_inj; auto. lia.
Qed.

Lemma lnot_limb x : 0 <= x < 2 ^ 64 -> wrap 64 (Z.lnot x) = 2 ^ 64 - 1 - x.
Proof.
  intros. unfold wrap, Z.lnot. replace (Z.pred (- x)) with ((2 ^ 64 - 1 - x) + (-1) * 2 ^ 64) by lia.
  rewrite Z_mod_plus_full. apply Z.mod_small. lia.
Qed.

Lemma sb_not_ok bw m : sb_wf bw m ->
  sb_wf bw (sb_not m) /\ num (sb_not m) = 2 ^ (64 * Z.of_nat (length m)) - 1 - num m.
Proof.
  intros (W0 & W1 & F). split.
  - split; auto. unfold sb_not. rewrite map_length. split; auto.
    apply Forall_map. eapply Forall_impl; [|exact F]. intros x Hx. simpl in Hx. cbv beta.
    rewrite lnot_limb by auto. lia.
  - clear W0 W1. unfold sb_not. induction F as [|x m Hx Hm IH]; [reflexivity|].
    simpl map. rewrite !num_cons, IH, lnot_limb by auto. simpl length.
    replace (64 * Z.of_nat (S (length m))) with (64 + 64 * Z.of_nat (length m)) by lia.
    rewrite Z.pow_add_r by lia. set (P := 2 ^ (64 * Z.of_nat (length m))). lia.
Qed.

Lemma sb_not_bits bw m i : sb_wf bw m -> 0 <= i < bw ->
  Z.testbit (num (sb_not m)) i = negb (Z.testbit (num m) i).
Proof.
  intros W Hi. pose proof (sb_wf_len bw m W) as (L & _).
  destruct (sb_not_ok bw m W) as (W' & E). destruct W as (W0 & W1 & F).
  rewrite E. replace (2 ^ (64 * Z.of_nat (length m)) - 1 - num m)
    with (Z.lnot (num m) + 1 * 2 ^ (64 * Z.of_nat (length m))) by (unfold Z.lnot; lia).
  rewrite <- (Z.mod_pow2_bits_low _ (64 * Z.of_nat (length m))) by lia.
  rewrite Z_mod_plus_full, Z.mod_pow2_bits_low by lia. apply Z.lnot_spec. lia.
Qed.

Lemma sb_not_bad : exists bw m1 m2, sb_wf bw m1 /\ sb_wf bw m2 /\
  (forall i, 0 <= i < bw -> Z.testbit (num m2) i = negb (Z.testbit (num m1) i)) /\
  num m2 < 2 ^ bw /\ sb_eq (sb_not m1) m2 = false.
Proof.
  exists 1, [1], [0]. repeat split; try lia; try (repeat constructor; lia).
  intros i Hi. assert (i = 0) as -> by lia. reflexivity.
Qed.

(** * Construction from integers *)
Lemma rd_last (l : list Z) x : rd (l ++ [x]) (length (l ++ [x]) - 1) = Ok x.
Proof.
  unfold rd. rewrite app_length. simpl. replace (length l + 1 - 1)%nat with (length l) by lia.
  rewrite nth_error_app2, Nat.sub_diag by lia. reflexivity.
Qed.
Lemma upd_last (l : list Z) x y : upd (l ++ [x]) (length (l ++ [x]) - 1) y = l ++ [y].
Proof.
  rewrite app_length. simpl. replace (length l + 1 - 1)%nat with (length l) by lia.
  induction l; simpl; auto. f_equal; auto.
Qed.

Lemma sb_of_list bw (l : list Z) x : sb_limbs bw = S (length l) ->
  sb_of bw (l ++ [x]) = Ok (l ++ [Z.land x (sb_diff_mask bw)]).
Proof.
  intros L. unfold sb_of. cbv zeta.
  replace (sb_limbs bw - length (l ++ [x]))%nat with 0%nat by (rewrite app_length; simpl; lia).
  simpl repeat. rewrite app_nil_r.
  rewrite rd_last. cbn [bind]. rewrite wr_ok by (rewrite app_length; simpl; lia).
  rewrite upd_last. auto.
Qed.

Lemma num_app l1 l2 : num (l1 ++ l2) = num l1 + 2 ^ (64 * Z.of_nat (length l1)) * num l2.
Proof.
  induction l1 as [|x l1 IH].
  - simpl app. simpl length. change (2 ^ (64 * Z.of_nat 0)) with 1. rewrite num_nil. lia.
  - simpl app. rewrite !num_cons, IH. simpl length.
    replace (64 * Z.of_nat (S (length l1))) with (64 + 64 * Z.of_nat (length l1)) by lia.
    rewrite Z.pow_add_r by lia. lia.
Qed.

Lemma diff_mask_narrow bw : 0 < bw < 64 -> sb_diff_mask bw = 2 ^ bw - 1.
Proof.
  intros. unfold sb_diff_mask. cbv zeta.
  destruct (Z.ltb_spec 64 bw); [lia|]. destruct (Z.ltb_spec bw 64); [|lia].
  destruct (Z.eqb_spec (64 - bw) 0); [lia|]. rewrite mask_msb_value by lia.
  destruct (Z.leb_spec 64 (64 - bw)); [lia|]. do 2 f_equal. lia.
Qed.
Lemma diff_mask_whole bw : 64 < bw -> bw mod 64 = 0 -> sb_diff_mask bw = 2 ^ 64 - 1.
Proof.
  intros A B. unfold sb_diff_mask. cbv zeta.
  destruct (Z.ltb_spec 64 bw); [|lia]. rewrite B. reflexivity.
Qed.

(** All limbs given: right for widths below 64 and for larger multiples of 64. *)
Lemma sb_of_ok bw values : 0 < bw < 64 \/ (64 < bw /\ bw mod 64 = 0) ->
  Z.of_nat (length values) = (bw + 63) / 64 -> limbs64 values ->
  exists m, sb_of bw values = Ok m /\ sb_wf bw m /\ num m = num values mod 2 ^ bw.
Proof.
  intros Hb L F. assert (L0 : values <> []) by (destruct values; [simpl in L; lia|discriminate]).
  destruct (exists_last L0) as (l & x & ->). rewrite app_length in L. simpl in L.
  apply Forall_app in F. destruct F as (F & Fx). inv Fx.
  assert (B0 : 0 < bw) by lia. pose proof (limbs_of bw B0) as LB.
  rewrite sb_of_list by lia. eexists. split; [reflexivity|].
  pose proof (num_range l F) as NR.
  destruct Hb as [Hb|(Hb & Hm)].
  - rewrite diff_mask_narrow, land_low by lia. destruct l; [|simpl in L; lia]. simpl app.
    pose proof (Z.mod_pos_bound x (2 ^ bw) (pow_pos bw ltac:(lia))).
    assert (2 ^ bw <= 2 ^ 64) by (apply Z.pow_le_mono_r; lia).
    split; [split; [auto|split; [simpl; lia|repeat constructor; lia]]|].
    rewrite !num_cons, num_nil, Z.mul_0_r, !Z.add_0_r. auto.
  - rewrite diff_mask_whole, land_low, Z.mod_small by lia.
    assert (E : bw = 64 * Z.of_nat (length (l ++ [x]))) by (rewrite app_length; simpl; lia).
    assert (F' : limbs64 (l ++ [x])) by (apply Forall_app; auto).
    split; [split; [auto|split; [rewrite app_length; simpl; lia|exact F']]|].
    symmetry. apply Z.mod_small. rewrite E. apply num_range; auto.
Qed.

Lemma sb_of_64_zero x : 0 <= x < 2 ^ 64 -> sb_of 64 [x] = Ok [0].
Proof.
  intros. change [x] with ([] ++ [x]). rewrite sb_of_list by reflexivity. simpl app.
  change (sb_diff_mask 64) with 0. rewrite Z.land_0_r. auto.
Qed.

Lemma sb_of_bad : exists bw values m, 64 < bw /\ limbs64 values /\
  Z.of_nat (length values) = (bw + 63) / 64 /\ num values < 2 ^ bw /\
  sb_of bw values = Ok m /\ num m <> num values.
Proof.
  exists 127, [0; 2], [0; 0]. repeat split; try lia; try (repeat constructor; lia).
  vm_compute. discriminate.
Qed.

(** * Construction from a string *)
Lemma string_bits_app a b : string_bits (a ++ b) = string_bits a ++ string_bits b.
Proof. apply map_app. Qed.
Lemma string_bits_length a : length (string_bits a) = length a.
Proof. apply map_length. Qed.

(** One limb takes the last (at most 64) characters; [k] have been taken. *)
Lemma parse_limb_ok n : forall rs cur tmp k, binary_string rs ->
  (k + n <= 64)%nat -> cur = 2 ^ Z.of_nat k -> 0 <= tmp < 2 ^ Z.of_nat k ->
  sb_parse_limb n rs (wrap 64 cur) tmp =
    Ok (tmp + 2 ^ Z.of_nat k * val (string_bits (rev (firstn n rs))), skipn n rs).
Proof.
  induction n as [|n IH]; intros rs cur tmp k B Hk Hc Ht.
  - simpl. rewrite Z.mul_0_r, Z.add_0_r. auto.
  - destruct rs as [|c rs]; simpl sb_parse_limb.
    + simpl. rewrite Z.mul_0_r, Z.add_0_r. auto.
    + assert (Bc : c = 48 \/ c = 49) by (apply B; left; auto).
      assert (Br : binary_string rs) by (intros d I; apply B; right; auto).
      pose proof (pow_pos (Z.of_nat k) ltac:(lia)) as Pk.
      assert (P1 : 2 ^ Z.of_nat (S k) = 2 * 2 ^ Z.of_nat k) by (rewrite Nat2Z.inj_succ, Z.pow_succ_r; lia).
      assert (W : wrap 64 cur = cur).
      { apply wrap_id. subst. split; [lia|]. apply Z.pow_lt_mono_r; lia. }
      assert (E : (if c =? 49 then Ok (Z.lor tmp (wrap 64 cur)) else if c =? 48 then Ok tmp else Throw)
                  = Ok (tmp + 2 ^ Z.of_nat k * (if c =? 49 then 1 else 0))).
      { destruct Bc as [-> | ->]; cbn [Z.eqb Pos.eqb].
        - rewrite Z.mul_0_r, Z.add_0_r. auto.
        - rewrite W, Hc, Z.lor_comm. rewrite <- (Z.mul_1_l (2 ^ Z.of_nat k)) at 1.
          rewrite lor_disjoint by lia. f_equal. lia. }
      rewrite E. cbn [bind]. rewrite W, Hc.
      rewrite (IH rs (2 ^ Z.of_nat k * 2) _ (S k)); auto; try lia.
      2:{ destruct (c =? 49); lia. }
      simpl firstn. simpl skipn. simpl rev. f_equal. f_equal.
      rewrite string_bits_app, val_app. simpl string_bits. rewrite P1.
      change (length [c =? 49]) with 1%nat. change (2 ^ Z.of_nat 1) with 2.
      simpl val. change (2 ^ Z.of_nat 0) with 1.
      destruct (c =? 49); lia.
Qed.

Lemma parse_limb_bad n : forall rs cur tmp, (exists c, In c (firstn n rs) /\ c <> 48 /\ c <> 49) ->
  sb_parse_limb n rs cur tmp = Throw.
Proof.
  induction n as [|n IH]; intros rs cur tmp (c & I & N); [destruct I|].
  destruct rs as [|d rs]; [destruct I|]. simpl sb_parse_limb. destruct I as [-> | I].
  - destruct (Z.eqb_spec c 49); [tauto|]. destruct (Z.eqb_spec c 48); [tauto|]. auto.
  - destruct (d =? 49); [|destruct (d =? 48); [|auto]]; cbn [bind]; apply IH; eauto.
Qed.

Lemma parse_limb_rest n : forall rs cur tmp t rest,
  sb_parse_limb n rs cur tmp = Ok (t, rest) -> rest = skipn n rs.
Proof.
  induction n as [|n IH]; intros rs cur tmp t rest E; simpl in *.
  - inv E. auto.
  - destruct rs as [|x rs]; [inv E; auto|].
    destruct (x =? 49); [|destruct (x =? 48); [|discriminate]]; cbn [bind] in E; eapply IH; eauto.
Qed.

Lemma upd_app_mid (a b : list Z) x y : upd (a ++ x :: b) (length a) y = a ++ y :: b.
Proof. induction a; simpl; auto. f_equal; auto. Qed.

Lemma parse_limbs_ok k : forall rs done, binary_string rs ->
  (length rs <= 64 * k)%nat -> limbs64 done ->
  exists m, sb_parse_limbs k rs (length done) (done ++ repeat 0 k) = Ok (done ++ m) /\
    length m = k /\ limbs64 m /\ num m = val (string_bits (rev rs)).
Proof.
  induction k as [|k IH]; intros rs done B L D.
  - simpl. exists []. assert (rs = []) as -> by (destruct rs; simpl in L; [auto|lia]).
    repeat split; auto; constructor.
  - cbn [sb_parse_limbs]. destruct rs as [|c rs'].
    + exists (repeat 0 (S k)). split; [reflexivity|]. rewrite repeat_length.
      split; [auto|]. split; [apply repeat_zero_limbs|]. rewrite num_repeat. reflexivity.
    + set (rs := c :: rs') in *.
      assert (E : sb_parse_limb 64 rs 1 0 = Ok (val (string_bits (rev (firstn 64 rs))), skipn 64 rs)).
      { change 1 with (wrap 64 1). rewrite (parse_limb_ok 64 rs 1 0 0%nat); auto; try lia.
        change (2 ^ Z.of_nat 0) with 1. do 2 f_equal. lia. }
      rewrite E. cbn [bind]. set (t := val (string_bits (rev (firstn 64 rs)))).
      assert (Rt : 0 <= t < 2 ^ 64).
      { unfold t. pose proof (val_range (string_bits (rev (firstn 64 rs)))) as R.
        rewrite string_bits_length, rev_length, firstn_length in R.
        assert (2 ^ Z.of_nat (Nat.min 64 (length rs)) <= 2 ^ 64) by (apply Z.pow_le_mono_r; lia). lia. }
      change (repeat 0 (S k)) with (0 :: repeat 0 k).
      rewrite wr_ok by (rewrite app_length; simpl; lia). cbn [bind].
      rewrite upd_app_mid.
      replace (done ++ t :: repeat 0 k) with ((done ++ [t]) ++ repeat 0 k) by (rewrite <- app_assoc; auto).
      replace (S (length done)) with (length (done ++ [t])) by (rewrite app_length; simpl; lia).
      destruct (IH (skipn 64 rs) (done ++ [t])) as (m & Em & Lm & Fm & Nm).
      { intros d I. apply B. rewrite <- (firstn_skipn 64 rs). apply in_or_app. auto. }
      { rewrite skipn_length. lia. }
      { apply Forall_app. split; auto. }
      exists (t :: m). rewrite Em, <- app_assoc. split; [reflexivity|].
      split; [simpl; lia|]. split; [constructor; auto|]. rewrite num_cons, Nm.
      rewrite <- (firstn_skipn 64 rs) at 2. rewrite rev_app_distr, string_bits_app, val_app.
      fold t. rewrite string_bits_length, rev_length, firstn_length.
      destruct (Nat.le_gt_cases 64 (length rs)).
      * rewrite Nat.min_l by auto. change (Z.of_nat 64) with 64. lia.
      * rewrite skipn_all2 by lia. simpl. lia.
Qed.

Lemma sb_of_string_ok bw str : 0 < bw -> Z.of_nat (length str) <= bw -> binary_string str ->
  exists m, sb_of_string bw str = Ok m /\ sb_wf bw m /\ num m = val (string_bits str).
Proof.
  intros Hb L B. unfold sb_of_string. destruct (Z.leb_spec (Z.of_nat (length str)) bw); [|lia].
  pose proof (limbs_of bw Hb) as LB.
  destruct (parse_limbs_ok (sb_limbs bw) (rev str) []) as (m & E & Lm & Fm & N).
  - intros c I. apply B. apply in_rev; auto.
  - rewrite rev_length. lia.
  - constructor.
  - simpl in E. unfold sb_zero. rewrite E. exists m. split; auto.
    rewrite rev_involutive in N. split; auto. split; [auto|]. split; [lia|auto].
Qed.

Lemma parse_limbs_bad k : forall rs i m, (length rs <= 64 * k)%nat -> (i + k <= length m)%nat ->
  (exists c, In c rs /\ c <> 48 /\ c <> 49) -> sb_parse_limbs k rs i m = Throw.
Proof.
  induction k as [|k IH]; intros rs i m L Lm (c & I & N).
  - destruct rs; [destruct I|simpl in L; lia].
  - cbn [sb_parse_limbs]. destruct rs as [|d rs']; [destruct I|]. set (rs := d :: rs') in *.
    destruct (sb_parse_limb 64 rs 1 0) as [[t rest]| | |] eqn:E.
    + cbn [bind]. rewrite wr_ok by lia. cbn [bind].
      assert (NB : ~ exists c, In c (firstn 64 rs) /\ c <> 48 /\ c <> 49).
      { intros H. rewrite (parse_limb_bad 64 rs 1 0 H) in E. discriminate. }
      assert (R : rest = skipn 64 rs).
      { eapply parse_limb_rest; eauto. }
      subst rest. apply IH.
      * rewrite skipn_length. lia.
      * rewrite upd_length. lia.
      * exists c. split; auto. rewrite <- (firstn_skipn 64 rs) in I. apply in_app_or in I.
        destruct I as [I|I]; auto. exfalso; eauto.
    + exfalso. assert (H : forall n rs cur tmp, sb_parse_limb n rs cur tmp <> UB).
      { clear. induction n as [|n IHn]; intros rs cur tmp; simpl; [discriminate|].
        destruct rs as [|x rs]; [discriminate|].
        destruct (x =? 49); [|destruct (x =? 48); [|discriminate]]; cbn [bind]; auto. }
      apply (H _ _ _ _ E).
    + reflexivity.
    + exfalso. assert (H : forall n rs cur tmp, sb_parse_limb n rs cur tmp <> OutOfFuel).
      { clear. induction n as [|n IHn]; intros rs cur tmp; simpl; [discriminate|].
        destruct rs as [|x rs]; [discriminate|].
        destruct (x =? 49); [|destruct (x =? 48); [|discriminate]]; cbn [bind]; auto. }
      apply (H _ _ _ _ E).
Qed.

Lemma sb_of_string_throws bw str : 0 < bw ->
  Z.of_nat (length str) > bw \/ ~ binary_string str -> sb_of_string bw str = Throw.
Proof.
  intros Hb H. unfold sb_of_string. destruct (Z.leb_spec (Z.of_nat (length str)) bw); [|auto].
  destruct H as [H|H]; [lia|]. pose proof (limbs_of bw Hb).
  apply parse_limbs_bad.
  - rewrite rev_length. lia.
  - unfold sb_zero. rewrite repeat_length. lia.
  - destruct (Exists_dec (fun c => c <> 48 /\ c <> 49) str) as [E|E].
    { intros x. destruct (Z.eq_dec x 48), (Z.eq_dec x 49); auto; right; tauto. }
    + apply Exists_exists in E. destruct E as (c & I & N). exists c. split; auto. apply -> in_rev. auto.
    + exfalso. apply H. intros c I. destruct (Z.eq_dec c 48), (Z.eq_dec c 49); auto.
      exfalso. apply E. apply Exists_exists. eauto.
Qed.

(** * Hexadecimal output *)
Lemma nibble_ok v : 0 <= v < 16 -> nibble_to_ascii v = nth (Z.to_nat v) hex_digits 0.
Proof.
  intros. assert (H' : v = 0 \/ v = 1 \/ v = 2 \/ v = 3 \/ v = 4 \/ v = 5 \/ v = 6 \/ v = 7 \/ v = 8 \/
    v = 9 \/ v = 10 \/ v = 11 \/ v = 12 \/ v = 13 \/ v = 14 \/ v = 15) by lia.
  repeat (destruct H' as [-> | H']; [reflexivity|]). subst. reflexivity.
Qed.

Lemma low_nibble_ok v : 0 <= v < 256 -> low_nibble v = nth (Z.to_nat (v mod 16)) hex_digits 0.
Proof.
  intros. unfold low_nibble. change 0x0F with (2 ^ 4 - 1). rewrite land_low by lia.
  change (2 ^ 4) with 16. apply nibble_ok. lia.
Qed.
Lemma high_nibble_ok v : 0 <= v < 256 -> high_nibble v = nth (Z.to_nat (v / 16)) hex_digits 0.
Proof.
  intros. unfold high_nibble. rewrite <- nibble_ok by lia. f_equal.
  apply Z.bits_inj'. intros i Hi. rewrite Z.shiftr_spec, Z.land_spec by lia.
  change 16 with (2 ^ 4). rewrite Z.div_pow2_bits by lia.
  destruct (Z_lt_le_dec (i + 4) 8).
  - replace (Z.testbit 0xF0 (i + 4)) with true; [apply andb_true_r|].
    assert (i = 0 \/ i = 1 \/ i = 2 \/ i = 3) as [-> | [-> | [-> | ->]]] by lia; reflexivity.
  - rewrite (high_bit 8 v) by lia. auto.
Qed.

(** The hexadecimal string of [v] with [n] digits. *)
Fixpoint hex_string (n : nat) (v : Z) : list Z :=
  match n with
  | O => []
  | S n => hex_string n (v / 16) ++ [nth (Z.to_nat (v mod 16)) hex_digits 0]
  end.
Lemma hex_string_length n v : length (hex_string n v) = n.
Proof. revert v. induction n; intros; simpl; auto. rewrite app_length, IHn. simpl. lia. Qed.
Lemma hex_string_zero n : hex_string n 0 = repeat 48 n.
Proof.
  induction n as [|n IH]; auto. simpl hex_string. change (0 / 16) with 0. rewrite IH.
  change (nth (Z.to_nat (0 mod 16)) hex_digits 0) with 48. clear IH.
  change [48] with (repeat 48 1). rewrite <- repeat_app. f_equal. lia.
Qed.
Lemma hex_string_app n1 n2 v : 0 <= v ->
  hex_string (n1 + n2) v = hex_string n1 (v / 16 ^ Z.of_nat n2) ++ hex_string n2 v.
Proof.
  revert v. induction n2 as [|n2 IH]; intros v Hv.
  - rewrite Nat.add_0_r. simpl hex_string. rewrite app_nil_r. change (16 ^ Z.of_nat 0) with 1.
    rewrite Z.div_1_r. auto.
  - rewrite Nat.add_succ_r. simpl hex_string. rewrite IH by lia.
    rewrite Nat2Z.inj_succ, Z.pow_succ_r by lia. rewrite Z.div_div by lia. rewrite app_assoc. auto.
Qed.
Lemma hex_string_mod n v : 0 <= v -> hex_string n (v mod 16 ^ Z.of_nat n) = hex_string n v.
Proof.
  revert v. induction n as [|n IH]; intros v Hv; auto. simpl hex_string.
  rewrite Nat2Z.inj_succ, Z.pow_succ_r by lia.
  pose proof (Z.pow_pos_nonneg 16 (Z.of_nat n) ltac:(lia) ltac:(lia)) as P.
  rewrite Z.rem_mul_r by lia. set (q := (v / 16) mod 16 ^ Z.of_nat n).
  replace ((v mod 16 + 16 * q) / 16) with q by lia.
  replace ((v mod 16 + 16 * q) mod 16) with (v mod 16) by lia.
  unfold q. rewrite IH by lia. auto.
Qed.

Lemma wr_app_mid (a b : list Z) x y : wr (a ++ x :: b) (length a) y = Ok (a ++ y :: b).
Proof. rewrite wr_ok by (rewrite app_length; simpl; lia). rewrite upd_app_mid. auto. Qed.

(** Writing [n] bytes backwards: the buffer's free part [free] loses its last 2n
    characters. *)
Lemma hex_bytes_ok n : forall v free tail, 0 <= v -> (2 * n <= length free)%nat ->
  Z.of_nat (length free) < 2 ^ 64 ->
  sb_hex_bytes n v (sz (Z.of_nat (length free) - 1)) (free ++ tail) =
    Ok (sz (Z.of_nat (length free) - 1 - 2 * Z.of_nat n),
        firstn (length free - 2 * n) free ++ hex_string (2 * n) v ++ tail).
Proof.
  induction n as [|n IH]; intros v free tail Hv L B.
  - simpl. rewrite Nat.sub_0_r, firstn_all, Z.sub_0_r. auto.
  - destruct (exists_last (l := free)) as (f1 & y & ->). { intros ->; simpl in L; lia. }
    rewrite app_length in *. simpl length in *.
    destruct (exists_last (l := f1)) as (f2 & x & ->). { intros ->; simpl in L; lia. }
    rewrite app_length in *. simpl length in *.
    simpl sb_hex_bytes.
    assert (EV : wrap 8 (Z.land v 255) = v mod 256).
    { change 255 with (2 ^ 8 - 1). rewrite land_low by lia. apply wrap_id. change (2 ^ 8) with 256. lia. }
    rewrite EV.
    replace (Z.to_nat (sz (Z.of_nat (length f2 + 1 + 1) - 1))) with (length (f2 ++ [x]))
      by (rewrite sz_small, app_length by lia; simpl length; lia).
    replace (((f2 ++ [x]) ++ [y]) ++ tail) with ((f2 ++ [x]) ++ y :: tail) by exact (app_assoc (f2 ++ [x]) [y] tail).
    rewrite wr_app_mid. cbn [bind].
    replace (Z.to_nat (sz (sz (Z.of_nat (length f2 + 1 + 1) - 1) - 1))) with (length f2).
    2:{ rewrite (sz_small (Z.of_nat (length f2 + 1 + 1) - 1)) by lia. rewrite sz_small by lia. lia. }
    rewrite <- (app_assoc f2 [x]). simpl app at 2. rewrite wr_app_mid. cbn [bind].
    replace (sz (sz (Z.of_nat (length f2 + 1 + 1) - 1) - 2)) with (sz (Z.of_nat (length f2) - 1)).
    2:{ rewrite (sz_small (Z.of_nat (length f2 + 1 + 1) - 1)) by lia. f_equal. lia. }
    rewrite Z.shiftr_div_pow2 by lia. change (2 ^ 8) with 256.
    rewrite IH by lia.
    f_equal. f_equal.
    + f_equal. lia.
    + rewrite low_nibble_ok, high_nibble_ok by lia.
      replace (2 * S n)%nat with (S (S (2 * n))) by lia. simpl hex_string.
      replace (v mod 256 / 16) with ((v / 16) mod 16) by lia.
      replace ((v mod 256) mod 16) with (v mod 16) by lia.
      replace (v / 16 / 16) with (v / 256) by lia.
      replace (length f2 + 1 + 1 - S (S (2 * n)))%nat with (length f2 - 2 * n)%nat by lia.
      rewrite <- !app_assoc. rewrite (firstn_app (length f2 - 2 * n) f2).
      replace (length f2 - 2 * n - length f2)%nat with 0%nat by lia. simpl firstn at 3.
      rewrite app_nil_r. reflexivity.
Qed.

Lemma hex_loop_cons x m pos out : sb_hex_loop (x :: m) pos out =
  if x =? 0 then sb_hex_loop m (sz (pos - 16)) out
  else ' (pos, out) <- sb_hex_bytes 8 x pos out ;; sb_hex_loop m pos out.
Proof. reflexivity. Qed.

Lemma hex_loop_ok m : forall free tail, limbs64 m -> length free = (16 * length m)%nat ->
  free = repeat 48 (16 * length m) ->
  Z.of_nat (length free) < 2 ^ 64 ->
  sb_hex_loop m (sz (Z.of_nat (length free) - 1)) (free ++ tail) =
    Ok (hex_string (16 * length m) (num m) ++ tail).
Proof.
  induction m as [|x m IH]; intros free tail F L R B.
  - simpl in *. subst. reflexivity.
  - inv F. rewrite hex_loop_cons. pose proof (num_range m H2) as NR.
    assert (S16 : (16 * length (x :: m) = 16 * length m + 16)%nat) by (simpl; lia).
    rewrite S16 in *. rewrite repeat_length in *.
    assert (EH : hex_string (16 * length m + 16) (num (x :: m)) =
                 hex_string (16 * length m) (num m) ++ hex_string 16 x).
    { rewrite hex_string_app by (rewrite num_cons; lia). change (16 ^ Z.of_nat 16) with (2 ^ 64).
      f_equal.
      - f_equal. rewrite num_cons. lia.
      - rewrite <- (hex_string_mod 16 (num (x :: m))) by (rewrite num_cons; lia).
        change (16 ^ Z.of_nat 16) with (2 ^ 64). f_equal. rewrite num_cons. lia. }
    rewrite EH.
    assert (P : sz (sz (Z.of_nat (16 * length m + 16) - 1) - 16) = sz (Z.of_nat (16 * length m) - 1)).
    { rewrite (sz_small (Z.of_nat (16 * length m + 16) - 1)) by lia. f_equal. lia. }
    rewrite repeat_app, <- !app_assoc.
    destruct (Z.eqb_spec x 0) as [-> |].
    + rewrite P, hex_string_zero.
      pose proof (IH (repeat 48 (16 * length m)) (repeat 48 16 ++ tail)) as I.
      rewrite repeat_length in I. rewrite I; auto. lia.
    + pose proof (hex_bytes_ok 8 x (repeat 48 (16 * length m) ++ repeat 48 16) tail) as HB.
      rewrite app_length, !repeat_length, <- app_assoc in HB.
      rewrite HB by lia. clear HB. cbn [bind].
      change (2 * 8)%nat with 16%nat.
      replace (16 * length m + 16 - 16)%nat with (16 * length m)%nat by lia.
      rewrite firstn_app, repeat_length, Nat.sub_diag. simpl (firstn 0 _).
      rewrite app_nil_r, firstn_all2 by (rewrite repeat_length; lia).
      replace (sz (Z.of_nat (16 * length m + 16) - 1 - 2 * Z.of_nat 8)) with (sz (Z.of_nat (16 * length m) - 1))
        by (f_equal; lia).
      pose proof (IH (repeat 48 (16 * length m)) (hex_string 16 x ++ tail)) as I.
      rewrite repeat_length in I. rewrite I; auto. lia.
Qed.

Lemma sb_to_hex_ok m : limbs64 m -> 16 * Z.of_nat (length m) < 2 ^ 64 ->
  sb_to_hex m = Ok (hex_string (16 * length m) (num m)).
Proof.
  intros F B. unfold sb_to_hex. cbv zeta.
  replace (Z.to_nat (Z.of_nat (length m) * 16)) with (16 * length m)%nat by lia.
  pose proof (hex_loop_ok m (repeat 48 (16 * length m)) [] F) as H.
  rewrite repeat_length, app_nil_r in H.
  replace (Z.of_nat (length m) * 16) with (Z.of_nat (16 * length m)) by lia.
  rewrite H by (auto; lia). rewrite app_nil_r. auto.
Qed.

Lemma hex_string_nth n v k : 0 <= v -> (k < n)%nat ->
  nth (n - 1 - k) (hex_string n v) 0 = nth (Z.to_nat ((v / 16 ^ Z.of_nat k) mod 16)) hex_digits 0.
Proof.
  revert v k. induction n as [|n IH]; intros v k Hv Hk; [lia|]. simpl hex_string.
  destruct k as [|k].
  - rewrite app_nth2; rewrite hex_string_length; [|lia].
    replace (S n - 1 - 0 - n)%nat with 0%nat by lia. change (16 ^ Z.of_nat 0) with 1.
    rewrite Z.div_1_r. reflexivity.
  - rewrite app_nth1 by (rewrite hex_string_length; lia).
    replace (S n - 1 - S k)%nat with (n - 1 - k)%nat by lia.
    rewrite IH by lia. rewrite Nat2Z.inj_succ, Z.pow_succ_r by lia. rewrite Z.div_div by lia. auto.
Qed.

Lemma sb_to_hex_digits bw m : sb_wf bw m -> bw < 2 ^ 60 ->
  exists str, sb_to_hex m = Ok str /\ length str = (16 * length m)%nat /\
    forall k, (k < length str)%nat ->
      nth (length str - 1 - k) str 0 = nth (Z.to_nat ((num m / 16 ^ Z.of_nat k) mod 16)) hex_digits 0.
Proof.
  intros (W0 & W1 & W2) B. exists (hex_string (16 * length m) (num m)).
  split; [apply sb_to_hex_ok; auto; lia|]. rewrite hex_string_length. split; auto.
  intros k Hk. apply hex_string_nth; auto. apply num_range; auto.
Qed.

Lemma sb_of_pad bw values : (length values <= sb_limbs bw)%nat ->
  sb_of bw values = sb_of bw (values ++ repeat 0 (sb_limbs bw - length values)).
Proof.
  intros L. unfold sb_of. cbv zeta.
  replace (sb_limbs bw - length (values ++ repeat 0%Z (sb_limbs bw - length values)))%nat with 0%nat
    by (rewrite app_length, repeat_length; lia).
  change (repeat 0 0) with (@nil Z). rewrite (app_nil_r (values ++ _)). reflexivity.
Qed.

Lemma sb_of_ok_short bw values : 0 < bw < 64 \/ (64 < bw /\ bw mod 64 = 0) ->
  Z.of_nat (length values) <= (bw + 63) / 64 -> Forall (fun x => 0 <= x < 2 ^ 64) values ->
  exists m, sb_of bw values = Ok m /\ sb_wf bw m /\ num m = num values mod 2 ^ bw.
Proof.
  intros Hb L F. pose proof (limbs_of bw ltac:(lia)) as LB. rewrite sb_of_pad by lia.
  destruct (sb_of_ok bw (values ++ repeat 0 (sb_limbs bw - length values))) as (m & E & W & N); auto.
  - rewrite app_length, repeat_length. lia.
  - apply Forall_app. split; auto. apply repeat_zero_limbs.
  - exists m. split; [exact E|]. split; [exact W|]. rewrite N, num_app, num_repeat, Z.mul_0_r, Z.add_0_r. auto.
Qed.
