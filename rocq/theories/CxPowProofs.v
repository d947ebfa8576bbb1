(** Proofs about daw_cxmath.h: integer powers and floating point bit patterns. *)
From Coq Require Import ZifyBool.
From Verif Require Import Common Ints Math CxMath SpecBits SpecMath BitsProofs MathProofs CxMathProofs.
Open Scope Z_scope.
Local Arguments Z.mul : simpl never.
Local Arguments Z.add : simpl never.
Local Arguments Z.sub : simpl never.
Local Arguments Z.pow : simpl never.
Local Arguments Z.of_nat : simpl never.

(** * pow_n *)
Lemma half_split n : 0 <= n -> n = 2 * Z.shiftr n 1 + (if Z.odd n then 1 else 0) /\ 0 <= Z.shiftr n 1.
Proof.
  intros N. rewrite <- Z.div2_spec. split; [|apply Z.div2_nonneg; auto].
  rewrite (Z.div2_odd n) at 1. destruct (Z.odd n); reflexivity.
Qed.

Lemma sqr_pow p m : 0 <= m -> (p * p) ^ m = p ^ (2 * m).
Proof. intros. rewrite Z.pow_mul_r by lia. f_equal. lia. Qed.

Lemma pow_halves p n m : 0 <= m -> n = 2 * m + (if Z.odd n then 1 else 0) ->
  p ^ n = (p * p) ^ m * (if Z.odd n then p else 1).
Proof.
  intros M E. rewrite sqr_pow by auto. destruct (Z.odd n).
  - rewrite E, Z.pow_add_r, Z.pow_1_r by lia. reflexivity.
  - rewrite E, Z.add_0_r. ring.
Qed.

Lemma pow_n_loop_unsigned T : signed T = false -> 32 <= width T ->
  forall fuel r p n, 0 <= n < 2 ^ Z.of_nat fuel -> (0 < fuel)%nat ->
  pow_n_loop T fuel (wrap (width T) r) (wrap (width T) p) n = Ok (wrap (width T) (r * p ^ n)).
Proof.
  intros Hs W. pose proof (pow_pos (width T)) as PP.
  assert (MW : forall a b, wrap (width T) (wrap (width T) a * wrap (width T) b) = wrap (width T) (a * b)).
  { intros. unfold wrap. rewrite <- Z.mul_mod; auto; lia. }
  induction fuel as [|fuel IH]; intros r p n N F; [lia|]. cbn [pow_n_loop].
  destruct (half_split n ltac:(lia)) as [E H].
  set (m := Z.shiftr n 1) in *.
  assert (R : (if Z.odd n then assign_op T (wrap (width T) p * wrap (width T) r)
               else Ok (wrap (width T) r)) =
              Ok (wrap (width T) (r * (if Z.odd n then p else 1)))).
  { destruct (Z.odd n).
    - rewrite assign_unsigned, MW by auto. do 2 f_equal. ring.
    - do 2 f_equal. ring. }
  rewrite R. cbn [bind]. destruct (Z.eqb_spec m 0) as [M0|M0].
  - do 2 f_equal. rewrite (pow_halves p n m H E), M0, Z.pow_0_r. ring.
  - rewrite assign_unsigned, MW by auto. cbn [bind].
    assert (FN : 2 ^ Z.of_nat (S fuel) = 2 * 2 ^ Z.of_nat fuel).
    { rewrite Nat2Z.inj_succ, Z.pow_succ_r by lia. reflexivity. }
    assert (F0 : (0 < fuel)%nat).
    { destruct fuel; [|lia]. change (2 ^ Z.of_nat 0) with 1 in FN. destruct (Z.odd n); lia. }
    rewrite IH; [|destruct (Z.odd n); lia|auto].
    do 2 f_equal. rewrite (pow_halves p n m H E). ring.
Qed.

Lemma pow_n_unsigned T x n : signed T = false -> 32 <= width T -> fits T x -> 0 <= n < 2 ^ 64 ->
  pow_n T x n = Ok (wrap (width T) (x ^ n)).
Proof.
  intros Hs W F N. unfold pow_n.
  unfold fits, lowest, highest in F. rewrite Hs in F.
  rewrite <- (wrap_id (width T) x) at 1 by lia.
  assert (E1 : wrap (width T) 1 = 1).
  { apply wrap_id. split; [lia|]. change 1 with (2 ^ 0). apply Z.pow_lt_mono_r; lia. }
  rewrite <- E1 at 1. rewrite pow_n_loop_unsigned; auto; [|change (2 ^ Z.of_nat 65) with (2 ^ 65); lia|lia].
  do 2 f_equal. lia.
Qed.

(** No square is 2^7, 2^15, 2^31 or 2^63. *)
Lemma no_square w p : std_width w -> p * p <> 2 ^ (w - 1).
Proof.
  assert (N : forall s q, 0 <= s -> s * s < q < (s + 1) * (s + 1) -> p * p <> q).
  { intros s q Hs Hq E. destruct (Z.le_gt_cases (Z.abs p) s); nia. }
  intros [-> | [-> | [-> | ->]]].
  - apply (N 11); lia.
  - apply (N 181); lia.
  - apply (N 46340); lia.
  - apply (N 3037000499); lia.
Qed.

Lemma abs_mul_le a b c : c = a * b -> 1 <= b -> Z.abs a <= Z.abs c /\ (0 <= a <-> 0 <= c).
Proof. intros -> B. rewrite Z.abs_mul, (Z.abs_eq b) by lia. split; [nia|]. split; nia. Qed.

Lemma fits_shrink T a b c : fits T c -> c = a * b -> 1 <= b -> fits T a.
Proof.
  intros F E B. destruct (abs_mul_le a b c E B) as [A S]. unfold fits, lowest, highest in *.
  destruct (signed T); [|lia]. lia.
Qed.

Lemma fits_zero T : std_width (width T) -> fits T 0.
Proof.
  intros W. pose proof (one_fits T W) as F. unfold fits, lowest, highest in *.
  pose proof (pow_pos (width T - 1)). pose proof (std_pos _ W). destruct (signed T); lia.
Qed.

Lemma fits_square T p r n : std_width (width T) -> fits T (r * (p * p) ^ n) -> r <> 0 -> p <> 0 -> 1 <= n ->
  fits T (p * p).
Proof.
  intros W F R P N. pose proof (no_square (width T) p W) as NS.
  assert (PP : 1 <= p * p) by nia.
  assert (0 < (p * p) ^ (n - 1)) by (apply Z.pow_pos_nonneg; lia).
  assert (E : (p * p) ^ n = p * p * (p * p) ^ (n - 1)).
  { replace n with (Z.succ (n - 1)) at 1 by lia. apply Z.pow_succ_r. lia. }
  rewrite E in F.
  assert (A : p * p <= Z.abs (r * (p * p * (p * p) ^ (n - 1)))).
  { rewrite !Z.abs_mul. rewrite (Z.abs_eq ((p * p) ^ (n - 1))) by lia.
    rewrite <- Z.abs_mul, (Z.abs_eq (p * p)) by lia. assert (1 <= Z.abs r) by lia.
    assert (p * p <= p * p * (p * p) ^ (n - 1)) by nia. nia. }
  unfold fits, lowest, highest in *. destruct (signed T); [lia|].
  assert (2 ^ (width T) > 0) by (pose proof (pow_pos (width T)); pose proof (std_pos _ W); lia). lia.
Qed.

Lemma pow_n_loop_exact T : std_width (width T) ->
  forall fuel r p n, 0 <= n < 2 ^ Z.of_nat fuel -> (0 < fuel)%nat ->
  fits T r -> fits T p -> (r <> 0 \/ p = 0) -> fits T (r * p ^ n) ->
  pow_n_loop T fuel r p n = Ok (r * p ^ n).
Proof.
  intros W. pose proof (std_pos _ W) as WP. pose proof (fits_zero T W) as F0.
  induction fuel as [|fuel IH]; intros r p n N FU FR FP RP FX; [lia|]. cbn [pow_n_loop].
  destruct (half_split n ltac:(lia)) as [E H].
  set (m := Z.shiftr n 1) in *.
  assert (EX : r * p ^ n = (if Z.odd n then p * r else r) * (p * p) ^ m).
  { rewrite (pow_halves p n m H E). destruct (Z.odd n); ring. }
  assert (SQ : 0 <= (p * p) ^ m) by (apply Z.pow_nonneg; nia).
  assert (FR' : fits T (if Z.odd n then p * r else r)).
  { destruct (Z.odd n); auto. destruct (Z.eq_dec p 0) as [->|NP].
    - exact F0.
    - apply (fits_shrink T _ ((p * p) ^ m) (r * p ^ n)); auto.
      assert (0 < (p * p) ^ m) by (apply Z.pow_pos_nonneg; nia). lia. }
  assert (R : (if Z.odd n then assign_op T (p * r) else Ok r) = Ok (if Z.odd n then p * r else r)).
  { destruct (Z.odd n); auto. apply assign_fits; auto. }
  rewrite R. cbn [bind]. rewrite EX. destruct (Z.eqb_spec m 0) as [M0|M0].
  - rewrite M0. rewrite Z.pow_0_r. f_equal. ring.
  - assert (FPP : fits T (p * p)).
    { destruct (Z.eq_dec p 0) as [->|NP]; [exact F0|].
      apply (fits_square T p (if Z.odd n then p * r else r) m); auto; [rewrite <- EX; auto| |lia].
      destruct RP as [RP|RP]; [|contradiction]. destruct (Z.odd n); nia. }
    rewrite assign_fits by auto. cbn [bind].
    assert (FN : 2 ^ Z.of_nat (S fuel) = 2 * 2 ^ Z.of_nat fuel).
    { rewrite Nat2Z.inj_succ, Z.pow_succ_r by lia. reflexivity. }
    apply IH; auto.
    + destruct (Z.odd n); lia.
    + destruct fuel; [|lia]. change (2 ^ Z.of_nat 0) with 1 in FN. destruct (Z.odd n); lia.
    + destruct (Z.eq_dec p 0) as [->|NP]; [right; lia|]. left.
      destruct RP as [RP|RP]; [|contradiction]. destruct (Z.odd n); nia.
    + rewrite <- EX. auto.
Qed.

Lemma pow_n_exact T x n : std_width (width T) -> fits T x -> 0 <= n < 2 ^ 64 -> fits T (x ^ n) ->
  pow_n T x n = Ok (x ^ n).
Proof.
  intros W F N FX. unfold pow_n. rewrite pow_n_loop_exact; auto.
  - f_equal. ring.
  - change (2 ^ Z.of_nat 65) with (2 ^ 65). lia.
  - lia.
  - apply one_fits; auto.
  - left; lia.
  - replace (1 * x ^ n) with (x ^ n) by ring. auto.
Qed.

(** * cxmath::pow *)
Lemma exp_type T e : 0 < width T -> 0 <= e < 2 ^ 31 -> exp_neg T e = false /\ exp_pos T e = (0 <? e).
Proof.
  intros W E.
  assert (FE : fits i32 e) by (unfold fits, lowest, highest, i32; cbn [signed width]; lia).
  assert (F0 : fits T 0).
  { unfold fits, lowest, highest. pose proof (pow_pos (width T - 1)). pose proof (pow_pos (width T)).
    destruct (signed T); lia. }
  destruct (usual_nonneg i32 T e 0 eq_refl W FE F0) as (P & G1 & G2); [lia|lia|].
  unfold exp_neg, exp_pos. cbv zeta. rewrite !conv_id by auto. split; lia.
Qed.

(** If b^n fits then so does every smaller power. *)
Lemma smaller_power T b n j : std_width (width T) -> fits T b -> fits T (b ^ n) -> 0 <= j <= n ->
  fits T (b ^ j).
Proof.
  intros W FB FN J. pose proof (fits_zero T W) as F0. pose proof (one_fits T W) as F1.
  destruct (Z.eq_dec j n) as [->|NE]; auto.
  destruct (Z.le_gt_cases (Z.abs b) 1) as [S|L].
  - destruct (Z.eq_dec j 0) as [->|NJ]; [exact F1|].
    assert (C : b = -1 \/ b = 0 \/ b = 1) by lia. destruct C as [-> | [-> | ->]].
    + destruct (Z.Even_or_Odd j) as [[q ->] | [q ->]].
      * rewrite Z.pow_mul_r by lia. change ((-1) ^ 2) with 1. rewrite Z.pow_1_l by lia. auto.
      * rewrite Z.pow_add_r, Z.pow_mul_r by lia. change ((-1) ^ 2) with 1. rewrite Z.pow_1_l by lia. auto.
    + rewrite Z.pow_0_l by lia. auto.
    + rewrite Z.pow_1_l by lia. auto.
  - assert (E : Z.abs (b ^ n) = Z.abs (b ^ j) * Z.abs b ^ (n - j)).
    { rewrite !Z.abs_pow. rewrite <- Z.pow_add_r by lia. f_equal. lia. }
    assert (2 <= Z.abs b ^ (n - j)).
    { rewrite <- (Z.pow_1_r 2) at 1. transitivity (Z.abs b ^ 1); [rewrite !Z.pow_1_r; lia|].
      apply Z.pow_le_mono_r; lia. }
    assert (0 <= Z.abs (b ^ j)) by lia.
    assert (2 * Z.abs (b ^ j) <= Z.abs (b ^ n)) by nia.
    unfold fits, lowest, highest in *. destruct (signed T).
    + assert (0 < 2 ^ (width T - 1)) by (apply pow_pos; pose proof (std_pos _ W); lia). lia.
    + assert (0 <= b ^ j) by (apply Z.pow_nonneg; lia). lia.
Qed.

Lemma cx_pow_up_ok T b n : std_width (width T) -> fits T b -> fits T (b ^ n) -> 0 <= n < 2 ^ 31 ->
  forall fuel e, 0 <= e <= n -> e < Z.of_nat fuel ->
  cx_pow_up T b fuel e (b ^ (n - e)) = Ok (b ^ n).
Proof.
  intros W FB FX N. pose proof (std_pos _ W) as WP.
  induction fuel as [|fuel IH]; intros e E F; [lia|]. cbn [cx_pow_up].
  destruct (exp_type T e WP ltac:(lia)) as [_ ->].
  destruct (Z.ltb_spec 0 e) as [L|G].
  - assert (EB : b ^ (n - e) * b = b ^ (n - (e - 1))).
    { replace (n - (e - 1)) with (Z.succ (n - e)) by lia. rewrite Z.pow_succ_r by lia. ring. }
    rewrite EB. rewrite assign_fits; [|auto|apply (smaller_power T b n); auto; lia].
    cbn [bind]. rewrite calc_fits; [|reflexivity|unfold fits, lowest, highest, i32; cbn [signed width]; lia].
    cbn [bind]. apply IH; lia.
  - do 2 f_equal. lia.
Qed.

Lemma cx_pow_nonneg T b n fuel : std_width (width T) -> fits T b -> fits T (b ^ n) ->
  0 <= n < 2 ^ 31 -> n < Z.of_nat fuel -> cx_pow T fuel b n = Ok (b ^ n).
Proof.
  intros W FB FX N F. unfold cx_pow. destruct fuel as [|fuel]; [lia|].
  cbn [cx_pow_down]. destruct (exp_type T n (std_pos _ W) N) as [-> _]. cbn [bind fst snd].
  pose proof (cx_pow_up_ok T b n W FB FX N (S fuel) n ltac:(lia) F) as H.
  replace (n - n) with 0 in H by lia. rewrite Z.pow_0_r in H. exact H.
Qed.

(** A negative exponent with an unsigned type of at least 32 bits. *)
Lemma exp_neg_unsigned T e : signed T = false -> std_width (width T) -> 32 <= width T -> - 2 ^ 31 <= e < 0 ->
  exp_neg T e = false /\ exp_pos T e = true.
Proof.
  intros Hs W W32 E.
  assert (U : usual i32 T = T).
  { unfold usual, promote. cbn [width i32 signed]. change (32 <? 32) with false. cbn [width i32 signed].
    destruct (Z.ltb_spec (width T) 32); [lia|]. rewrite Hs. cbn [Bool.eqb].
    destruct (Z.leb_spec 32 (width T)); [reflexivity|lia]. }
  unfold exp_neg, exp_pos. cbv zeta. rewrite U. unfold conv. rewrite Hs.
  assert (wrap (width T) 0 = 0) as -> by reflexivity.
  assert (2 ^ 32 <= 2 ^ width T) by (apply Z.pow_le_mono_r; lia).
  assert (wrap (width T) e = e + 2 ^ width T) as ->.
  { unfold wrap. rewrite <- (Z.mod_add _ 1) by lia. rewrite Z.mul_1_l. apply Z.mod_small. lia. }
  split; lia.
Qed.

Lemma cx_pow_up_unsigned T b : signed T = false -> std_width (width T) -> 32 <= width T ->
  forall fuel e r, - 2 ^ 31 <= e < 0 -> e + 2 ^ 31 < Z.of_nat fuel -> cx_pow_up T b fuel e r = UB.
Proof.
  intros Hs W W32. induction fuel as [|fuel IH]; intros e r E F; [lia|]. cbn [cx_pow_up].
  destruct (exp_neg_unsigned T e Hs W W32 E) as [_ ->].
  rewrite assign_unsigned by auto. cbn [bind].
  destruct (Z.eq_dec e (- 2 ^ 31)) as [->|NE].
  - reflexivity.
  - rewrite calc_fits; [|reflexivity|unfold fits, lowest, highest, i32; cbn [signed width]; lia].
    cbn [bind]. apply IH; lia.
Qed.

Lemma cx_pow_unsigned_negative T b e fuel : signed T = false -> std_width (width T) -> 32 <= width T ->
  - 2 ^ 31 <= e < 0 -> e + 2 ^ 31 < Z.of_nat fuel -> cx_pow T fuel b e = UB.
Proof.
  intros Hs W W32 E F. unfold cx_pow. destruct fuel as [|fuel]; [lia|].
  cbn [cx_pow_down]. destruct (exp_neg_unsigned T e Hs W W32 E) as [-> _]. cbn [bind fst snd].
  apply cx_pow_up_unsigned; auto.
Qed.

(** A negative exponent with a signed type: the reciprocal rounded to zero. *)
Lemma exp_type_signed T e : std_width (width T) -> signed T = true \/ width T < 32 -> fits i32 e ->
  exp_neg T e = (e <? 0) /\ exp_pos T e = (0 <? e).
Proof.
  intros W S FE. pose proof (std_pos _ W) as WP.
  assert (C : signed (usual i32 T) = true /\ 32 <= width (usual i32 T)).
  { destruct W as [W | [W | [W | W]]]; unfold usual, promote; rewrite W; cbn;
      destruct S as [S|S]; try lia; rewrite ?S; cbn; rewrite ?W; cbn; try rewrite S; cbn; split; auto; lia. }
  destruct C as [CS CW].
  assert (FC : forall z, fits i32 z -> fits (usual i32 T) z).
  { intros z Hz. rewrite <- (ity_eta (usual i32 T)), CS. eapply fits_wider; [|exact Hz]. cbn [width i32]. lia. }
  unfold exp_neg, exp_pos. cbv zeta.
  assert (FZ : fits (usual i32 T) 0).
  { apply FC. unfold fits, lowest, highest, i32; cbn [signed width]; lia. }
  rewrite !conv_id by (auto; lia). split; lia.
Qed.

Lemma quot_step b r : 2 <= Z.abs b -> Z.abs r <= 1 -> Z.quot r b = 0.
Proof.
  intros B R. assert (C : r = -1 \/ r = 0 \/ r = 1) by lia. destruct C as [-> | [-> | ->]].
  - change (-1) with (- (1)). rewrite Z.quot_opp_l by lia.
    assert (1 ÷ b = 0) as ->; [|reflexivity].
    destruct (Z.lt_ge_cases b 0).
    + rewrite <- (Z.opp_involutive b), Z.quot_opp_r by lia. rewrite Z.quot_small by lia. reflexivity.
    + apply Z.quot_small; lia.
  - apply Z.quot_0_l. lia.
  - destruct (Z.lt_ge_cases b 0).
    + rewrite <- (Z.opp_involutive b), Z.quot_opp_r by lia. rewrite Z.quot_small by lia. reflexivity.
    + apply Z.quot_small; lia.
Qed.

Lemma minus_one_pow n : 0 <= n -> (-1) ^ n = 1 \/ (-1) ^ n = -1.
Proof.
  intros N. destruct (Z.Even_or_Odd n) as [[q ->] | [q ->]].
  - left. rewrite Z.pow_mul_r by lia. change ((-1) ^ 2) with 1. apply Z.pow_1_l. lia.
  - right. rewrite Z.pow_add_r, Z.pow_mul_r by lia. change ((-1) ^ 2) with 1. rewrite Z.pow_1_l by lia. reflexivity.
Qed.

Lemma big_pow b n : 2 <= Z.abs b -> 1 <= n -> 2 <= Z.abs (b ^ n).
Proof.
  intros B N. rewrite Z.abs_pow. rewrite <- (Z.pow_1_r 2) at 1.
  transitivity (Z.abs b ^ 1); [rewrite !Z.pow_1_r; lia|]. apply Z.pow_le_mono_r; lia.
Qed.

(** 1 / b^(n+1) from 1 / b^n. *)
Lemma recip_succ b n : b <> 0 -> 0 <= n -> Z.quot (Z.quot 1 (b ^ n)) b = Z.quot 1 (b ^ (n + 1)).
Proof.
  intros B N. rewrite Z.quot_quot by (auto; apply Z.pow_nonzero; lia).
  rewrite Z.pow_add_r, Z.pow_1_r by lia. reflexivity.
Qed.

Lemma recip_small b n : b <> 0 -> 0 <= n -> -1 <= Z.quot 1 (b ^ n) <= 1 /\ (0 <= b -> 0 <= Z.quot 1 (b ^ n)).
Proof.
  intros B N. assert (X : b ^ n <> 0) by (apply Z.pow_nonzero; lia).
  destruct (Z.le_gt_cases (Z.abs (b ^ n)) 1) as [S|L].
  - assert (C : b ^ n = -1 \/ b ^ n = 1) by lia. destruct C as [E|E].
    + rewrite E. change (1 ÷ -1) with (-1). split; [lia|].
      intros P. assert (0 <= b ^ n) by (apply Z.pow_nonneg; lia). lia.
    + rewrite E. change (1 ÷ 1) with 1. lia.
  - rewrite quot_step by lia. lia.
Qed.

Lemma recip_fits T b n : std_width (width T) -> fits T b -> b <> 0 -> 0 <= n -> fits T (Z.quot 1 (b ^ n)).
Proof.
  intros W F B N. destruct (recip_small b n B N) as [R P].
  pose proof (one_fits T W) as F1. pose proof (fits_zero T W) as F0.
  unfold fits, lowest, highest in *. pose proof (std_pos _ W).
  pose proof (pow_pos (width T - 1)). destruct (signed T); lia.
Qed.

Lemma cx_pow_down_ok T b N : std_width (width T) -> signed T = true \/ width T < 32 ->
  fits T b -> b <> 0 -> 0 <= N <= 2 ^ 31 ->
  forall fuel e, - N <= e <= 0 -> - e < Z.of_nat fuel ->
  cx_pow_down T b fuel e (Z.quot 1 (b ^ (N + e))) = Ok (0, Z.quot 1 (b ^ N)).
Proof.
  intros W S FB B HN. pose proof (std_pos _ W) as WP.
  induction fuel as [|fuel IH]; intros e E F; [lia|]. cbn [cx_pow_down].
  assert (FE : fits i32 e) by (unfold fits, lowest, highest, i32; cbn [signed width]; lia).
  destruct (exp_type_signed T e W S FE) as [-> _].
  destruct (Z.ltb_spec e 0) as [L|G].
  - destruct (Z.eqb_spec b 0); [lia|].
    rewrite recip_succ by (auto; lia).
    rewrite assign_fits; [|auto|apply recip_fits; auto; lia].
    cbn [bind]. rewrite calc_fits; [|reflexivity|unfold fits, lowest, highest, i32; cbn [signed width]; lia].
    cbn [bind]. replace (N + e + 1) with (N + (e + 1)) by lia. apply IH; lia.
  - replace e with 0 by lia. do 4 f_equal. lia.
Qed.

Lemma cx_pow_negative T b e fuel : std_width (width T) -> signed T = true \/ width T < 32 ->
  fits T b -> b <> 0 -> - 2 ^ 31 <= e < 0 -> - e < Z.of_nat fuel ->
  cx_pow T fuel b e = Ok (Z.quot 1 (b ^ (- e))).
Proof.
  intros W S FB B E F. unfold cx_pow.
  pose proof (cx_pow_down_ok T b (- e) W S FB B ltac:(lia) fuel e ltac:(lia) F) as H.
  replace (- e + e) with 0 in H by lia. rewrite Z.pow_0_r in H. change (1 ÷ 1) with 1 in H.
  rewrite H. cbn [bind fst snd]. destruct fuel as [|fuel]; [lia|]. cbn [cx_pow_up].
  destruct (exp_type T 0 (std_pos _ W) ltac:(lia)) as [_ ->]. reflexivity.
Qed.

(** * Floating point bit patterns *)
Definition class_ok (w p : Z) (c : fp_class) (d : Z) : Prop :=
  match c with
  | FpNormal => ieee_normal w p d
  | FpZero => ieee_zero w p d
  | FpSubnormal => ieee_subnormal w p d
  | FpNan => ieee_nan w p d
  | FpInfinity => ieee_infinity w p d
  end.

Ltac Zify.zify_post_hook ::= Z.div_mod_to_equations.

Lemma fp_classify32_ok f : 0 <= f < 2 ^ 32 -> class_ok 32 23 (fp_classify32 f) f.
Proof.
  intros F. unfold fp_classify32. change 0x7FFFFFFF with (2 ^ 31 - 1). rewrite land_low by lia.
  set (m := f mod 2 ^ 31).
  assert (E : m = ieee_exponent 32 23 f * 2 ^ 23 + ieee_significand 23 f).
  { unfold m, ieee_exponent, ieee_significand. change (2 ^ (32 - 1 - 23)) with 256.
    change (2 ^ 23) with 8388608. change (2 ^ 31) with 2147483648. lia. }
  assert (BS : 0 <= ieee_significand 23 f < 2 ^ 23) by (apply Z.mod_pos_bound; lia).
  assert (BE : 0 <= ieee_exponent 32 23 f < 2 ^ 8) by (apply Z.mod_pos_bound; lia).
  unfold class_ok, ieee_normal, ieee_zero, ieee_subnormal, ieee_nan, ieee_infinity.
  change (2 ^ (32 - 1 - 23)) with 256 in *. change (2 ^ 23) with 8388608 in *. change (2 ^ 8) with 256 in *.
  generalize dependent (ieee_exponent 32 23 f). generalize dependent (ieee_significand 23 f).
  intros s HS e Em HE. clearbody m.
  destruct (Z.eqb_spec m 0); [lia|].
  destruct (Z.ltb_spec m 0x800000); [lia|].
  destruct (Z.gtb_spec m 0x7F800000); [lia|].
  destruct (Z.eqb_spec m 0x7F800000); lia.
Qed.

Lemma land_field x n k : 0 <= n -> 0 <= k ->
  Z.land x (2 ^ n * (2 ^ k - 1)) = (x / 2 ^ n) mod 2 ^ k * 2 ^ n.
Proof.
  intros N K. rewrite <- land_low by auto.
  rewrite <- Z.shiftr_div_pow2 by auto. rewrite Z.mul_comm, <- !Z.shiftl_mul_pow2 by auto.
  rewrite Z.shiftl_land. apply Z.bits_inj'. intros i Hi.
  rewrite !Z.land_spec. destruct (Z.lt_ge_cases i n).
  - rewrite !(Z.shiftl_spec_low _ n i) by auto. rewrite !andb_false_r. reflexivity.
  - rewrite !(Z.shiftl_spec_high _ n i) by lia. rewrite Z.shiftr_spec by lia.
    replace (i - n + n) with i by lia. reflexivity.
Qed.

Lemma lor_zero a b : (Z.lor a b =? 0) = (a =? 0) && (b =? 0).
Proof.
  destruct (Z.eqb_spec (Z.lor a b) 0) as [E|E].
  - apply Z.lor_eq_0_iff in E as [-> ->]. reflexivity.
  - symmetry. apply andb_false_iff. destruct (Z.eqb_spec a 0), (Z.eqb_spec b 0); auto.
    exfalso. apply E. subst. reflexivity.
Qed.

Lemma lor_high_nonneg a b : 0 <= a -> 0 <= b -> (Z.lor a b = 0 <-> a = 0 /\ b = 0).
Proof. intros. apply Z.lor_eq_0_iff. Qed.

Lemma fp_classify64_ok d : 0 <= d < 2 ^ 64 -> class_ok 64 52 (fp_classify64 d) d.
Proof.
  intros D. unfold fp_classify64.
  change 0x00000000FFFFFFFF with (2 ^ 32 - 1). rewrite land_low by lia.
  rewrite Z.shiftr_div_pow2 by lia.
  assert (wrap 32 (d mod 2 ^ 32) = d mod 2 ^ 32) as ->.
  { apply wrap_id. apply Z.mod_pos_bound. lia. }
  assert (wrap 32 (d / 2 ^ 32) = d / 2 ^ 32) as ->.
  { apply wrap_id. change (2 ^ 32) with 4294967296. change (2 ^ 64) with 18446744073709551616 in D. lia. }
  change 0x000FFFFF with (2 ^ 20 - 1). rewrite land_low by lia.
  change 0x7FF00000 with (2 ^ 20 * (2 ^ 11 - 1)). rewrite land_field by lia.
  rewrite !lor_zero.
  set (lo := d mod 2 ^ 32). set (mid := (d / 2 ^ 32) mod 2 ^ 20).
  set (ex := (d / 2 ^ 32 / 2 ^ 20) mod 2 ^ 11).
  assert (EX : ieee_exponent 64 52 d = ex).
  { unfold ieee_exponent, ex. rewrite Z.div_div by lia. reflexivity. }
  assert (SG : ieee_significand 52 d = mid * 2 ^ 32 + lo).
  { unfold ieee_significand, mid, lo. change (2 ^ 52) with (2 ^ 32 * 2 ^ 20).
    rewrite Z.rem_mul_r by lia. ring. }
  assert (BL : 0 <= lo < 2 ^ 32) by (apply Z.mod_pos_bound; lia).
  assert (BM : 0 <= mid < 2 ^ 20) by (apply Z.mod_pos_bound; lia).
  assert (BE : 0 <= ex < 2 ^ 11) by (apply Z.mod_pos_bound; lia).
  unfold class_ok, ieee_normal, ieee_zero, ieee_subnormal, ieee_nan, ieee_infinity.
  rewrite EX, SG. change (2 ^ (64 - 1 - 52)) with 2048. change (2 ^ 11) with 2048 in *.
  change (2 ^ 20) with 1048576 in *. change (2 ^ 32) with 4294967296 in *.
  clearbody lo mid ex. clear EX SG.
  destruct (Z.eqb_spec (ex * 1048576) 0); cbn [andb].
  - destruct (Z.eqb_spec lo 0), (Z.eqb_spec mid 0); cbn [andb]; lia.
  - destruct (Z.eqb_spec (ex * 1048576) (1048576 * (2048 - 1))); [|lia].
    destruct (Z.eqb_spec lo 0), (Z.eqb_spec mid 0); cbn [andb negb]; lia.
Qed.

(** The two formats. *)
Definition real_format (F : fpfmt) : Prop := F = f32 \/ F = f64.

Lemma exp_mask_field F : real_format F ->
  fp_exp_mask F = 2 ^ fp_sig F * (2 ^ (fp_bits F - 1 - fp_sig F) - 1).
Proof. intros [-> | ->]; reflexivity. Qed.

Lemma exp_field F d : real_format F ->
  Z.land d (fp_exp_mask F) = ieee_exponent (fp_bits F) (fp_sig F) d * 2 ^ fp_sig F.
Proof.
  intros R. rewrite exp_mask_field by auto. rewrite land_field; [reflexivity| |];
    destruct R as [-> | ->]; cbn; lia.
Qed.

Lemma get_exponent_ok F d : real_format F -> 0 <= d < 2 ^ fp_bits F ->
  get_exponent F d = ieee_exponent (fp_bits F) (fp_sig F) d - ieee_bias (fp_bits F) (fp_sig F).
Proof.
  intros R D. unfold get_exponent. rewrite exp_field by auto.
  assert (S : 0 <= fp_sig F) by (destruct R as [-> | ->]; cbn; lia).
  rewrite Z.shiftr_div_pow2, Z.div_mul by (pose proof (pow_pos (fp_sig F)); lia).
  assert (B : 0 <= ieee_exponent (fp_bits F) (fp_sig F) d < 2 ^ 11).
  { unfold ieee_exponent. set (x := d / 2 ^ fp_sig F).
    pose proof (Z.mod_pos_bound x (2 ^ (fp_bits F - 1 - fp_sig F))) as M.
    destruct R as [-> | ->]; cbn [fp_bits fp_sig f32 f64] in *;
      [change (2 ^ (32 - 1 - 23)) with 256 in * | change (2 ^ (64 - 1 - 52)) with 2048 in *];
      change (2 ^ 11) with 2048; lia. }
  rewrite conv_id; [|reflexivity|].
  - f_equal. destruct R as [-> | ->]; reflexivity.
  - unfold fits, lowest, highest, i32; cbn [signed width]. change (2 ^ (32 - 1)) with 2147483648.
    change (2 ^ 11) with 2048 in B. lia.
Qed.

(** Clearing the exponent field keeps the other two. *)
Lemma clear_exponent F d : real_format F -> 0 <= d < 2 ^ fp_bits F ->
  Z.land d (wrap (fp_bits F) (Z.lnot (fp_exp_mask F))) =
  d - ieee_exponent (fp_bits F) (fp_sig F) d * 2 ^ fp_sig F.
Proof.
  intros R D. rewrite <- exp_field by auto.
  assert (E : Z.land d (wrap (fp_bits F) (Z.lnot (fp_exp_mask F))) = Z.ldiff d (fp_exp_mask F)).
  { apply Z.bits_inj'. intros i Hi. rewrite Z.land_spec, Z.ldiff_spec.
    destruct (Z.lt_ge_cases i (fp_bits F)).
    - rewrite wrap_bit, Z.lnot_spec by lia. reflexivity.
    - rewrite (high_bit (fp_bits F) d); [reflexivity|auto|].
      destruct R as [-> | ->]; cbn in *; lia. }
  rewrite E. rewrite Z.sub_nocarry_ldiff.
  - apply Z.bits_inj'. intros i Hi. rewrite !Z.ldiff_spec, Z.land_spec.
    destruct (Z.testbit d i), (Z.testbit (fp_exp_mask F) i); reflexivity.
  - apply Z.bits_inj'. intros i Hi. rewrite Z.ldiff_spec, Z.land_spec, Z.bits_0.
    destruct (Z.testbit d i), (Z.testbit (fp_exp_mask F) i); reflexivity.
Qed.

Lemma lor_disjoint_field a e n k : 0 <= n -> 0 <= k -> 0 <= e < 2 ^ k -> 0 <= a ->
  (a / 2 ^ n) mod 2 ^ k = 0 -> Z.lor a (e * 2 ^ n) = a + e * 2 ^ n.
Proof.
  intros N K E A Z0.
  assert (L : Z.land a (e * 2 ^ n) = 0).
  { apply Z.bits_inj'. intros i Hi. rewrite Z.land_spec, Z.bits_0.
    destruct (Z.lt_ge_cases i n).
    - rewrite Z.mul_pow2_bits_low by lia. apply andb_false_r.
    - rewrite Z.mul_pow2_bits by lia. destruct (Z.lt_ge_cases (i - n) k).
      + replace (Z.testbit a i) with (Z.testbit ((a / 2 ^ n) mod 2 ^ k) (i - n)).
        * rewrite Z0, Z.bits_0. reflexivity.
        * rewrite Z.mod_pow2_bits_low by lia. rewrite <- Z.shiftr_div_pow2, Z.shiftr_spec by lia.
          f_equal. lia.
      + rewrite (high_bit k e) by lia. apply andb_false_r. }
  rewrite <- Z.lxor_lor by auto. symmetry. apply Z.add_nocarry_lxor. auto.
Qed.

Lemma set_exponent_ok F d exp : real_format F -> 0 <= d < 2 ^ fp_bits F -> exp <> 0 ->
  1 - ieee_bias (fp_bits F) (fp_sig F) <= exp <= ieee_bias (fp_bits F) (fp_sig F) ->
  exists r, set_exponent F d exp = Ok r /\ 0 <= r < 2 ^ fp_bits F /\
    ieee_sign (fp_bits F) r = ieee_sign (fp_bits F) d /\
    ieee_significand (fp_sig F) r = ieee_significand (fp_sig F) d /\
    ieee_exponent (fp_bits F) (fp_sig F) r = exp + ieee_bias (fp_bits F) (fp_sig F).
Proof.
  intros R D NZ B. unfold set_exponent. destruct (Z.eqb_spec exp 0); [lia|].
  assert (BI : fp_bias F = ieee_bias (fp_bits F) (fp_sig F)) by (destruct R as [-> | ->]; reflexivity).
  rewrite BI. set (e := exp + ieee_bias (fp_bits F) (fp_sig F)) in *.
  assert (BE : 1 <= e < 2 ^ (fp_bits F - 1 - fp_sig F) - 1).
  { subst e. destruct R as [-> | ->]; cbn [fp_bits fp_sig f32 f64] in *; unfold ieee_bias in *.
    - change (2 ^ (32 - 2 - 23)) with 128 in *. change (2 ^ (32 - 1 - 23)) with 256. lia.
    - change (2 ^ (64 - 2 - 52)) with 1024 in *. change (2 ^ (64 - 1 - 52)) with 2048. lia. }
  rewrite calc_fits; [|reflexivity|].
  2: { unfold fits, lowest, highest, i32; cbn [signed width]. change (2 ^ (32 - 1)) with 2147483648.
       destruct R as [-> | ->]; cbn [fp_bits fp_sig f32 f64] in *;
         [change (2 ^ (32 - 1 - 23)) with 256 in * | change (2 ^ (64 - 1 - 52)) with 2048 in *]; lia. }
  cbn [bind]. rewrite clear_exponent by auto.
  assert (S : 0 <= fp_sig F) by (destruct R as [-> | ->]; cbn; lia).
  assert (W1 : 0 <= fp_bits F - 1 - fp_sig F) by (destruct R as [-> | ->]; cbn; lia).
  set (k := fp_bits F - 1 - fp_sig F) in *.
  pose proof (pow_pos (fp_sig F) S) as P1. pose proof (pow_pos k W1) as P2.
  assert (WB : 2 ^ fp_bits F = 2 * 2 ^ k * 2 ^ fp_sig F).
  { replace (fp_bits F) with (1 + k + fp_sig F) by (unfold k; lia). rewrite !Z.pow_add_r by lia. reflexivity. }
  assert (WE : wrap (fp_bits F) (Z.shiftl (wrap (fp_bits F) e) (fp_sig F)) = e * 2 ^ fp_sig F).
  { rewrite (wrap_id _ e) by nia. rewrite Z.shiftl_mul_pow2 by auto. apply wrap_id. nia. }
  rewrite WE.
  set (E0 := ieee_exponent (fp_bits F) (fp_sig F) d) in *.
  set (s := ieee_sign (fp_bits F) d). set (m := ieee_significand (fp_sig F) d).
  assert (DD : d = (s * 2 ^ k + E0) * 2 ^ fp_sig F + m /\ 0 <= m < 2 ^ fp_sig F /\ 0 <= E0 < 2 ^ k /\ 0 <= s < 2).
  { unfold s, E0, m, ieee_sign, ieee_exponent, ieee_significand. fold k.
    replace (fp_bits F - 1) with (fp_sig F + k) by (unfold k; lia).
    rewrite Z.pow_add_r by lia. rewrite <- Z.div_div by lia.
    pose proof (Z.div_mod d (2 ^ fp_sig F) ltac:(lia)).
    pose proof (Z.div_mod (d / 2 ^ fp_sig F) (2 ^ k) ltac:(lia)).
    pose proof (Z.mod_pos_bound d (2 ^ fp_sig F) P1).
    pose proof (Z.mod_pos_bound (d / 2 ^ fp_sig F) (2 ^ k) P2).
    split; [lia|]. split; [auto|]. split; [auto|].
    split.
    - apply Z.div_pos; [apply Z.div_pos|]; lia.
    - apply Z.div_lt_upper_bound; [lia|]. apply Z.div_lt_upper_bound; lia. }
  destruct DD as (DD & BM & B0 & BS).
  assert (C : d - E0 * 2 ^ fp_sig F = s * 2 ^ k * 2 ^ fp_sig F + m) by (rewrite DD at 1; ring).
  rewrite C. clearbody s m E0 e k. clear C.
  assert (Q : (s * 2 ^ k * 2 ^ fp_sig F + m) / 2 ^ fp_sig F = s * 2 ^ k).
  { rewrite Z.add_comm, Z.div_add by lia. rewrite Z.div_small by lia. lia. }
  assert (NN : 0 <= s * 2 ^ k * 2 ^ fp_sig F).
  { apply Z.mul_nonneg_nonneg; [apply Z.mul_nonneg_nonneg|]; lia. }
  rewrite (lor_disjoint_field _ e (fp_sig F) k); auto; try lia.
  2: { rewrite Q. apply Z.mod_mul. lia. }
  exists (s * 2 ^ k * 2 ^ fp_sig F + m + e * 2 ^ fp_sig F). split; auto.
  assert (RR : s * 2 ^ k * 2 ^ fp_sig F + m + e * 2 ^ fp_sig F = (s * 2 ^ k + e) * 2 ^ fp_sig F + m) by ring.
  rewrite RR.
  assert (Q2 : ((s * 2 ^ k + e) * 2 ^ fp_sig F + m) / 2 ^ fp_sig F = s * 2 ^ k + e).
  { rewrite Z.add_comm, Z.div_add by lia. rewrite Z.div_small by lia. lia. }
  split; [split; nia|]. split; [|split].
  - unfold ieee_sign. replace (fp_bits F - 1) with (fp_sig F + k).
    2: { assert (X : 2 ^ fp_bits F = 2 ^ (1 + k + fp_sig F)) by (rewrite WB, !Z.pow_add_r by lia; reflexivity).
         apply Z.pow_inj_r in X; [lia|lia|destruct R as [-> | ->]; cbn; lia|lia]. }
    rewrite Z.pow_add_r by lia. rewrite <- Z.div_div by lia. rewrite Q2.
    rewrite Z.add_comm, Z.div_add by lia. rewrite Z.div_small by lia. lia.
  - unfold ieee_significand. rewrite Z.add_comm, Z.mod_add by lia. apply Z.mod_small. auto.
  - unfold ieee_exponent. rewrite Q2.
    replace (fp_bits F - 1 - fp_sig F) with k.
    2: { assert (X : 2 ^ fp_bits F = 2 ^ (1 + k + fp_sig F)) by (rewrite WB, !Z.pow_add_r by lia; reflexivity).
         apply Z.pow_inj_r in X; [lia|lia|destruct R as [-> | ->]; cbn; lia|lia]. }
    rewrite Z.add_comm, Z.mod_add by lia. apply Z.mod_small. lia.
Qed.

Lemma set_exponent_zero F d : set_exponent F d 0 = Ok (fp_one F).
Proof. reflexivity. Qed.

(** [r] is the bit pattern of 2^exp. *)
Lemma fp_pow2_ok F exp : real_format F ->
  2 - ieee_bias (fp_bits F) (fp_sig F) < exp <= ieee_bias (fp_bits F) (fp_sig F) ->
  exists r, fp_pow2 F exp = Ok r /\ ieee_sign (fp_bits F) r = 0 /\
    ieee_significand (fp_sig F) r = 0 /\ ieee_normal (fp_bits F) (fp_sig F) r /\
    ieee_exponent (fp_bits F) (fp_sig F) r = exp + ieee_bias (fp_bits F) (fp_sig F).
Proof.
  intros R B.
  assert (MX : fp_max_exponent F = ieee_bias (fp_bits F) (fp_sig F) + 1) by (destruct R as [-> | ->]; reflexivity).
  assert (MN : fp_min_exponent F = 2 - ieee_bias (fp_bits F) (fp_sig F)) by (destruct R as [-> | ->]; reflexivity).
  assert (NM : forall x, 1 - ieee_bias (fp_bits F) (fp_sig F) <= x <= ieee_bias (fp_bits F) (fp_sig F) ->
               0 < x + ieee_bias (fp_bits F) (fp_sig F) < 2 ^ (fp_bits F - 1 - fp_sig F) - 1).
  { intros x Hx. destruct R as [-> | ->]; cbn [fp_bits fp_sig f32 f64] in *; unfold ieee_bias in *.
    - change (2 ^ (32 - 2 - 23)) with 128 in *. change (2 ^ (32 - 1 - 23)) with 256. lia.
    - change (2 ^ (64 - 2 - 52)) with 1024 in *. change (2 ^ (64 - 1 - 52)) with 2048. lia. }
  unfold fp_pow2. replace (exp >=? fp_max_exponent F) with false by lia.
  replace (exp <=? fp_min_exponent F) with false by lia.
  destruct (Z.eq_dec exp 0) as [->|NZ].
  - exists (fp_one F). split; [reflexivity|]. destruct R as [-> | ->]; vm_compute; auto.
  - destruct (set_exponent_ok F 0 exp R) as (r & E & BR & SG & MT & EX); [|auto|lia|].
    { split; [lia|]. apply pow_pos. destruct R as [-> | ->]; cbn; lia. }
    exists r. split; auto. split; [|split; [|split]].
    + rewrite SG. destruct R as [-> | ->]; reflexivity.
    + rewrite MT. unfold ieee_significand. apply Z.mod_0_l. destruct R as [-> | ->]; cbn; lia.
    + unfold ieee_normal. rewrite EX. apply NM. lia.
    + exact EX.
Qed.

Lemma fp_pow2_large F exp : real_format F -> ieee_bias (fp_bits F) (fp_sig F) < exp ->
  fp_pow2 F exp = Ok (fp_infinity F) /\ ieee_infinity (fp_bits F) (fp_sig F) (fp_infinity F).
Proof.
  intros R B. split.
  - unfold fp_pow2. replace (exp >=? fp_max_exponent F) with true; auto.
    destruct R as [-> | ->]; cbn [fp_max_exponent fp_bits fp_sig f32 f64] in *; unfold ieee_bias in *.
    + change (2 ^ (32 - 2 - 23)) with 128 in *. lia.
    + change (2 ^ (64 - 2 - 52)) with 1024 in *. lia.
  - destruct R as [-> | ->]; vm_compute; auto.
Qed.

(** The two smallest normal powers of two come out as zero. *)
Lemma fp_pow2_small F exp : real_format F -> exp <= 2 - ieee_bias (fp_bits F) (fp_sig F) ->
  fp_pow2 F exp = Ok 0.
Proof.
  intros R B. unfold fp_pow2.
  destruct R as [-> | ->]; cbn [fp_max_exponent fp_min_exponent fp_bits fp_sig f32 f64] in *; unfold ieee_bias in *.
  - change (2 ^ (32 - 2 - 23)) with 128 in *.
    replace (exp >=? 128) with false by lia. replace (exp <=? -125) with true by lia. reflexivity.
  - change (2 ^ (64 - 2 - 52)) with 1024 in *.
    replace (exp >=? 1024) with false by lia. replace (exp <=? -1021) with true by lia. reflexivity.
Qed.
