(** Proofs about the floating point functions. *)
From Verif Require Import Common Ints Math CxMath Floats FloatMath SpecFloats SpecFloatMath FloatsProofs.
Open Scope Z_scope.

Section Fmt.
Variable F : fmt.
Hypothesis HF : proper_fmt F.
Notation p := (prec F).
Notation oe := (one_exp F).
Notation U := (unit_of F).
Lemma sizes : 2 <= p /\ p < oe /\ oe + p < top_exp F.
Proof. exact HF. Qed.
Lemma U_pos : 0 < U.
Proof. apply two_pos. pose proof sizes. lia. Qed.
Lemma U_half : U = 2 * 2 ^ (oe - 1).
Proof. unfold unit_of. rewrite <- Z.pow_succ_r by (pose proof sizes; lia). f_equal. lia. Qed.
Lemma pow_lt a b : 0 <= a < b -> 2 ^ a < 2 ^ b.
Proof. intros H. apply Z.pow_lt_mono_r; lia. Qed.
Lemma pow_le a b : 0 <= a <= b -> 2 ^ a <= 2 ^ b.
Proof. intros H. apply Z.pow_le_mono_r; lia. Qed.
Lemma literal_exact n d m : 0 < d -> n * U = m * d -> representable F m -> Z.abs m < 2 ^ top_exp F -> literal F n d = Fin m.
Proof. intros Hd E R B. unfold literal. fold U. rewrite E, (rnd_exact F HF m d Hd R). apply fin_ok. exact B. Qed.
Lemma of_int_small n : Z.abs n <= 2 ^ p -> of_int F n = Fin (n * U).
Proof.
  intros B. pose proof sizes as S. pose proof U_pos as Up. apply literal_exact; [lia|lia|apply (grid_rep F HF n oe); lia|]. rewrite Z.abs_mul, (Z.abs_eq U) by lia.
  apply Z.le_lt_trans with (2 ^ p * U); [apply Z.mul_le_mono_nonneg_r; lia|]. unfold unit_of. rewrite <- two_split by lia. apply pow_lt. lia.
Qed.
Lemma of_int_one : of_int F 1 = Fin U.
Proof. rewrite of_int_small; [f_equal; lia|]. pose proof (two_pos p ltac:(pose proof sizes; lia)). lia. Qed.
Lemma half_value : literal F 1 2 = Fin (2 ^ (oe - 1)).
Proof.
  pose proof sizes as S. apply literal_exact; [lia|rewrite U_half; lia|apply (rep_pow F HF); lia|]. pose proof (two_pos (oe - 1) ltac:(lia)). rewrite Z.abs_eq by lia. apply pow_lt. lia.
Qed.
Lemma to_int_nonneg T a : 0 <= a -> lowest T <= a / U <= highest T -> to_int F T (Fin a) = Ok (a / U).
Proof.
  intros Ha B. cbn [to_int]. fold U. rewrite Z.quot_div_nonneg by (pose proof U_pos; lia). destruct (Z.leb_spec (lowest T) (a / U)), (Z.leb_spec (a / U) (highest T)); cbn; try lia. reflexivity.
Qed.
Lemma to_int_neg T a : a <= 0 -> lowest T <= ceil_of F a <= highest T -> to_int F T (Fin a) = Ok (ceil_of F a).
Proof.
  intros Ha B. pose proof U_pos as Up. cbn [to_int]. fold U. assert (E : Z.quot a U = ceil_of F a). { unfold ceil_of. rewrite <- Z.quot_div_nonneg by lia. rewrite <- (Z.opp_involutive a) at 1. rewrite Z.quot_opp_l by lia. reflexivity. }
  rewrite E. destruct (Z.leb_spec (lowest T) (ceil_of F a)), (Z.leb_spec (ceil_of F a) (highest T)); cbn; try lia. reflexivity.
Qed.
(** A sum stays finite when it is below a power of two that is. *)
Lemma fadd_finite a b e : 0 <= e < top_exp F -> Z.abs (a + b) <= 2 ^ e -> fadd F (Fin a) (Fin b) = Fin (rnd F (a + b) 1).
Proof.
  intros He B. cbn [fadd]. apply fin_ok. pose proof (rep_pow F HF e ltac:(lia)) as R. pose proof (rep_opp F _ R) as R'.
  pose proof (rnd_below F HF (a + b) 1 (2 ^ e) ltac:(lia) R ltac:(lia)). pose proof (rnd_above F HF (a + b) 1 (- 2 ^ e) ltac:(lia) R' ltac:(lia)). pose proof (pow_lt e (top_exp F) ltac:(lia)). lia.
Qed.
Lemma div_unique_range a n : n * U <= a < (n + 1) * U -> a / U = n.
Proof. intros H. symmetry. apply Z.div_unique with (a - n * U); nia. Qed.
Lemma div_range a : (a / U) * U <= a < (a / U + 1) * U.
Proof. pose proof U_pos. pose proof (Z.div_mod a U ltac:(lia)). pose proof (Z.mod_pos_bound a U ltac:(lia)). nia. Qed.
(** Adding a half does not reach the next integer. *)
Lemma round_key d : representable F d -> 0 <= d < 2 ^ (p - 1) * U -> d <> 2 ^ (oe - 1) - 2 ^ (oe - 1 - p) ->
  rnd F (d + 2 ^ (oe - 1)) 1 / U = (d + 2 ^ (oe - 1)) / U.
Proof.
  intros R [D0 D1] NE. pose proof sizes as S. pose proof U_pos as Up. pose proof U_half as UH. set (H := 2 ^ (oe - 1)) in *. assert (HH : 0 < H) by (apply two_pos; lia).
  set (x := d + H) in *. set (n := x / U). pose proof (div_range x) as DR. fold n in DR. assert (PP : 2 ^ p = 2 * 2 ^ (p - 1)) by (rewrite <- Z.pow_succ_r by lia; f_equal; lia).
  assert (Hn : 0 <= n <= 2 ^ (p - 1)) by (unfold x in DR; nia). apply div_unique_range. split.
  - apply (rnd_above F HF x 1 (n * U)); [lia|apply (grid_rep F HF n oe); lia|lia].
  - destruct (Z_lt_ge_dec d (n * U)) as [L|L].
    + destruct (Z.eq_dec n (2 ^ (p - 1))) as [En|En].
      * assert (x <= n * U + (U - 1)) by lia. (* d < n U: then x < n U + H; n U + H is a tie of the last kind *)
        assert (X : x < n * U + H) by (unfold x; lia).
        assert (RX : rnd F x 1 <= (n + 1) * U - 1 \/ (n + 1) * U <= rnd F x 1) by lia. destruct RX as [RX|RX]; [lia|exfalso].
        pose proof (rnd_nearest F HF x 1 (n * U) ltac:(lia) (grid_rep F HF n oe ltac:(lia) ltac:(lia))) as K. rewrite !Z.mul_1_r in K. lia.
      * assert (Rm : representable F (n * U + H)).
        { replace (n * U + H) with ((2 * n + 1) * 2 ^ (oe - 1)) by (rewrite UH; unfold H; ring). apply (grid_rep F HF); lia. }
        pose proof (rnd_below F HF x 1 _ ltac:(lia) Rm ltac:(unfold x; lia)). nia.
    + destruct (Z.eq_dec n 0) as [E0|E0].
      * (* below a half *) rewrite E0 in *. assert (D2 : d < H) by (unfold x in DR; lia). set (q := 2 ^ (oe - 1 - p)) in *. assert (Hq : 0 < q) by (apply two_pos; lia).
        assert (Hpq : H = 2 ^ p * q) by (unfold H, q; rewrite <- two_split by lia; f_equal; lia).
        assert (Pp : 0 < 2 ^ (p - 1)) by (apply two_pos; lia).
        assert (D3 : d <= H - 2 * q).
        { destruct (rep_grid F HF d (oe - 1 - p) ltac:(lia) R) as [[k Ek]|B].
          - fold q in Ek. rewrite Ek in *. assert (k < 2 ^ p) by nia. assert (k <> 2 ^ p - 1) by (intros ->; apply NE; rewrite Hpq; ring). nia.
          - replace (p + (oe - 1 - p) - 1) with (p - 1 + (oe - 1 - p)) in B by lia. rewrite two_split in B by lia. fold q in B. rewrite Z.abs_eq in B by lia. assert (2 <= 2 ^ (p - 1)) by (change 2 with (2 ^ 1) at 1; apply pow_le; lia). rewrite Hpq, PP. assert (2 * q <= 2 ^ (p - 1) * q) by (apply Z.mul_le_mono_nonneg_r; lia). lia. }
        assert (Rm : representable F (U - 2 * q)).
        { replace (U - 2 * q) with ((2 ^ p - 1) * 2 ^ (oe - p)) by (replace (oe - p) with (Z.succ (oe - 1 - p)) by lia; rewrite Z.pow_succ_r by lia; fold q; rewrite UH, Hpq; ring).
          apply (grid_rep F HF); lia. }
        pose proof (rnd_below F HF x 1 _ ltac:(lia) Rm ltac:(unfold x; lia)). lia.
      * (* d and the sum are in one binade *)
        set (k := Z.log2 n). pose proof (Z.log2_spec n ltac:(lia)) as LS. fold k in LS. rewrite Z.pow_succ_r in LS by apply Z.log2_nonneg. pose proof (Z.log2_nonneg n) as K0. fold k in K0.
        assert (Kp : k <= p - 1). { destruct (Z_lt_ge_dec (p - 1) k) as [Q|Q]; [|lia]. pose proof (pow_lt (p - 1) k ltac:(lia)). lia. }
        set (e := oe + k + 1 - p). assert (He : 0 <= e) by (unfold e; lia).
        assert (R1 : representable F x).
        { destruct (Z.eq_dec n (2 ^ (p - 1))) as [En|En]; [exfalso; unfold x in DR; nia|].
          assert (Kp2 : k < p - 1). { destruct (Z.eq_dec k (p - 1)) as [Q|Q]; [rewrite Q in LS|]; lia. }
          destruct (rep_grid F HF d e He R) as [[j Ej]|B].
          - apply (multiple_rep F HF x e (j + 2 ^ (oe - 1 - e))); [exact He|unfold x; rewrite Ej; unfold H; rewrite Z.mul_add_distr_r, <- two_split by (unfold e; lia); do 2 f_equal; lia|].
            replace (p + e) with (Z.succ k + oe) by (unfold e; lia). rewrite two_split, Z.pow_succ_r by lia. fold U. unfold x in *. nia.
          - exfalso. replace (p + e - 1) with (k + oe) in B by (unfold e; lia). rewrite two_split in B by lia. fold U in B. unfold x in *. nia. }
        rewrite (rnd_id F HF x R1). lia.
Qed.
Lemma nearest_div d : nearest_of F d = (d + 2 ^ (oe - 1)) / U.
Proof. unfold nearest_of. rewrite U_half. replace (2 * d + 2 * 2 ^ (oe - 1)) with (2 * (d + 2 ^ (oe - 1))) by ring. rewrite Z.div_mul_cancel_l; [reflexivity| |lia]. pose proof (two_pos (oe - 1) ltac:(pose proof sizes; lia)). lia. Qed.
End Fmt.

(** * floor, ceil and round *)
Section Ceil.
Variable F : fmt.
Hypothesis HF : proper_fmt F.
Notation p := (prec F).
Notation oe := (one_exp F).
Notation U := (unit_of F).
Lemma integral_cases a : integral F a \/ (a / U) * U < a.
Proof. pose proof (div_range F HF a) as D. destruct (Z.eq_dec a (a / U * U)) as [E|E]; [left; exists (a / U); exact E|right; lia]. Qed.
Lemma ceil_integral n : ceil_of F (n * U) = n.
Proof. unfold ceil_of. rewrite <- Z.mul_opp_l, Z.div_mul by (pose proof (U_pos F HF); lia). lia. Qed.
Lemma ceil_div a : ~ integral F a -> ceil_of F a = a / U + 1.
Proof.
  intros NI. destruct (integral_cases a) as [I1|L]; [contradiction|]. pose proof (div_range F HF a) as D. pose proof (U_pos F HF) as Up. unfold ceil_of.
  rewrite (div_unique_range F (- a) (- (a / U) - 1)); [lia|]. lia.
Qed.
Lemma floor_ok T d : 0 <= d \/ integral F d -> lowest T <= floor_of F d <= highest T -> m_floor F T (Fin d) = Ok (floor_of F d).
Proof.
  intros H B. unfold m_floor. destruct (Z_le_gt_dec 0 d) as [L|L]; [apply to_int_nonneg; auto|]. destruct H as [H|[n ->]]; [lia|]. pose proof (U_pos F HF) as Up.
  assert (E : floor_of F (n * U) = n) by (unfold floor_of; apply Z.div_mul; lia). rewrite E in *. rewrite <- (ceil_integral n) at 2. apply to_int_neg; [exact HF|lia|]. rewrite ceil_integral. exact B.
Qed.
Lemma floor_wrong T d : d < 0 -> ~ integral F d -> lowest T <= floor_of F d + 1 <= highest T -> m_floor F T (Fin d) = Ok (floor_of F d + 1).
Proof. intros L NI B. unfold m_floor. unfold floor_of in *. rewrite <- (ceil_div d NI) in *. apply to_int_neg; [exact HF|lia|exact B]. Qed.
Lemma integral_shift d : integral F (d + U) <-> integral F d.
Proof. split; intros [n E]; [exists (n - 1)|exists (n + 1)]; lia. Qed.
Definition plus_one (T : ity) (d : fp) : res Z := to_int F T (fadd F d (of_int F 1)).
Lemma plus_one_sum T d : Z.abs d < 2 ^ (p - 1) * U -> plus_one T (Fin d) = to_int F T (Fin (rnd F (d + U) 1)).
Proof.
  intros B. unfold plus_one. rewrite (of_int_one F HF). pose proof (sizes F HF) as S. rewrite (fadd_finite F HF d U (p + oe)); [reflexivity|lia|]. rewrite two_split by lia. fold U.
  assert (2 ^ p = 2 * 2 ^ (p - 1)) by (rewrite <- Z.pow_succ_r by lia; f_equal; lia). assert (1 <= 2 ^ (p - 1)) by (pose proof (two_pos (p - 1) ltac:(lia)); lia). pose proof (U_pos F HF). nia.
Qed.
Lemma ceil_ok T d : Z.abs d < 2 ^ (p - 1) * U -> - U < d -> ~ integral F d -> representable F (d + U) -> lowest T <= ceil_of F d <= highest T -> plus_one T (Fin d) = Ok (ceil_of F d).
Proof.
  intros B L NI R BT. rewrite plus_one_sum by exact B. rewrite (rnd_id F HF _ R). rewrite (ceil_div d NI) in *. pose proof (U_pos F HF) as Up.
  assert (E : (d + U) / U = d / U + 1) by (rewrite <- (Z.mul_1_l U) at 1; rewrite Z.div_add by lia; reflexivity). rewrite <- E in *. apply to_int_nonneg; auto; lia.
Qed.
Lemma ceil_int T n : Z.abs n < 2 ^ (p - 1) -> lowest T <= n + 1 <= highest T -> plus_one T (Fin (n * U)) = Ok (n + 1).
Proof.
  intros B BT. pose proof (U_pos F HF) as Up. pose proof (sizes F HF) as S. rewrite plus_one_sum; [|rewrite Z.abs_mul, (Z.abs_eq U) by lia; nia].
  replace (n * U + U) with ((n + 1) * U) by ring. assert (2 ^ p = 2 * 2 ^ (p - 1)) by (rewrite <- Z.pow_succ_r by lia; f_equal; lia). pose proof (two_pos (p - 1) ltac:(lia)).
  rewrite (rnd_id F HF ((n + 1) * U)) by (apply (grid_rep F HF (n + 1) oe); lia).
  destruct (Z_le_gt_dec 0 (n + 1)) as [L|L].
  - rewrite to_int_nonneg; rewrite ?Z.div_mul by lia; auto. nia.
  - rewrite to_int_neg; rewrite ?ceil_integral; auto. nia.
Qed.
Lemma ceil_near T d : 0 <= d < 2 ^ (p - 1) * U -> ~ integral F d -> lowest T <= 0 -> ceil_of F d + 1 <= highest T ->
  plus_one T (Fin d) = Ok (ceil_of F d) \/ plus_one T (Fin d) = Ok (ceil_of F d + 1).
Proof.
  intros B NI L1 L2. rewrite plus_one_sum by (rewrite Z.abs_eq; lia). rewrite (ceil_div d NI) in *. pose proof (div_range F HF d) as D. set (n := d / U) in *. pose proof (U_pos F HF) as Up. pose proof (sizes F HF) as S.
  assert (2 ^ p = 2 * 2 ^ (p - 1)) by (rewrite <- Z.pow_succ_r by lia; f_equal; lia). assert (2 <= 2 ^ (p - 1)) by (change 2 with (2 ^ 1) at 1; apply pow_le; lia). assert (Hn : 0 <= n < 2 ^ (p - 1)) by nia.
  pose proof (rnd_above F HF (d + U) 1 ((n + 1) * U) ltac:(lia) (grid_rep F HF (n + 1) oe ltac:(lia) ltac:(lia)) ltac:(lia)) as A1.
  pose proof (rnd_below F HF (d + U) 1 ((n + 2) * U) ltac:(lia) (grid_rep F HF (n + 2) oe ltac:(lia) ltac:(lia)) ltac:(lia)) as A2. set (r := rnd F (d + U) 1) in *.
  destruct (Z.eq_dec r ((n + 2) * U)) as [E|E].
  - right. assert (Q : r / U = n + 1 + 1) by (rewrite E, Z.div_mul by lia; lia). rewrite <- Q in *. apply to_int_nonneg; auto; try lia; nia.
  - left. assert (Q : r / U = n + 1) by (apply div_unique_range; lia). rewrite <- Q in *. apply to_int_nonneg; auto; try lia; nia.
Qed.
Lemma ceil_wrong T d : representable F d -> - (2 ^ (p - 1) * U) < d < - U -> ~ integral F d -> lowest T <= ceil_of F d -> ceil_of F d + 1 <= highest T -> plus_one T (Fin d) = Ok (ceil_of F d + 1).
Proof.
  intros R B NI L1 L2. pose proof (U_pos F HF) as Up. pose proof (sizes F HF) as S. rewrite plus_one_sum by lia.
  assert (R1 : representable F (d + U)).
  { destruct (rep_lattice F HF d R) as [k Ek]. pose proof (lattice_upper F HF d) as LU. assert (0 <= lattice F d) by apply grid_nonneg.
    destruct (Z_le_gt_dec (lattice F d) oe) as [Lo|Lo].
    - apply (multiple_rep F HF (d + U) (lattice F d) (k + 2 ^ (oe - lattice F d))); [lia|rewrite Z.mul_add_distr_r, <- Ek; f_equal; unfold unit_of; rewrite <- two_split by lia; f_equal; lia|lia].
    - exfalso. apply NI. exists (k * 2 ^ (lattice F d - oe)). rewrite Ek at 1. rewrite <- Z.mul_assoc. unfold unit_of. rewrite <- two_split by lia. do 2 f_equal. lia. }
  rewrite (rnd_id F HF _ R1). assert (NI' : ~ integral F (d + U)) by (rewrite integral_shift; exact NI).
  assert (Q : ceil_of F (d + U) = ceil_of F d + 1). { rewrite (ceil_div _ NI), (ceil_div _ NI'). rewrite <- (Z.mul_1_l U) at 1. rewrite Z.div_add by lia. lia. }
  rewrite <- Q in *. apply to_int_neg; [exact HF|lia|lia].
Qed.
Definition plus_half (T : ity) (d : fp) : res Z := to_int F T (fadd F d (literal F 1 2)).
Lemma plus_half_sum T d : Z.abs d < 2 ^ (p - 1) * U -> plus_half T (Fin d) = to_int F T (Fin (rnd F (d + 2 ^ (oe - 1)) 1)).
Proof.
  intros B. unfold plus_half. rewrite (half_value F HF). pose proof (sizes F HF) as S. rewrite (fadd_finite F HF d _ (p + oe)); [reflexivity|lia|]. rewrite two_split by lia. fold U.
  assert (2 ^ p = 2 * 2 ^ (p - 1)) by (rewrite <- Z.pow_succ_r by lia; f_equal; lia). assert (1 <= 2 ^ (p - 1)) by (pose proof (two_pos (p - 1) ltac:(lia)); lia). pose proof (U_pos F HF). pose proof (U_half F HF). nia.
Qed.
Lemma round_ok T d : representable F d -> 0 <= d < 2 ^ (p - 1) * U -> d <> 2 ^ (oe - 1) - 2 ^ (oe - 1 - p) -> lowest T <= nearest_of F d <= highest T -> plus_half T (Fin d) = Ok (nearest_of F d).
Proof.
  intros R B NE BT. rewrite plus_half_sum by (rewrite Z.abs_eq; lia). rewrite (nearest_div F HF) in *. rewrite <- (round_key F HF d R B NE) in *. apply to_int_nonneg; auto.
  pose proof (two_pos (oe - 1) ltac:(pose proof (sizes F HF); lia)). apply (rnd_above F HF _ 1 0); try lia. apply rep_0; auto.
Qed.
Lemma round_negative T n : - 2 ^ (p - 1) < n < 0 -> lowest T <= n + 1 <= highest T -> plus_half T (Fin (n * U)) = Ok (n + 1).
Proof.
  intros B BT. pose proof (U_pos F HF) as Up. pose proof (sizes F HF) as S. pose proof (U_half F HF) as UH. rewrite plus_half_sum by (rewrite Z.abs_mul, (Z.abs_eq U) by lia; nia).
  set (H := 2 ^ (oe - 1)) in *. assert (HH : 0 < H) by (apply two_pos; lia). assert (2 ^ p = 2 * 2 ^ (p - 1)) by (rewrite <- Z.pow_succ_r by lia; f_equal; lia).
  assert (R : representable F (n * U + H)). { replace (n * U + H) with ((2 * n + 1) * 2 ^ (oe - 1)) by (rewrite UH; unfold H; ring). apply (grid_rep F HF); lia. }
  rewrite (rnd_id F HF _ R). assert (Q : ceil_of F (n * U + H) = n + 1). { unfold ceil_of. rewrite (div_unique_range F (- (n * U + H)) (- n - 1)); lia. }
  rewrite <- Q in *. apply to_int_neg; [exact HF|nia|lia].
Qed.
End Ceil.
(** * A float as a double *)
Notation W := (2 ^ (one_exp double - one_exp single)).
Lemma unit_wide : unit_of double = unit_of single * W.
Proof. unfold unit_of. rewrite <- two_split; [reflexivity|cbn; lia..]. Qed.
Lemma W_pos : 0 < W.
Proof. apply two_pos. cbn. lia. Qed.
Lemma wide_rep d : representable single d -> representable double (d * W).
Proof.
  intros (m & e & He & Hm & ->). exists m, (e + (one_exp double - one_exp single)). assert (0 <= one_exp double - one_exp single) by (cbn; lia). split; [lia|]. split.
  - eapply Z.lt_trans; [exact Hm|]. apply pow_lt. cbn. lia.
  - rewrite two_split by lia. ring.
Qed.
Lemma wide_nearest d : nearest_of double (d * W) = nearest_of single d.
Proof.
  unfold nearest_of. rewrite unit_wide. pose proof W_pos. pose proof (U_pos single single_proper). replace (2 * (d * W) + unit_of single * W) with ((2 * d + unit_of single) * W) by ring.
  replace (2 * (unit_of single * W)) with (2 * unit_of single * W) by ring. apply Z.div_mul_cancel_r; lia.
Qed.
Lemma wide_not_below_half d : representable single d -> d * W <> 2 ^ (one_exp double - 1) - 2 ^ (one_exp double - 1 - prec double).
Proof.
  intros R E. destruct (rep_grid single single_proper d 124 ltac:(lia) R) as [[k Ek]|B].
  - rewrite Ek in E. apply (f_equal (fun z => z / 2 ^ 1020)) in E. revert E. replace (k * 2 ^ 124 * W) with (k * 2 ^ 29 * 2 ^ 1020) by (change (one_exp double - one_exp single) with 925; rewrite <- !Z.mul_assoc, <- !two_split by lia; reflexivity).
    rewrite Z.div_mul by (pose proof (two_pos 1020); lia). intros E. assert (V : (2 ^ (one_exp double - 1) - 2 ^ (one_exp double - 1 - prec double)) / 2 ^ 1020 = 2 ^ 53 - 1) by (vm_compute; reflexivity). rewrite V in E. lia.
  - change (prec single + 124 - 1) with 147 in B. assert (L : Z.abs (d * W) < 2 ^ 147 * W) by (rewrite Z.abs_mul, (Z.abs_eq W) by (pose proof W_pos; lia); apply Z.mul_lt_mono_pos_r; [apply W_pos|exact B]).
    rewrite E in L. revert L. vm_compute. discriminate.
Qed.
Lemma m_round_plus T d : m_round_d T d = plus_half double T d.
Proof. reflexivity. Qed.
Lemma m_ceil_plus T d : m_ceil_d T d = plus_one double T d.
Proof. reflexivity. Qed.
Lemma round_float_ok T d : representable single d -> 0 <= d < 2 ^ 52 * unit_of single -> lowest T <= nearest_of single d <= highest T -> m_round_f T (Fin d) = Ok (nearest_of single d).
Proof.
  intros R B BT. unfold m_round_f. cbn [to_double]. rewrite m_round_plus, <- wide_nearest in *. apply (round_ok double double_proper); auto; [apply wide_rep; auto| |apply wide_not_below_half; auto].
  change (prec double - 1) with 52. rewrite unit_wide. pose proof W_pos. split; [nia|]. rewrite Z.mul_assoc. apply Z.mul_lt_mono_pos_r; lia.
Qed.

(** * nearly_equal *)
Section Near.
Variable F : fmt.
Hypothesis HF : proper_fmt F.
Notation p := (prec F).
Notation oe := (one_exp F).
Notation U := (unit_of F).
Lemma m_abs_fin z : m_abs (Fin z) = Fin (Z.abs z).
Proof. unfold m_abs. cbn [flt]. destruct (Z.ltb_spec z 0); cbn [fneg]; f_equal; lia. Qed.
Lemma fin_opp z : fin F (- z) = fneg (fin F z).
Proof.
  unfold fin. rewrite Z.abs_opp. destruct (Z.ltb_spec (Z.abs z) (2 ^ top_exp F)) as [L|L]; cbn [fneg]; [reflexivity|]. f_equal. pose proof (two_pos (top_exp F) ltac:(pose proof (sizes F HF); lia)).
  destruct (Z.ltb_spec (- z) 0), (Z.ltb_spec z 0); cbn; lia.
Qed.
Lemma m_abs_neg x : m_abs (fneg x) = m_abs x.
Proof. destruct x as [z|[]|]; cbn [fneg]; rewrite ?m_abs_fin, ?Z.abs_opp; reflexivity. Qed.
Lemma fsub_swap a b : fsub F a b = fneg (fsub F b a).
Proof.
  destruct a as [a|s|], b as [b|t|]; cbn; try reflexivity; try (destruct s; reflexivity); try (destruct t; reflexivity); [|destruct s, t; reflexivity].
  rewrite <- fin_opp, <- rnd_opp by (auto; lia). replace (- (b + - a)) with (a + - b) by lia. reflexivity.
Qed.
Lemma fadd_comm a b : fadd F a b = fadd F b a.
Proof. destruct a as [a|s|], b as [b|t|]; cbn; try reflexivity; [rewrite Z.add_comm; reflexivity|destruct s, t; reflexivity]. Qed.
Lemma feq_comm a b : feq a b = feq b a.
Proof. destruct a as [a|s|], b as [b|t|]; cbn; try reflexivity; [apply Z.eqb_sym|destruct s, t; reflexivity]. Qed.
Lemma near_sym a b eps : nearly_equal F a b eps = nearly_equal F b a eps.
Proof.
  unfold nearly_equal. rewrite (fsub_swap b a), m_abs_neg, (fadd_comm (m_abs b)), (feq_comm b a), (orb_comm (feq b (Fin 0))). destruct (is_nan_fp a), (is_nan_fp b); reflexivity.
Qed.
Lemma near_refl a eps : nearly_equal F a a eps = true.
Proof.
  destruct a as [a|s|]; unfold nearly_equal; [|destruct s; reflexivity|reflexivity]. cbn [is_nan_fp feq]. rewrite Z.eqb_refl. unfold is_nan_fp. cbn [feq negb]. rewrite Z.eqb_refl. cbn [negb].
  destruct (negb _); reflexivity.
Qed.
Lemma near_nan a eps : a <> NaN -> nearly_equal F NaN a eps = false.
Proof. intros H. destruct a as [a|[]|]; unfold nearly_equal, is_nan_fp; cbn; rewrite ?Z.eqb_refl; cbn; congruence. Qed.
Lemma negative_int n : n <= 0 -> (exists z, of_int F n = Fin z /\ z <= 0) \/ of_int F n = Inf true.
Proof.
  intros H. pose proof (U_pos F HF) as Up. unfold of_int, literal. fold U. destruct (rnd_sign F HF (n * U)) as [_ S]. specialize (S ltac:(nia)). unfold fin.
  destruct (Z.ltb_spec (Z.abs (rnd F (n * U) 1)) (2 ^ top_exp F)) as [L|L]; [left; eauto|right]. f_equal. apply Z.ltb_lt. pose proof (two_pos (top_exp F) ltac:(pose proof (sizes F HF); lia)). lia.
Qed.
Lemma min_exponent_neg : min_exponent F <= 0.
Proof. unfold min_exponent. pose proof (sizes F HF). lia. Qed.
Lemma never_below d : 0 <= d -> flt (Fin d) (of_int F (min_exponent F)) = false.
Proof. intros H. destruct (negative_int _ min_exponent_neg) as [(z & -> & L)| ->]; cbn; [apply Z.ltb_ge; lia|reflexivity]. Qed.
Lemma never_below_eps d e : 0 <= d -> 0 < e -> flt (Fin d) (fmul F (Fin e) (of_int F (min_exponent F))) = false.
Proof.
  intros H He. destruct (negative_int _ min_exponent_neg) as [(z & -> & L)| ->]; cbn [fmul].
  - fold U. pose proof (U_pos F HF) as Up. assert (S : rnd F (e * z) U <= 0) by (apply (rnd_below F HF _ U 0); [lia|apply rep_0; auto|nia]). unfold fin.
    destruct (Z.ltb_spec (Z.abs (rnd F (e * z) U)) (2 ^ top_exp F)); cbn [flt]; [apply Z.ltb_ge; lia|]. destruct (Z.ltb_spec (rnd F (e * z) U) 0); [reflexivity|]. pose proof (two_pos (top_exp F) ltac:(pose proof (sizes F HF); lia)). lia.
  - destruct (Z.eqb_spec e 0); [lia|]. destruct (Z.ltb_spec e 0); [lia|reflexivity].
Qed.
Lemma inf_never e : flt (Inf false) (fmul F (Fin e) (of_int F (min_exponent F))) = false.
Proof. generalize (fmul F (Fin e) (of_int F (min_exponent F))). intros [z|[]|]; reflexivity. Qed.
Lemma diff_cases a b : m_abs (fsub F (Fin a) (Fin b)) = Fin (Z.abs (rnd F (a - b) 1)) /\ Z.abs (rnd F (a - b) 1) < 2 ^ top_exp F \/ m_abs (fsub F (Fin a) (Fin b)) = Inf false /\ 2 ^ top_exp F <= Z.abs (rnd F (a - b) 1).
Proof.
  unfold fsub. cbn [fneg fadd]. change (a + - b) with (a - b). unfold fin. destruct (Z.ltb_spec (Z.abs (rnd F (a - b) 1)) (2 ^ top_exp F)); [left; rewrite m_abs_fin; auto|right].
  split; [|auto]. unfold m_abs. destruct (_ <? 0); reflexivity.
Qed.
Lemma near_zero x e : x <> 0 -> 0 < e -> nearly_equal F (Fin 0) (Fin x) (Fin e) = false.
Proof.
  intros Hx He. unfold nearly_equal, is_nan_fp. cbn [feq]. rewrite !Z.eqb_refl. cbn [negb orb]. destruct (Z.eqb_spec 0 x) as [E|_]; [lia|].
  destruct (diff_cases 0 x) as [[-> _]|[-> _]]; cbn [feq]; rewrite ?Z.eqb_refl; cbn [negb Bool.eqb].
  - rewrite never_below_eps by lia. reflexivity.
  - rewrite inf_never. reflexivity.
Qed.
Definition quotient (a b : Z) : fp :=
  let s := fadd F (Fin (Z.abs a)) (Fin (Z.abs b)) in
  fdiv F (m_abs (fsub F (Fin a) (Fin b))) (if flt (max_num F) s then max_num F else s).
Lemma near_decision a b eps : a <> 0 -> b <> 0 -> a <> b -> nearly_equal F (Fin a) (Fin b) eps = flt (quotient a b) eps.
Proof.
  intros Ha Hb Hab. unfold nearly_equal, quotient. rewrite !m_abs_fin. unfold is_nan_fp at 1 2. cbn [feq]. rewrite !Z.eqb_refl. cbn [negb].
  destruct (Z.eqb_spec a b) as [|_]; [lia|]. destruct (Z.eqb_spec a 0) as [|_]; [lia|]. destruct (Z.eqb_spec b 0) as [|_]; [lia|]. cbn [orb].
  destruct (diff_cases a b) as [[-> _]|[-> _]]; unfold is_nan_fp; cbn [feq]; rewrite ?Z.eqb_refl; cbn [negb Bool.eqb].
  - rewrite never_below by lia. reflexivity.
  - assert (E : flt (Inf false) (of_int F (min_exponent F)) = false) by (generalize (of_int F (min_exponent F)); intros [z|[]|]; reflexivity). rewrite E. reflexivity.
Qed.
(** The divisor. *)
Lemma divisor_value a b : number F (Fin a) -> number F (Fin b) -> a <> 0 -> exists M, (let s := fadd F (Fin (Z.abs a)) (Fin (Z.abs b)) in if flt (max_num F) s then max_num F else s) = Fin M /\
  M = Z.min (rnd F (Z.abs a + Z.abs b) 1) (2 ^ top_exp F - 2 ^ (top_exp F - p)) /\ 0 < M.
Proof.
  intros [Ra Ba] [Rb Bb] Ha. pose proof (sizes F HF) as S. set (m := 2 ^ top_exp F - 2 ^ (top_exp F - p)).
  assert (Hm : 0 < m) by (pose proof (pow_lt (top_exp F - p) (top_exp F) ltac:(lia)); unfold m; lia).
  assert (Rabs : representable F (Z.abs a)) by (destruct (Z.abs_spec a) as [[_ ->]|[_ ->]]; [exact Ra|apply rep_opp; exact Ra]).
  assert (P : 0 < rnd F (Z.abs a + Z.abs b) 1). { pose proof (rnd_above F HF (Z.abs a + Z.abs b) 1 (Z.abs a) ltac:(lia) Rabs ltac:(lia)). lia. }
  cbn zeta. cbn [fadd]. unfold fin. set (r := rnd F (Z.abs a + Z.abs b) 1) in *. rewrite (Z.abs_eq r) by lia. unfold max_num. fold m.
  destruct (Z.ltb_spec r (2 ^ top_exp F)) as [L|L]; cbn [flt].
  - destruct (Z.ltb_spec m r) as [L2|L2]; eexists; split; try reflexivity; lia.
  - destruct (Z.ltb_spec r 0); [lia|]. cbn [negb]. eexists. split; [reflexivity|]. split; [|exact Hm]. pose proof (two_pos (top_exp F - p) ltac:(lia)). unfold m in *. lia.
Qed.
Lemma eps_value : U = 2 ^ (p - 1) * 2 ^ (oe - p + 1).
Proof. unfold unit_of. rewrite <- two_split by (pose proof (sizes F HF); lia). f_equal. lia. Qed.
Lemma near_sound a b : number F (Fin a) -> number F (Fin b) -> a <> 0 -> b <> 0 -> a <> b -> nearly_equal F (Fin a) (Fin b) (epsilon F) = true -> 2 ^ p * Z.abs (a - b) <= 4 * (Z.abs a + Z.abs b).
Proof.
  intros Na Nb Ha Hb Hab E. rewrite near_decision in E by auto. unfold quotient in E. destruct (divisor_value a b Na Nb Ha) as (M & EM & VM & PM). cbn zeta in EM. cbn zeta in E. rewrite EM in E.
  pose proof (sizes F HF) as S. pose proof (U_pos F HF) as Up. set (ep := 2 ^ (oe - p + 1)) in *. assert (Hep : 0 < ep) by (apply two_pos; lia).
  destruct (diff_cases a b) as [[ED BD]|[ED _]]; rewrite ED in E.
  2:{ cbn [fdiv] in E. destruct (Z.ltb_spec M 0); [lia|]. discriminate. }
  set (D' := Z.abs (rnd F (a - b) 1)) in *. cbn [fdiv] in E. destruct (Z.eqb_spec M 0); [lia|]. rewrite (Z.sgn_pos M), (Z.abs_eq M), Z.mul_1_r in E by lia. fold U in E. unfold fin in E.
  assert (Q0 : 0 <= rnd F (D' * U) M) by (apply (rnd_above F HF _ M 0); [lia|apply rep_0; auto|unfold D'; nia]).
  destruct (Z.ltb_spec (Z.abs (rnd F (D' * U) M)) (2 ^ top_exp F)) as [L|L]; [|destruct (Z.ltb_spec (rnd F (D' * U) M) 0); [lia|discriminate]].
  unfold epsilon in E. cbn [flt] in E. apply Z.ltb_lt in E. fold ep in E.
  assert (K : D' * U < ep * M). { destruct (Z_lt_ge_dec (D' * U) (ep * M)) as [|G]; [auto|]. pose proof (rnd_above F HF (D' * U) M ep ltac:(lia) (rep_pow F HF (oe - p + 1) ltac:(lia)) ltac:(lia)). lia. }
  rewrite eps_value in K. fold ep in K. assert (PP : 2 ^ p = 2 * 2 ^ (p - 1)) by (rewrite <- Z.pow_succ_r by lia; f_equal; lia).
  assert (K2 : D' * 2 ^ (p - 1) < M) by (apply Z.mul_lt_mono_pos_r with ep; [exact Hep|]; lia). pose proof (rnd_error F HF (a - b)) as R1. pose proof (rnd_error F HF (Z.abs a + Z.abs b)) as R2. set (r := rnd F (Z.abs a + Z.abs b) 1) in *.
  assert (P4 : 4 <= 2 ^ p) by (change 4 with (2 ^ 2); apply pow_le; lia). set (Sm := Z.abs a + Z.abs b) in *. rewrite (Z.abs_eq Sm) in R2 by (unfold Sm; lia).
  assert (R3 : 4 * Z.abs (r - Sm) <= Sm) by (eapply Z.le_trans; [|exact R2]; apply Z.mul_le_mono_nonneg_r; lia).
  assert (R4 : Z.abs (a - b) <= D' + Z.abs (rnd F (a - b) 1 - (a - b))) by (unfold D'; lia).
  assert (R5 : 2 ^ p * Z.abs (a - b) <= 2 ^ p * D' + Z.abs (a - b)) by (eapply Z.le_trans; [apply Z.mul_le_mono_nonneg_l; [|exact R4]; lia|rewrite Z.mul_add_distr_l; lia]). assert (R6 : Z.abs (a - b) <= Sm) by (unfold Sm; lia).
  assert (R7 : 2 ^ p * D' = 2 * (D' * 2 ^ (p - 1))) by (rewrite PP; ring). clear - R3 R5 R6 R7 K2 VM. lia.
Qed.
Lemma near_complete a b : 3 <= p -> number F (Fin a) -> number F (Fin b) -> a <> 0 -> b <> 0 -> 2 ^ p * Z.abs (a - b) <= Z.min (Z.abs a + Z.abs b) (2 ^ top_exp F) -> nearly_equal F (Fin a) (Fin b) (epsilon F) = true.
Proof.
  intros P3 Na Nb Ha Hb B. destruct (Z.eq_dec a b) as [E|Hab]; [subst; apply near_refl|]. rewrite near_decision by auto. unfold quotient. destruct (divisor_value a b Na Nb Ha) as (M & EM & VM & PM). cbn zeta in EM |- *. rewrite EM.
  pose proof (sizes F HF) as S. pose proof (U_pos F HF) as Up. set (h := 2 ^ (oe - p - 1)). assert (Hh : 0 < h) by (apply two_pos; lia).
  assert (Eep : 2 ^ (oe - p + 1) = 4 * h) by (unfold h; change 4 with (2 ^ 2); rewrite <- two_split by lia; f_equal; lia).
  assert (EU : U = 2 ^ p * (2 * h)) by (unfold h, unit_of; rewrite <- Z.pow_succ_r, <- two_split by lia; f_equal; lia).
  set (D := Z.abs (a - b)) in *. pose proof (rnd_error F HF (a - b)) as R1. pose proof (rnd_error F HF (Z.abs a + Z.abs b)) as R2. set (r := rnd F (Z.abs a + Z.abs b) 1) in *. set (Sm := Z.abs a + Z.abs b) in *. rewrite (Z.abs_eq Sm) in R2 by (unfold Sm; lia).
  assert (P8 : 8 <= 2 ^ p) by (change 8 with (2 ^ 3); apply pow_le; lia). fold D in R1.
  assert (T : 2 ^ top_exp F = 2 ^ p * 2 ^ (top_exp F - p)) by (rewrite <- two_split by lia; f_equal; lia). set (t := 2 ^ (top_exp F - p)) in *. assert (Ht : 0 < t) by (apply two_pos; lia). assert (HD : 0 <= D) by (unfold D; lia).
  assert (Dt : D <= t) by (apply Z.mul_le_mono_pos_l with (2 ^ p); lia).
  set (D' := Z.abs (rnd F (a - b) 1)) in *. assert (R3 : 2 ^ p * D' <= (2 ^ p + 1) * D).
  { assert (R0 : D' <= D + Z.abs (rnd F (a - b) 1 - (a - b))) by (unfold D', D; lia). eapply Z.le_trans; [apply Z.mul_le_mono_nonneg_l; [|exact R0]; lia|]. rewrite Z.mul_add_distr_l, Z.mul_add_distr_r. lia. }
  assert (HD' : 0 <= D') by (unfold D'; lia). assert (R4 : D' <= 2 * D). { apply Z.mul_le_mono_pos_l with (2 ^ p); [lia|]. eapply Z.le_trans; [exact R3|]. replace (2 ^ p * (2 * D)) with (2 * 2 ^ p * D) by ring. apply Z.mul_le_mono_nonneg_r; lia. }
  assert (R5 : 8 * t <= 2 ^ p * t) by (apply Z.mul_le_mono_nonneg_r; lia). assert (BD : D' < 2 ^ top_exp F) by lia.
  assert (M1 : (2 ^ p - 1) * D <= M). { rewrite VM. apply Z.min_glb; [|rewrite T; assert ((2 ^ p - 1) * D <= (2 ^ p - 1) * t) by (apply Z.mul_le_mono_nonneg_l; lia); lia]. assert (G : (2 ^ p - 1) * Sm <= 2 ^ p * r). { assert (G1 : 2 ^ p * (Sm - r) <= 2 ^ p * Z.abs (r - Sm)) by (apply Z.mul_le_mono_nonneg_l; lia). rewrite Z.mul_sub_distr_l in G1. lia. }
    assert (G2 : 2 ^ p * D <= Sm) by lia. apply Z.mul_le_mono_pos_l with (2 ^ p); [lia|]. eapply Z.le_trans; [|exact G]. replace (2 ^ p * ((2 ^ p - 1) * D)) with ((2 ^ p - 1) * (2 ^ p * D)) by ring. apply Z.mul_le_mono_nonneg_l; lia. }
  assert (K : 2 * 2 ^ p * D' <= 3 * M). { assert (8 * D <= 2 ^ p * D) by (apply Z.mul_le_mono_nonneg_r; lia). lia. }
  destruct (diff_cases a b) as [[ED _]|[_ G]]; [|unfold D' in BD; lia]. rewrite ED. fold D'. cbn [fdiv]. destruct (Z.eqb_spec M 0); [lia|]. rewrite (Z.sgn_pos M), (Z.abs_eq M), Z.mul_1_r by lia. fold U.
  assert (Rw : representable F (3 * h)) by (apply (grid_rep F HF 3 (oe - p - 1)); lia).
  assert (K2 : D' * U <= 3 * h * M) by (rewrite EU; replace (D' * (2 ^ p * (2 * h))) with (2 * 2 ^ p * D' * h) by ring; replace (3 * h * M) with (3 * M * h) by ring; apply Z.mul_le_mono_nonneg_r; lia). pose proof (rnd_below F HF (D' * U) M (3 * h) PM Rw K2) as Q1. assert (Q0 : 0 <= rnd F (D' * U) M) by (apply (rnd_above F HF _ M 0); [lia|apply rep_0; auto|rewrite Z.mul_0_l; apply Z.mul_nonneg_nonneg; lia]).
  clear - Q0 Q1 Eep Hh S HF. rewrite fin_ok; [unfold epsilon; cbn [flt]; apply Z.ltb_lt; lia|]. rewrite Z.abs_eq by lia. eapply Z.le_lt_trans; [exact Q1|]. pose proof (pow_lt (oe - p + 1) (top_exp F) ltac:(lia)). lia.
Qed.
End Near.
