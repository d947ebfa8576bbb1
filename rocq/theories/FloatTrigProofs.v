(** Proofs about sin, ldexp, the tables of powers and square roots. *)
From Verif Require Import Common Ints Math CxMath Floats FloatMath SpecFloats SpecFloatMath FloatsProofs FloatMathProofs.
Open Scope Z_scope.

(** * sin and cos *)
Notation U := (unit_of double).
Notation T0 := (top_exp double).
Lemma tol_value : exists t, tol = Fin t /\ 4 <= t.
Proof. eexists. split; [vm_compute; reflexivity|]. vm_compute. discriminate. Qed.
Lemma three_value : of_int double 3 = Fin (3 * U).
Proof. apply (of_int_small double double_proper). vm_compute. discriminate. Qed.
Lemma third_smaller z : 4 <= z < 2 ^ T0 -> exists z', fdiv double (Fin z) (of_int double 3) = Fin z' /\ 0 <= z' < z.
Proof.
  intros [Z1 Z2]. rewrite three_value. cbn [fdiv]. fold U. pose proof (U_pos double double_proper) as Up. destruct (Z.eqb_spec (3 * U) 0) as [|_]; [lia|]. rewrite (Z.sgn_pos (3 * U)), (Z.abs_eq (3 * U)), Z.mul_1_r by lia.
  set (l := Z.log2 z). pose proof (Z.log2_spec z ltac:(lia)) as LS. fold l in LS. assert (L2 : 2 <= l) by (change 2 with (Z.log2 4); apply Z.log2_le_mono; lia).
  assert (E1 : 2 ^ l = 4 * 2 ^ (l - 2)) by (change 4 with (2 ^ 2); rewrite <- two_split by lia; f_equal; lia). rewrite Z.pow_succ_r in LS by lia. set (h := 2 ^ (l - 2)) in *. assert (Hh : 0 < h) by (apply two_pos; lia).
  assert (R : representable double (3 * h)) by (apply (grid_rep double double_proper 3 (l - 2)); [lia|vm_compute; discriminate]).
  assert (A : rnd double (z * U) (3 * U) <= 3 * h) by (apply (rnd_below double double_proper); [lia|exact R|nia]).
  assert (B : 0 <= rnd double (z * U) (3 * U)) by (apply (rnd_above double double_proper _ _ 0); [lia|apply rep_0, double_proper|nia]).
  exists (rnd double (z * U) (3 * U)). split; [apply fin_ok; rewrite Z.abs_eq by lia; lia|lia].
Qed.
Lemma sin_step n x : sin_helper (S n) x = if flt x tol then Ok x else
  (s <- sin_helper n (fdiv double x (of_int double 3)) ;; Ok (fsub double (fmul double (of_int double 3) s) (fmul double (of_int double 4) (cube s)))).
Proof. reflexivity. Qed.
Lemma sin_terminates n : forall z, z < 2 ^ T0 -> z < Z.of_nat n -> exists v, sin_helper (S n) (Fin z) = Ok v.
Proof.
  destruct tol_value as (t & Et & T4).
  induction n as [|n IH]; intros z B L; rewrite sin_step, Et; cbn [flt]; destruct (Z.ltb_spec z t) as [Lt|Lt]; eauto; [lia|].
  destruct (third_smaller z ltac:(lia)) as (z' & Ez & Bz). rewrite Ez. destruct (IH z' ltac:(lia) ltac:(lia)) as [v Ev]. rewrite Ev. cbn [bind]. eauto.
Qed.
Lemma sin_fuel n : forall x v m, sin_helper n x = Ok v -> (n <= m)%nat -> sin_helper m x = Ok v.
Proof.
  induction n as [|n IH]; intros x v m E L; [discriminate|]. destruct m as [|m]; [lia|]. rewrite sin_step in E |- *. destruct (flt x tol); [exact E|].
  generalize dependent (fdiv double x (of_int double 3)). intros y E. destruct (sin_helper n y) as [s| | |] eqn:Es; [|discriminate E..]. rewrite (IH _ _ m Es ltac:(lia)). exact E.
Qed.
Lemma sin_total z : z < 2 ^ T0 -> exists n v, forall m, (n <= m)%nat -> sin_helper m (Fin z) = Ok v.
Proof.
  intros B. destruct (sin_terminates (Z.to_nat (z + 1)) z B ltac:(lia)) as [v E]. exists (S (Z.to_nat (z + 1))), v. intros m L. apply (sin_fuel _ _ _ _ E L).
Qed.
Lemma largest F z : proper_fmt F -> number F (Fin z) -> Z.abs z <= 2 ^ top_exp F - 2 ^ (top_exp F - prec F).
Proof.
  intros HF [R B]. pose proof (sizes F HF) as S. assert (E : 2 ^ top_exp F = 2 ^ prec F * 2 ^ (top_exp F - prec F)) by (rewrite <- two_split by lia; f_equal; lia). set (t := 2 ^ (top_exp F - prec F)) in *. assert (Ht : 0 < t) by (apply two_pos; lia).
  destruct (rep_grid F HF z (top_exp F - prec F) ltac:(lia) R) as [[k Ek]|L].
  - fold t in Ek. rewrite E. rewrite Ek, Z.abs_mul, (Z.abs_eq t) in * by lia. rewrite E in B. assert (Z.abs k < 2 ^ prec F) by (apply Z.mul_lt_mono_pos_r with t; lia). assert (Z.abs k * t <= (2 ^ prec F - 1) * t) by (apply Z.mul_le_mono_nonneg_r; lia). lia.
  - replace (prec F + (top_exp F - prec F) - 1) with (prec F - 1 + (top_exp F - prec F)) in L by lia. rewrite two_split in L by lia. fold t in L. assert (2 ^ prec F = 2 * 2 ^ (prec F - 1)) by (rewrite <- Z.pow_succ_r by lia; f_equal; lia).
    assert (1 * t <= 2 ^ (prec F - 1) * t) by (apply Z.mul_le_mono_nonneg_r; [lia|]; pose proof (two_pos (prec F - 1) ltac:(lia)); lia). lia.
Qed.
(** A constant below 2^1100 can be added to every number. *)
Lemma add_constant c z : number double (Fin z) -> Z.abs c < 2 ^ 1100 -> exists r, fadd double (Fin c) (Fin z) = Fin r /\ r < 2 ^ T0.
Proof.
  intros N C. pose proof (largest double z double_proper N) as L. set (mx := 2 ^ top_exp double - 2 ^ (top_exp double - prec double)) in *. pose proof (proj1 N) as R. exists (rnd double (c + z) 1). cbn [fadd].
  pose proof (rnd_nearest double double_proper (c + z) 1 z ltac:(lia) R) as K. rewrite !Z.mul_1_r in K.
  assert (G : mx + 2 * 2 ^ 1100 < 2 ^ top_exp double) by (vm_compute; reflexivity).
  assert (B : Z.abs (rnd double (c + z) 1) < 2 ^ top_exp double) by lia. split; [apply fin_ok; exact B|lia].
Qed.
Lemma PI_value : exists c, PI = Fin c /\ 0 < c < 2 ^ 1100.
Proof. eexists. split; [vm_compute; reflexivity|]. split; vm_compute; reflexivity. Qed.
Lemma half_PI_value : exists c, fdiv double PI (of_int double 2) = Fin c /\ 0 < c < 2 ^ 1100.
Proof. eexists. split; [vm_compute; reflexivity|]. split; vm_compute; reflexivity. Qed.
Lemma number_opp F z : number F (Fin z) -> number F (Fin (- z)).
Proof. intros [R B]. split; [apply rep_opp; exact R|rewrite Z.abs_opp; exact B]. Qed.
Lemma m_sin_total z : number double (Fin z) -> exists n v, forall m, (n <= m)%nat -> m_sin m (Fin z) = Ok v.
Proof.
  intros N. unfold m_sin. cbn [flt]. destruct (Z.ltb_spec z 0) as [L|L].
  - destruct PI_value as (c & -> & C). unfold fsub. cbn [fneg]. destruct (add_constant c (- z) (number_opp _ _ N) ltac:(lia)) as (r & -> & B). apply sin_total. exact B.
  - apply sin_total. destruct N as [_ B]. lia.
Qed.
Lemma fadd_number F a b : proper_fmt F -> number F (fadd F (Fin a) (Fin b)).
Proof. intros HF. cbn [fadd]. unfold fin. destruct (Z.ltb_spec (Z.abs (rnd F (a + b) 1)) (2 ^ top_exp F)); cbn; [split; [apply rnd_rep; auto; lia|auto]|exact Logic.I]. Qed.
Lemma m_cos_total z : number double (Fin z) -> exists n v, forall m, (n <= m)%nat -> m_cos m (Fin z) = Ok v.
Proof.
  intros N. unfold m_cos. destruct (feq (Fin 0) (Fin z)); [exists O, one; auto|]. destruct half_PI_value as (c & -> & C). unfold fsub. cbn [fneg].
  pose proof (fadd_number double c (- z) double_proper) as Q. destruct (add_constant c (- z) (number_opp _ _ N) ltac:(lia)) as (r & E & B). rewrite E in *. apply m_sin_total. exact Q.
Qed.
Lemma sin_special n : sin_helper n (Inf false) = OutOfFuel /\ sin_helper n NaN = OutOfFuel.
Proof.
  induction n as [|n [A B]]; [split; reflexivity|]. destruct tol_value as (t & Et & _). cbn [sin_helper]. rewrite Et, three_value. cbn [flt negb fdiv]. pose proof (U_pos double double_proper). destruct (Z.ltb_spec (3 * U) 0) as [|_]; [lia|]. cbn [xorb]. rewrite A, B. split; reflexivity.
Qed.
Lemma m_sin_special n x : (exists s, x = Inf s) \/ x = NaN -> m_sin n x = OutOfFuel.
Proof. destruct (sin_special n) as [A B]. intros [[s ->]| ->]; unfold m_sin; [|exact B]. destruct s; cbn [flt negb]; [|exact A]. destruct PI_value as (c & -> & _). exact A. Qed.
Lemma m_cos_special n x : (exists s, x = Inf s) \/ x = NaN -> m_cos n x = OutOfFuel.
Proof.
  intros H. unfold m_cos. destruct half_PI_value as (c & -> & _). destruct H as [[s ->]| ->]; cbn [feq fsub fneg fadd]; apply m_sin_special; eauto.
Qed.

(** * Bit patterns *)
Definition std_fpfmt (B : fpfmt) : Prop := B = f32 \/ B = f64.
Lemma of_fmt_proper B : std_fpfmt B -> proper_fmt (of_fmt B).
Proof. intros [-> | ->]; [exact single_proper|exact double_proper]. Qed.
Lemma fpfmt_sizes B : std_fpfmt B -> 20 < fp_sig B /\ fp_sig B + 8 < fp_bits B /\ prec (of_fmt B) = fp_sig B + 1 /\ one_exp (of_fmt B) = fp_bias B - 1 + fp_sig B /\ 2 ^ (fp_bits B - 1 - fp_sig B) = 2 * fp_bias B + 2 /\
  top_exp (of_fmt B) = 2 * fp_bias B + fp_sig B /\ 100 < fp_bias B < 2 ^ 20 /\ fp_one B = fp_bias B * 2 ^ fp_sig B.
Proof. intros [-> | ->]; vm_compute; repeat split; try discriminate; reflexivity. Qed.
Lemma of_bits_normal B (s : bool) e m : std_fpfmt B -> 0 < e < 2 * fp_bias B + 1 -> 0 <= m < 2 ^ fp_sig B ->
  of_bits B ((if s then 2 ^ (fp_bits B - 1) else 0) + e * 2 ^ fp_sig B + m) = Fin (if s then - ((m + 2 ^ fp_sig B) * 2 ^ (e - 1)) else (m + 2 ^ fp_sig B) * 2 ^ (e - 1)).
Proof.
  intros HB He Hm. destruct (fpfmt_sizes B HB) as (S1 & S2 & _ & _ & S5 & _ & S7 & _). pose proof (two_pos (fp_sig B) ltac:(lia)) as Ps. set (sg := fp_sig B) in *. set (q := 2 ^ sg) in *.
  assert (Eb : 2 ^ (fp_bits B - 1) = (2 * fp_bias B + 2) * q) by (rewrite <- S5; unfold q; rewrite <- two_split by lia; f_equal; lia). unfold of_bits. fold sg q. rewrite S5, Eb. set (b := (if s then (2 * fp_bias B + 2) * q else 0) + e * q + m).
  assert (Q1 : b / q = (if s then 2 * fp_bias B + 2 else 0) + e) by (symmetry; apply Z.div_unique with m; [lia|unfold b; destruct s; ring]).
  assert (Q2 : b mod q = m) by (symmetry; apply Z.mod_unique with ((if s then 2 * fp_bias B + 2 else 0) + e); [lia|unfold b; destruct s; ring]).
  assert (Q3 : (b / q) mod (2 * fp_bias B + 2) = e) by (rewrite Q1; symmetry; apply Z.mod_unique with (if s then 1 else 0); [lia|destruct s; lia]).
  assert (Q4 : Z.testbit b (fp_bits B - 1) = s).
  { assert (G : Z.testbit b (fp_bits B - 1) = Z.odd (b / 2 ^ (fp_bits B - 1))) by (rewrite <- Z.shiftr_div_pow2 by lia; rewrite <- Z.bit0_odd, Z.shiftr_spec by lia; f_equal; lia).
    rewrite G, Eb. assert (V : b / ((2 * fp_bias B + 2) * q) = if s then 1 else 0); [|rewrite V; destruct s; reflexivity].
    symmetry. apply Z.div_unique with (e * q + m); [left; split; nia|unfold b; destruct s; ring]. }
  rewrite Q3, Q2, Q4. destruct (Z.eqb_spec e (2 * fp_bias B + 2 - 1)); [lia|]. destruct (Z.eqb_spec e 0); [lia|]. destruct s; reflexivity.
Qed.
Lemma of_bits_power B k : std_fpfmt B -> - fp_bias B < k <= fp_bias B -> of_bits B ((k + fp_bias B) * 2 ^ fp_sig B) = Fin (2 ^ (one_exp (of_fmt B) + k)).
Proof.
  intros HB Hk. destruct (fpfmt_sizes B HB) as (S1 & S2 & _ & S4 & S5 & _ & S7 & _). pose proof (of_bits_normal B false (k + fp_bias B) 0 HB ltac:(lia) ltac:(pose proof (two_pos (fp_sig B)); lia)) as E. cbn iota in E. rewrite Z.add_0_l, Z.add_0_r in E. rewrite E.
  f_equal. rewrite Z.add_0_l, <- two_split by lia. f_equal. lia.
Qed.
Lemma calc_i32 z : - 2 ^ 31 <= z < 2 ^ 31 -> calc i32 z = Ok z.
Proof. intros H. unfold calc. cbn. destruct (Z.leb_spec (-2147483648) z), (Z.leb_spec z 2147483647); cbn; try reflexivity; lia. Qed.
Lemma wrap_small w z : 0 <= z < 2 ^ w -> wrap w z = z.
Proof. intros H. unfold wrap. apply Z.mod_small. exact H. Qed.
Lemma new_exponent B e : std_fpfmt B -> 0 <= e < 2 * fp_bias B + 2 -> wrap (fp_bits B) (Z.shiftl (wrap (fp_bits B) e) (fp_sig B)) = e * 2 ^ fp_sig B.
Proof.
  intros HB He. destruct (fpfmt_sizes B HB) as (S1 & S2 & _ & S4 & S5 & _ & S7 & _). assert (E2 : 2 ^ fp_bits B = 2 * (2 * fp_bias B + 2) * 2 ^ fp_sig B) by (rewrite <- S5, <- Z.mul_assoc, <- two_split, <- Z.pow_succ_r by lia; f_equal; lia).
  pose proof (two_pos (fp_sig B) ltac:(lia)) as Ps. rewrite (wrap_small _ e), Z.shiftl_mul_pow2 by (rewrite ?E2; nia). apply wrap_small. rewrite E2. nia.
Qed.
Lemma set_two B k : std_fpfmt B -> - fp_bias B < k <= fp_bias B -> set_exponent B (two_bits B) k = Ok ((k + fp_bias B) * 2 ^ fp_sig B).
Proof.
  intros HB Hk. destruct (fpfmt_sizes B HB) as (S1 & S2 & _ & S4 & S5 & _ & S7 & S8). unfold set_exponent. destruct (Z.eqb_spec k 0) as [->|_]; [rewrite S8; reflexivity|]. rewrite calc_i32 by lia. cbn [bind].
  assert (E : Z.land (two_bits B) (wrap (fp_bits B) (Z.lnot (fp_exp_mask B))) = 0) by (destruct HB as [-> | ->]; vm_compute; reflexivity). rewrite E, Z.lor_0_l, new_exponent by (auto; lia). reflexivity.
Qed.
Lemma pow2_bits B k : std_fpfmt B -> fp_min_exponent B < k < fp_max_exponent B -> fp_pow2 B k = Ok ((k + fp_bias B) * 2 ^ fp_sig B).
Proof.
  intros HB Hk. destruct (fpfmt_sizes B HB) as (S1 & S2 & _ & S4 & S5 & _ & S7 & S8). unfold fp_pow2. assert (R : fp_min_exponent B = 2 - fp_bias B /\ fp_max_exponent B = fp_bias B + 1) by (destruct HB as [-> | ->]; vm_compute; auto). destruct R as [R1 R2].
  destruct (Z.geb_spec k (fp_max_exponent B)); [lia|]. destruct (Z.leb_spec k (fp_min_exponent B)); [lia|]. unfold set_exponent. destruct (Z.eqb_spec k 0) as [->|_]; [rewrite S8; reflexivity|]. rewrite calc_i32 by lia. cbn [bind].
  rewrite Z.land_0_l, Z.lor_0_l, new_exponent by (auto; lia). reflexivity.
Qed.
(** * ldexp *)
Lemma ldexp_bits d k : - 2 ^ 31 <= k + 1023 < 2 ^ 31 -> ldexp d k = Ok (fmul double d (of_bits f64 (wrap 64 (Z.shiftl (wrap 64 (k + 1023)) 52)))).
Proof.
  intros H. unfold ldexp. rewrite calc_i32 by lia. cbn [bind]. assert (E : Z.land 0x4000000000000000 (wrap 64 (Z.lnot 0x7FF0000000000000)) = 0) by (vm_compute; reflexivity). rewrite E, Z.lor_0_l. reflexivity.
Qed.
Lemma ldexp_mul d k : -1022 <= k <= 1023 -> ldexp d k = Ok (fmul double d (Fin (2 ^ (1074 + k)))).
Proof.
  intros H. rewrite ldexp_bits by lia. pose proof (new_exponent f64 (k + 1023) (or_intror eq_refl) ltac:(cbn [fp_bias f64]; lia)) as E. cbn [fp_bits fp_sig f64] in E. rewrite E.
  pose proof (of_bits_power f64 k (or_intror eq_refl) ltac:(cbn [fp_bias f64]; lia)) as E2. cbn [fp_bias fp_sig f64] in E2. rewrite E2. reflexivity.
Qed.
Lemma ldexp_ok a k : -1022 <= k <= 1023 -> exists z, ldexp (Fin a) k = Ok (fin double z) /\ nearest_rep double z (a * 2 ^ (1074 + k)) (2 ^ 1074).
Proof.
  intros H. rewrite ldexp_mul by exact H. exists (rnd double (a * 2 ^ (1074 + k)) (2 ^ 1074)). split; [reflexivity|]. split; [apply rnd_rep; [exact double_proper|apply two_pos; lia]|].
  intros f Rf. apply rnd_nearest; [exact double_proper|apply two_pos; lia|exact Rf].
Qed.
Lemma ldexp_exact a k : number double (Fin a) -> 0 <= k <= 1023 -> ldexp (Fin a) k = Ok (fin double (a * 2 ^ k)).
Proof.
  intros [R B] H. rewrite ldexp_mul by lia. cbn [fmul]. rewrite two_split by lia. replace (a * (2 ^ 1074 * 2 ^ k)) with (a * 2 ^ k * 2 ^ 1074) by ring. change (one_exp double) with 1074. rewrite rnd_exact; [reflexivity|exact double_proper|apply two_pos; lia|].
  destruct R as (m & e & He & Hm & ->). exists m, (e + k). rewrite two_split by lia. repeat split; auto; [lia|ring].
Qed.
Lemma ldexp_1024 a : 0 < a -> ldexp (Fin a) 1024 = Ok (Inf false).
Proof.
  intros H. rewrite ldexp_bits by lia. assert (E : of_bits f64 (wrap 64 (Z.shiftl (wrap 64 (1024 + 1023)) 52)) = Inf false) by (vm_compute; reflexivity). rewrite E. cbn [fmul]. destruct (Z.eqb_spec a 0), (Z.ltb_spec a 0); try lia. reflexivity.
Qed.
Lemma ldexp_m1023 a : ldexp (Fin a) (-1023) = Ok (Fin 0).
Proof.
  rewrite ldexp_bits by lia. assert (E : of_bits f64 (wrap 64 (Z.shiftl (wrap 64 (-1023 + 1023)) 52)) = Fin 0) by (vm_compute; reflexivity). rewrite E. cbn [fmul]. rewrite Z.mul_0_r. change (one_exp double) with 1074.
  rewrite <- (Z.mul_0_l (2 ^ 1074)) at 1. rewrite rnd_exact; [f_equal; apply fin_ok; apply two_pos; cbn; lia|exact double_proper|apply two_pos; lia|apply rep_0; exact double_proper].
Qed.
