(** Proofs about the bits of floating point numbers. *)
From Verif Require Import Common Ints Math CxMath SpecMath CxMathProofs CxPowProofs Floats FloatMath SpecFloats SpecFloatMath FloatsProofs FloatMathProofs FloatTrigProofs SqrtProofs.
From Verif Require BitQueueProofs BitsProofs.
Ltac Zify.zify_post_hook ::= idtac.
Open Scope Z_scope.

Lemma of_bits_small (s : bool) m : 0 <= m < 2 ^ 23 -> of_bits f32 ((if s then 2 ^ 31 else 0) + m) = Fin (if s then - m else m).
Proof.
  intros Hm. unfold of_bits. change (fp_bits f32) with 32. change (fp_sig f32) with 23. change (32 - 1 - 23) with 8. change (32 - 1) with 31. set (b := (if s then 2 ^ 31 else 0) + m).
  assert (Q1 : b / 2 ^ 23 = if s then 2 ^ 8 else 0) by (symmetry; apply Z.div_unique with m; [lia|unfold b; destruct s; lia]).
  assert (Q2 : b mod 2 ^ 23 = m) by (symmetry; apply Z.mod_unique with (if s then 2 ^ 8 else 0); [lia|unfold b; destruct s; lia]).
  assert (Q4 : Z.testbit b 31 = s).
  { assert (G : Z.testbit b 31 = Z.odd (b / 2 ^ 31)) by (rewrite <- Z.shiftr_div_pow2 by lia; rewrite <- Z.bit0_odd, Z.shiftr_spec by lia; reflexivity).
    rewrite G. assert (V : b / 2 ^ 31 = if s then 1 else 0) by (symmetry; apply Z.div_unique with m; [lia|unfold b; destruct s; lia]). rewrite V. destruct s; reflexivity. }
  rewrite Q1, Q2, Q4. destruct s; reflexivity.
Qed.
(** A number of at least 2^23 units is a 24 bit integer times a power of two. *)
Lemma mantissa a t : representable single a -> 0 <= t -> 2 ^ (23 + t) <= a < 2 ^ (24 + t) -> exists M, a = M * 2 ^ t /\ 2 ^ 23 <= M < 2 ^ 24.
Proof.
  intros (m & e & He & Hm & E) Ht [L H]. change (prec single) with 24 in Hm. pose proof (two_pos t Ht) as Pt. pose proof (two_pos e He) as Pe. assert (Hte : t <= e).
  { destruct (Z_le_gt_dec t e) as [|G]; [auto|exfalso]. assert (a < 2 ^ (24 + e)). { rewrite two_split, E by lia. apply Z.mul_lt_mono_pos_r; lia. } pose proof (pow_le (24 + e) (23 + t) ltac:(lia)). lia. }
  exists (m * 2 ^ (e - t)). assert (Ea : a = m * 2 ^ (e - t) * 2 ^ t) by (rewrite <- Z.mul_assoc, <- two_split by lia; rewrite E; do 2 f_equal; lia). split; [exact Ea|]. rewrite Ea, !two_split in L, H by lia.
  split; [apply Z.mul_le_mono_pos_r with (2 ^ t); assumption|apply Z.mul_lt_mono_pos_r with (2 ^ t); assumption].
Qed.
Lemma mul_power_s a k h : h * 2 ^ 149 = 2 ^ k * a -> representable single h -> 0 <= h < 2 ^ 277 -> fmul single (Fin a) (Fin (2 ^ k)) = Fin h.
Proof.
  intros E R B. assert (Cm : fmul single (Fin a) (Fin (2 ^ k)) = fmul single (Fin (2 ^ k)) (Fin a)) by (cbn [fmul]; rewrite Z.mul_comm; reflexivity). rewrite Cm. apply (fmul_power single single_proper); auto. rewrite Z.abs_eq by lia. change (top_exp single) with 277. lia.
Qed.
Lemma rep_shift a k : 0 <= k -> representable single a -> representable single (a * 2 ^ k).
Proof. intros Hk (m & e & He & Hm & ->). exists m, (e + k). split; [lia|]. split; [exact Hm|]. rewrite two_split by lia. ring. Qed.
Lemma bits_loop_ok n : forall a X, representable single a -> 0 < a < 2 ^ 277 -> 2 ^ 236 <= a * 2 ^ (41 * Z.of_nat n) ->
  exists j, 0 <= j <= Z.of_nat n /\ bits_loop (Datatypes.S n) (Fin a) X = Ok (Fin (a * 2 ^ (41 * j)), X - 41 * j) /\ 2 ^ 236 <= a * 2 ^ (41 * j) < 2 ^ 277.
Proof.
  assert (E87 : of_int single (2 ^ 87) = Fin (2 ^ 236)) by (vm_compute; reflexivity). assert (E41 : of_int single (2 ^ 41) = Fin (2 ^ 190)) by (vm_compute; reflexivity).
  induction n as [|n IH]; intros a X R Ha H.
  - exists 0. change (41 * Z.of_nat 0) with 0 in H. change (41 * 0) with 0. change (2 ^ 0) with 1 in *. rewrite !Z.mul_1_r in *. split; [lia|]. split; [|lia]. cbn [bits_loop]. rewrite E87. cbn [flt]. destruct (Z.ltb_spec a (2 ^ 236)); [lia|]. rewrite Z.sub_0_r. reflexivity.
  - remember (Datatypes.S n) as N eqn:EN. cbn [bits_loop]. rewrite E87, E41. cbn [flt]. destruct (Z.ltb_spec a (2 ^ 236)) as [L|L].
    + assert (B : 0 < a * 2 ^ 41 < 2 ^ 277) by (change (2 ^ 277) with (2 ^ 236 * 2 ^ 41); split; [apply Z.mul_pos_pos; lia|apply Z.mul_lt_mono_pos_r; lia]).
      rewrite (mul_power_s a 190 (a * 2 ^ 41)); [|change (2 ^ 190) with (2 ^ 41 * 2 ^ 149); ring|apply rep_shift; [lia|exact R]|lia].
      destruct (IH (a * 2 ^ 41) (X - 41)) as (j & Hj & E & Bj); [apply rep_shift; [lia|exact R]|exact B| |].
      { rewrite <- Z.mul_assoc, <- two_split by lia. replace (41 + 41 * Z.of_nat n) with (41 * Z.of_nat N) by (subst N; lia). exact H. }
      exists (j + 1). split; [subst N; lia|]. rewrite <- Z.mul_assoc, <- two_split in E, Bj by lia. replace (41 * (j + 1)) with (41 + 41 * j) by lia. split; [|exact Bj]. subst N. rewrite E. do 2 f_equal. lia.
    + exists 0. change (41 * 0) with 0. change (2 ^ 0) with 1. rewrite Z.mul_1_r, Z.sub_0_r. split; [lia|]. split; [reflexivity|lia].
Qed.
(** What is known about the integer [A] the loop leaves. *)
Lemma bits_core a : representable single a -> 0 < a < 2 ^ 277 -> exists j A M t, 0 <= j <= 6 /\ bits_loop 8 (Fin a) 254 = Ok (Fin (a * 2 ^ (41 * j)), 254 - 41 * j) /\
  to_int single u64 (fmul single (Fin (a * 2 ^ (41 * j))) (literal single 1 (2 ^ 64))) = Ok A /\ a * 2 ^ (41 * j) = A * 2 ^ 213 /\ A = M * 2 ^ t /\ 2 ^ 23 <= M < 2 ^ 24 /\ 0 <= t <= 40.
Proof.
  intros R Ha. destruct (bits_loop_ok 7 a 254 R Ha) as (j & Hj & E & B). { change (41 * Z.of_nat 7) with 287. assert (1 * 2 ^ 287 <= a * 2 ^ 287) by (apply Z.mul_le_mono_nonneg_r; lia). pose proof (pow_le 236 287 ltac:(lia)). lia. }
  assert (J6 : j <= 6).
  { destruct (Z.eq_dec j 7) as [->|]; [exfalso|lia]. destruct B as [_ B]. change (41 * 7) with 287 in B. assert (1 * 2 ^ 287 <= a * 2 ^ 287) by (apply Z.mul_le_mono_nonneg_r; lia). pose proof (pow_lt 277 287 ltac:(lia)). lia. }
  assert (R' : representable single (a * 2 ^ (41 * j))) by (apply rep_shift; [lia|exact R]). set (b := a * 2 ^ (41 * j)) in *.
  set (l := Z.log2 b). assert (Hl : 2 ^ l <= b < 2 ^ (l + 1)) by (apply Z.log2_spec; pose proof (two_pos 236 ltac:(lia)); lia).
  assert (L1 : 236 <= l) by (apply Z.log2_le_pow2; [pose proof (two_pos 236 ltac:(lia)); lia|lia]).
  assert (L2 : l <= 276). { apply Z.lt_succ_r. apply Z.log2_lt_pow2; [pose proof (two_pos 236 ltac:(lia)); lia|]. change (Z.succ 276) with 277. lia. }
  destruct (mantissa b (l - 23) R' ltac:(lia)) as (M & Eb & HM). { replace (23 + (l - 23)) with l by lia. replace (24 + (l - 23)) with (l + 1) by lia. exact Hl. }
  set (A := M * 2 ^ (l - 236)). assert (EA : b = A * 2 ^ 213) by (unfold A; rewrite <- Z.mul_assoc, <- two_split by lia; rewrite Eb; do 2 f_equal; lia).
  exists j, A, M, (l - 236). split; [lia|]. split; [exact E|].
  assert (BA : 2 ^ 23 <= A < 2 ^ 64). { rewrite EA in B. change (2 ^ 236) with (2 ^ 23 * 2 ^ 213) in B. change (2 ^ 277) with (2 ^ 64 * 2 ^ 213) in B. pose proof (two_pos 213 ltac:(lia)). split; [apply Z.mul_le_mono_pos_r with (2 ^ 213); lia|apply Z.mul_lt_mono_pos_r with (2 ^ 213); lia]. }
  split; [|split; [exact EA|split; [reflexivity|split; [exact HM|lia]]]].
  assert (L64 : literal single 1 (2 ^ 64) = Fin (2 ^ 85)) by (vm_compute; reflexivity). rewrite L64. fold b. rewrite (mul_power_s b 85 (A * 2 ^ 149)).
  - rewrite (to_int_nonneg single single_proper); [change (unit_of single) with (2 ^ 149); rewrite Z.div_mul by lia; reflexivity|apply Z.mul_nonneg_nonneg; [lia|apply Z.pow_nonneg; lia]|change (unit_of single) with (2 ^ 149); rewrite Z.div_mul by lia; change (lowest u64) with 0; change (highest u64) with (2 ^ 64 - 1); lia].
  - rewrite EA. rewrite <- Z.mul_assoc, (Z.mul_comm (2 ^ 85)), <- Z.mul_assoc, <- !two_split by lia. reflexivity.
  - unfold A. rewrite <- Z.mul_assoc, <- two_split by lia. exists M, (l - 236 + 149). split; [lia|]. split; [change (prec single) with 24; lia|reflexivity].
  - split; [apply Z.mul_nonneg_nonneg; [lia|apply Z.pow_nonneg; lia]|]. apply Z.lt_trans with (2 ^ 64 * 2 ^ 149); [apply Z.mul_lt_mono_pos_r; [apply two_pos; lia|lia]|]. rewrite <- two_split by lia. apply pow_lt. lia.
Qed.

Lemma fields (s : bool) e m : 0 <= e < 256 -> 0 <= m < 2 ^ 23 -> Z.lor (Z.lor (wrap 32 (Z.shiftl (if s then 1 else 0) 31)) (wrap 32 (Z.shiftl e 23))) m = (if s then 2 ^ 31 else 0) + e * 2 ^ 23 + m.
Proof.
  intros He Hm. assert (E1 : wrap 32 (Z.shiftl (if s then 1 else 0) 31) = (if s then 1 else 0) * 2 ^ 31) by (destruct s; reflexivity). rewrite E1. rewrite Z.shiftl_mul_pow2 by lia. rewrite wrap_small by (change (2 ^ 32) with (2 ^ 9 * 2 ^ 23); lia).
  pose proof BitQueueProofs.lor_disjoint as LD.
  rewrite LD by (change (2 ^ 31) with (2 ^ 8 * 2 ^ 23); lia). replace ((if s then 1 else 0) * 2 ^ 31 + e * 2 ^ 23) with (((if s then 1 else 0) * 2 ^ 8 + e) * 2 ^ 23) by (destruct s; lia). rewrite LD by lia. destruct s; lia.
Qed.
(** The bits computed without bit_cast are the bits of the number. *)
Lemma bits_finite f : number single (Fin f) -> f <> 0 -> exists b, bits_compat (Fin f) = Ok b /\ 0 <= b < 2 ^ 32 /\ of_bits f32 b = Fin f.
Proof.
  intros [R B] Hf. change (top_exp single) with 277 in B. unfold bits_compat. cbn [feq]. destruct (Z.eqb_spec f 0); [lia|]. assert (Nn : is_nan_fp (Fin f) = false) by (unfold is_nan_fp; cbn [feq]; rewrite Z.eqb_refl; reflexivity). rewrite Nn. clear Nn.
  assert (MX : max_num single = Fin ((2 ^ 24 - 1) * 2 ^ 253)) by (vm_compute; reflexivity). rewrite MX. cbn [flt fneg].
  assert (Bd : Z.abs f <= (2 ^ 24 - 1) * 2 ^ 253).
  { destruct R as (m & e & He & Hm & ->). change (prec single) with 24 in Hm. destruct (Z_le_gt_dec e 253) as [L|G].
    - rewrite Z.abs_mul, (Z.abs_eq (2 ^ e)) by (apply Z.pow_nonneg; lia). apply Z.mul_le_mono_nonneg; [lia|lia|apply Z.pow_nonneg; lia|apply pow_le; lia].
    - rewrite Z.abs_mul, (Z.abs_eq (2 ^ e)) in * by (apply Z.pow_nonneg; lia). assert (Eq : e = (e - 253) + 253) by lia. rewrite Eq, two_split in * by lia. set (q := 2 ^ (e - 253)) in *. change (2 ^ 277) with (2 ^ 24 * 2 ^ 253) in B. rewrite Z.mul_assoc in *. pose proof (two_pos 253 ltac:(lia)). apply Z.mul_lt_mono_pos_r in B; [|lia]. apply Z.mul_le_mono_nonneg_r; lia. }
  destruct (Z.ltb_spec ((2 ^ 24 - 1) * 2 ^ 253) f); [lia|]. destruct (Z.ltb_spec f (- ((2 ^ 24 - 1) * 2 ^ 253))); [lia|]. set (s := f <? 0).
  assert (Ea : (if s then Fin (- f) else Fin f) = Fin (Z.abs f)) by (unfold s; destruct (Z.ltb_spec f 0); f_equal; lia). rewrite Ea. assert (Es : f = if s then - Z.abs f else Z.abs f) by (unfold s; destruct (Z.ltb_spec f 0); lia).
  assert (R' : representable single (Z.abs f)) by (destruct R as (m & e & He & Hm & ->); exists (Z.abs m), e; split; [lia|]; split; [lia|]; rewrite Z.abs_mul, (Z.abs_eq (2 ^ e)) by (apply Z.pow_nonneg; lia); reflexivity).
  destruct (bits_core (Z.abs f) R' ltac:(lia)) as (j & A & M & t & Hj & E1 & E2 & E3 & EA & HM & Ht). rewrite E1. cbn [bind]. rewrite E2. cbn [bind]. rewrite EA, Z.mul_comm in E3. clear E1 E2. set (a := Z.abs f) in *. assert (Ha : 0 < a < 2 ^ 277) by lia. clearbody a s.
  pose proof (two_pos t ltac:(lia)) as Pt. assert (BA : A < 2 ^ 64). { rewrite EA. apply Z.lt_le_trans with (2 ^ 24 * 2 ^ t); [apply Z.mul_lt_mono_pos_r; lia|]. rewrite <- two_split by lia. apply pow_le. lia. }
  rewrite (clz64_ok A (23 + t)); [|split; [lia|]; rewrite EA; split; [rewrite two_split by lia; apply Z.mul_le_mono_nonneg_r; lia|replace (23 + t + 1) with (24 + t) by lia; rewrite two_split by lia; apply Z.mul_lt_mono_pos_r; lia]|exact BA]. cbn [bind].
  replace (254 - 41 * j - (63 - (23 + t))) with (214 - 41 * j + t) by lia. destruct (Z.leb_spec (214 - 41 * j + t) 0) as [Sub|Nor].
  - assert (j = 6) by lia. subst j. change (7 + 1) with 8. change (2 ^ (41 * 6)) with (2 ^ 33 * 2 ^ 213) in E3. rewrite Z.mul_comm, Z.mul_assoc in E3. apply Z.mul_cancel_r in E3; [|pose proof (two_pos 213 ltac:(lia)); lia].
    assert (a < 2 ^ 23). { apply Z.mul_lt_mono_pos_r with (2 ^ 33); [lia|]. rewrite E3. apply Z.lt_le_trans with (2 ^ 24 * 2 ^ t); [apply Z.mul_lt_mono_pos_r; lia|]. rewrite <- !two_split by lia. apply pow_le. lia. }
    assert (Sg : wrap 32 (Z.shiftr (wrap 64 (Z.shiftl A 8)) 41) = a). { rewrite EA, <- E3, Z.shiftl_mul_pow2, <- Z.mul_assoc, <- two_split by lia. change (33 + 8) with 41. rewrite (wrap_small 64) by lia. rewrite Z.shiftr_div_pow2, Z.div_mul by lia. apply wrap_small. lia. } rewrite Sg.
    eexists. split; [reflexivity|]. rewrite fields by lia. split; [destruct s; lia|]. rewrite Z.mul_0_l, Z.add_0_r. rewrite of_bits_small by lia. f_equal. destruct s; lia.
  - assert (Sg : wrap 32 (Z.shiftr (wrap 64 (Z.shiftl A (63 - (23 + t) + 1))) 41) = M - 2 ^ 23).
    { replace (63 - (23 + t) + 1) with (41 - t) by lia. rewrite EA, Z.shiftl_mul_pow2, <- Z.mul_assoc, <- two_split by lia. replace (t + (41 - t)) with 41 by lia. replace (wrap 64 (M * 2 ^ 41)) with ((M - 2 ^ 23) * 2 ^ 41) by (unfold wrap; apply Z.mod_unique with 1; lia). rewrite Z.shiftr_div_pow2, Z.div_mul by lia. apply wrap_small. lia. }
    rewrite Sg. eexists. split; [reflexivity|]. rewrite fields by lia. assert (He : 0 < 214 - 41 * j + t < 255) by lia. split; [destruct s; lia|].
    pose proof (of_bits_normal f32 s (214 - 41 * j + t) (M - 2 ^ 23) (or_introl eq_refl)) as OB. change (fp_bias f32) with 127 in OB. change (fp_sig f32) with 23 in OB. change (fp_bits f32 - 1) with 31 in OB. rewrite OB by lia. f_equal. rewrite Es. replace (M - 2 ^ 23 + 2 ^ 23) with M by lia.
    assert (G : a = M * 2 ^ (214 - 41 * j + t - 1)); [|destruct s; lia]. apply Z.mul_cancel_r with (2 ^ (41 * j)); [pose proof (two_pos (41 * j) ltac:(lia)); lia|]. rewrite (Z.mul_comm a), E3, <- !Z.mul_assoc, <- !two_split by lia. do 2 f_equal. lia.
Qed.

(** * copy_sign, adj_ulp, signbit and float_parts *)
Lemma land_top w s : 0 < w -> 0 <= s < 2 ^ w -> Z.land s (2 ^ (w - 1)) = s / 2 ^ (w - 1) * 2 ^ (w - 1).
Proof.
  intros Hw Hs. assert (Q : s / 2 ^ (w - 1) = 0 \/ s / 2 ^ (w - 1) = 1).
  { assert (0 <= s / 2 ^ (w - 1) < 2); [|lia]. split; [apply Z.div_pos; [lia|apply two_pos; lia]|]. apply Z.div_lt_upper_bound; [apply two_pos; lia|]. replace (2 ^ (w - 1) * 2) with (2 ^ Z.succ (w - 1)) by (rewrite Z.pow_succ_r by lia; ring). replace (Z.succ (w - 1)) with w by lia. lia. }
  assert (G : Z.testbit s (w - 1) = Z.odd (s / 2 ^ (w - 1))) by (rewrite <- Z.shiftr_div_pow2 by lia; rewrite <- Z.bit0_odd, Z.shiftr_spec by lia; f_equal; lia).
  apply Z.bits_inj'. intros i Hi. rewrite Z.land_spec, Z.pow2_bits_eqb by lia. destruct (Z.eqb_spec (w - 1) i) as [<-|Ne].
  - rewrite andb_true_r, G. destruct Q as [-> | ->]; [rewrite Z.mul_0_l, Z.bits_0; reflexivity|rewrite Z.mul_1_l, Z.pow2_bits_true by lia; reflexivity].
  - rewrite andb_false_r. destruct Q as [-> | ->]; [rewrite Z.mul_0_l, Z.bits_0; reflexivity|rewrite Z.mul_1_l, Z.pow2_bits_false by lia; reflexivity].
Qed.
Lemma copy_sign_value B n s : std_fpfmt B -> 0 <= n < 2 ^ fp_bits B -> 0 <= s < 2 ^ fp_bits B -> copy_sign B n s = s / 2 ^ (fp_bits B - 1) * 2 ^ (fp_bits B - 1) + n mod 2 ^ (fp_bits B - 1).
Proof.
  intros HB Hn Hs. destruct (fpfmt_sizes B HB) as (S1 & S2 & _). unfold copy_sign. assert (M : wrap (fp_bits B) (Z.lnot (fp_sign_mask B)) = Z.ones (fp_bits B - 1)) by (destruct HB as [-> | ->]; vm_compute; reflexivity). assert (K : fp_sign_mask B = 2 ^ (fp_bits B - 1)) by (destruct HB as [-> | ->]; vm_compute; reflexivity).
  rewrite M, K, Z.land_ones, land_top by (auto; lia). rewrite Z.lor_comm. rewrite BitQueueProofs.lor_disjoint; [reflexivity|lia|apply Z.mod_pos_bound; apply two_pos; lia].
Qed.
Lemma copy_sign_ok B n s : std_fpfmt B -> 0 <= n < 2 ^ fp_bits B -> 0 <= s < 2 ^ fp_bits B ->
  ieee_sign (fp_bits B) (copy_sign B n s) = ieee_sign (fp_bits B) s /\ ieee_exponent (fp_bits B) (fp_sig B) (copy_sign B n s) = ieee_exponent (fp_bits B) (fp_sig B) n /\ ieee_significand (fp_sig B) (copy_sign B n s) = ieee_significand (fp_sig B) n.
Proof.
  intros HB Hn Hs. rewrite copy_sign_value by auto. destruct (fpfmt_sizes B HB) as (S1 & S2 & _). unfold ieee_sign, ieee_exponent, ieee_significand.
  set (w := fp_bits B) in *. set (g := fp_sig B) in *. pose proof (two_pos (w - 1) ltac:(lia)) as Pw. pose proof (two_pos g ltac:(lia)) as Pg. pose proof (two_pos (w - 1 - g) ltac:(lia)) as Pd. pose proof (Z.mod_pos_bound n (2 ^ (w - 1)) Pw) as Bn.
  assert (E : 2 ^ (w - 1) = 2 ^ (w - 1 - g) * 2 ^ g) by (rewrite <- two_split by lia; f_equal; lia).
  assert (En : exists k, n mod 2 ^ (w - 1) = n + k * 2 ^ (w - 1)) by (exists (- (n / 2 ^ (w - 1))); rewrite Z.mod_eq by lia; ring). destruct En as (k & En).
  split; [|split].
  - rewrite Z.div_add_l, (Z.div_small (n mod _)) by lia. lia.
  - rewrite En, E. replace (s / (2 ^ (w - 1 - g) * 2 ^ g) * (2 ^ (w - 1 - g) * 2 ^ g) + (n + k * (2 ^ (w - 1 - g) * 2 ^ g))) with (n + (s / (2 ^ (w - 1 - g) * 2 ^ g) + k) * 2 ^ (w - 1 - g) * 2 ^ g) by ring. rewrite Z.div_add, Z.mod_add by lia. reflexivity.
  - rewrite En, E. replace (s / (2 ^ (w - 1 - g) * 2 ^ g) * (2 ^ (w - 1 - g) * 2 ^ g) + (n + k * (2 ^ (w - 1 - g) * 2 ^ g))) with (n + (s / (2 ^ (w - 1 - g) * 2 ^ g) + k) * 2 ^ (w - 1 - g) * 2 ^ g) by ring. apply Z.mod_add. lia.
Qed.
(** The value of the positive finite pattern [b] of a double, and the distance to the next. *)
Definition dval (b : Z) : Z := let e := b / 2 ^ 52 in if e =? 0 then b mod 2 ^ 52 else (b mod 2 ^ 52 + 2 ^ 52) * 2 ^ (e - 1).
Lemma of_bits_dval b : 0 <= b < 0x7FF0000000000000 -> of_bits f64 b = Fin (dval b).
Proof.
  intros Hb. unfold of_bits, dval. change (fp_bits f64) with 64. change (fp_sig f64) with 52. change (64 - 1 - 52) with 11. change (64 - 1) with 63.
  assert (Q : 0 <= b / 2 ^ 52 < 2047) by (split; [apply Z.div_pos; lia|apply Z.div_lt_upper_bound; lia]). rewrite (Z.mod_small (b / 2 ^ 52)) by lia. destruct (Z.eqb_spec (b / 2 ^ 52) (2 ^ 11 - 1)); [lia|].
  assert (T : Z.testbit b 63 = false). { assert (G : Z.testbit b 63 = Z.odd (b / 2 ^ 63)) by (rewrite <- Z.shiftr_div_pow2 by lia; rewrite <- Z.bit0_odd, Z.shiftr_spec by lia; reflexivity). rewrite G, Z.div_small by lia. reflexivity. } rewrite T. reflexivity.
Qed.
Lemma dval_next b : 0 <= b -> exists e, 0 <= e /\ dval (b + 1) = dval b + 2 ^ e /\ (exists k, dval b = k * 2 ^ e) /\ (e = 0 \/ 2 ^ (52 + e) <= dval b).
Proof.
  intros Hb. unfold dval. pose proof (Z.mod_pos_bound b (2 ^ 52) ltac:(lia)) as Bm. pose proof (Z.div_mod b (2 ^ 52) ltac:(lia)) as Eb. assert (He : 0 <= b / 2 ^ 52) by (apply Z.div_pos; lia). set (e := b / 2 ^ 52) in *. set (m := b mod 2 ^ 52) in *.
  assert (C : ((b + 1) / 2 ^ 52 = e /\ (b + 1) mod 2 ^ 52 = m + 1) \/ (m = 2 ^ 52 - 1 /\ (b + 1) / 2 ^ 52 = e + 1 /\ (b + 1) mod 2 ^ 52 = 0)).
  { destruct (Z.eq_dec m (2 ^ 52 - 1)) as [Em|Nm].
    - right. split; [exact Em|]. split; symmetry; [apply Z.div_unique with 0; lia|apply Z.mod_unique with (e + 1); lia].
    - left. split; symmetry; [apply Z.div_unique with (m + 1); lia|apply Z.mod_unique with e; lia]. }
  clearbody e m. destruct C as [(-> & ->)|(Em & -> & ->)]; (destruct (Z.eqb_spec e 0) as [E0|N0]).
  - exists 0. split; [lia|]. split; [lia|]. split; [exists m; lia|auto].
  - exists (e - 1). split; [lia|]. split; [ring|]. split; [exists (m + 2 ^ 52); reflexivity|]. right. rewrite two_split by lia. apply Z.mul_le_mono_nonneg_r; [apply Z.pow_nonneg; lia|lia].
  - exists 0. subst e. split; [lia|]. split; [change (0 + 1 - 1) with 0; change (2 ^ 0) with 1; rewrite Em; reflexivity|]. split; [exists m; lia|auto].
  - exists (e - 1). split; [lia|]. destruct (Z.eqb_spec (e + 1) 0); [lia|]. split.
    + replace (e + 1 - 1) with (Z.succ (e - 1)) by lia. rewrite Z.pow_succ_r by lia. rewrite Em. ring.
    + split; [exists (m + 2 ^ 52); reflexivity|]. right. rewrite two_split by lia. apply Z.mul_le_mono_nonneg_r; [apply Z.pow_nonneg; lia|lia].
Qed.
Lemma no_number_between b z : 0 <= b -> representable double z -> ~ (dval b < z < dval (b + 1)).
Proof.
  intros Hb (m & x & Hx & Hm & Ez) [L H]. destruct (dval_next b Hb) as (e & He & En & (k & Ek) & C). rewrite En in H. pose proof (two_pos e He) as Pe. pose proof (two_pos x Hx) as Px. change (prec double) with 53 in Hm.
  assert (D : exists j, z = j * 2 ^ e).
  { destruct (Z_le_gt_dec e x) as [Lx|Gx]; [exists (m * 2 ^ (x - e)); rewrite <- Z.mul_assoc, <- two_split by lia; rewrite Ez; do 2 f_equal; lia|].
    destruct C as [->|C]; [lia|]. exfalso. assert (z < 2 ^ (53 + x)). { rewrite two_split by lia. rewrite Ez. apply Z.mul_lt_mono_pos_r; lia. } pose proof (pow_le (53 + x) (52 + e) ltac:(lia)). lia. }
  destruct D as (j & Ej). rewrite Ej, Ek in L, H. replace (k * 2 ^ e + 2 ^ e) with ((k + 1) * 2 ^ e) in H by ring. apply Z.mul_lt_mono_pos_r in L; [|lia]. apply Z.mul_lt_mono_pos_r in H; [|lia]. lia.
Qed.
Lemma next_double b : 0 <= b -> b + 1 < 0x7FF0000000000000 -> exists x y, of_bits f64 b = Fin x /\ of_bits f64 (b + 1) = Fin y /\ x < y /\ forall z, representable double z -> ~ (x < z < y).
Proof.
  intros Hb H. exists (dval b), (dval (b + 1)). rewrite !of_bits_dval by lia. split; [reflexivity|]. split; [reflexivity|]. split; [|intros z; apply no_number_between; exact Hb].
  destruct (dval_next b Hb) as (e & He & -> & _). pose proof (two_pos e He). lia.
Qed.
Lemma adj_ulp_ok d n : 0 <= d < 2 ^ 64 -> - 2 ^ 31 < n < 2 ^ 31 -> 0 <= d + n < 2 ^ 64 -> adj_ulp d n = Ok (d + n).
Proof.
  intros Hd Hn H. unfold adj_ulp. destruct (Z.ltb_spec n 0).
  - rewrite calc_i32 by lia. cbn [bind]. rewrite (wrap_small 64 (- n)) by lia. rewrite wrap_small by lia. f_equal. lia.
  - rewrite (wrap_small 64 n) by lia. rewrite wrap_small by lia. reflexivity.
Qed.
Lemma neg_dval b : 0 <= b < 0x7FF0000000000000 -> of_bits f64 (2 ^ 63 + b) = Fin (- dval b).
Proof.
  intros Hb. unfold of_bits, dval. change (fp_bits f64) with 64. change (fp_sig f64) with 52. change (64 - 1 - 52) with 11. change (64 - 1) with 63. pose proof (Z.mod_pos_bound b (2 ^ 52) ltac:(lia)) as Bm.
  assert (Q : 0 <= b / 2 ^ 52 < 2047) by (split; [apply Z.div_pos; lia|apply Z.div_lt_upper_bound; lia]).
  change (2 ^ 63) with (2 ^ 11 * 2 ^ 52). replace (2 ^ 11 * 2 ^ 52 + b) with (b + 2 ^ 11 * 2 ^ 52) by ring. rewrite Z.div_add, Z.mod_add by lia. replace ((b / 2 ^ 52 + 2 ^ 11) mod 2 ^ 11) with (b / 2 ^ 52) by (rewrite <- (Z.mul_1_l (2 ^ 11)) at 1; rewrite Z.mod_add, Z.mod_small by lia; reflexivity).
  destruct (Z.eqb_spec (b / 2 ^ 52) (2 ^ 11 - 1)); [lia|].
  assert (T : Z.testbit (b + 2 ^ 11 * 2 ^ 52) 63 = true). { set (c := b + 2 ^ 11 * 2 ^ 52). assert (G : Z.testbit c 63 = Z.odd (c / 2 ^ 63)) by (rewrite <- Z.shiftr_div_pow2 by lia; rewrite <- Z.bit0_odd, Z.shiftr_spec by lia; reflexivity). rewrite G. replace (c / 2 ^ 63) with 1 by (apply Z.div_unique with b; unfold c; lia). reflexivity. } rewrite T. reflexivity.
Qed.
(** One unit up moves a negative number down. *)
Lemma adj_ulp_negative b : 0 <= b -> b + 1 < 0x7FF0000000000000 -> exists x y, of_bits f64 (2 ^ 63 + b) = Fin x /\ adj_ulp (2 ^ 63 + b) 1 = Ok (2 ^ 63 + b + 1) /\ of_bits f64 (2 ^ 63 + b + 1) = Fin y /\ y < x.
Proof.
  intros Hb H. exists (- dval b), (- dval (b + 1)). rewrite adj_ulp_ok by lia. replace (2 ^ 63 + b + 1) with (2 ^ 63 + (b + 1)) by lia. rewrite !neg_dval by lia. repeat split. destruct (dval_next b Hb) as (e & He & -> & _). pose proof (two_pos e He). lia.
Qed.
(** Fields of the bits of a float. *)
Lemma parts_fields b : 0 <= b < 2 ^ 32 -> parts_negative b = (ieee_sign 32 b =? 1) /\ parts_sign_bit b = (ieee_sign 32 b =? 0) /\ parts_exponent b = ieee_exponent 32 23 b - 127 /\ parts_raw_significand b = ieee_significand 23 b.
Proof.
  intros Hb. unfold ieee_sign, ieee_exponent, ieee_significand. change (32 - 1 - 23) with 8. change (32 - 1) with 31.
  assert (S : 0 <= b / 2 ^ 31 < 2) by (split; [apply Z.div_pos; lia|apply Z.div_lt_upper_bound; lia]).
  assert (SB : parts_sign_bit b = (b / 2 ^ 31 =? 0)) by (unfold parts_sign_bit; rewrite Z.shiftr_div_pow2 by lia; reflexivity).
  split; [unfold parts_negative; rewrite SB; destruct (Z.eqb_spec (b / 2 ^ 31) 0), (Z.eqb_spec (b / 2 ^ 31) 1); try reflexivity; lia|]. split; [exact SB|]. split.
  - unfold parts_exponent, parts_raw_exponent. rewrite Z.land_comm. change 0x7F800000 with (2 ^ 23 * (2 ^ 8 - 1)). rewrite land_field by lia. rewrite Z.shiftr_div_pow2, Z.div_mul by lia.
    pose proof (Z.mod_pos_bound (b / 2 ^ 23) (2 ^ 8) ltac:(lia)) as Bm. assert (Cu : forall x, 0 <= x < 2 ^ 8 -> conv u8 x = x) by (intros x Hx; unfold conv; cbn; apply Z.mod_small; exact Hx). rewrite Cu by lia.
    change (conv i16 ((b / 2 ^ 23) mod 2 ^ 8 - 127)) with (swrap 16 ((b / 2 ^ 23) mod 2 ^ 8 - 127)). apply BitsProofs.swrap_id; lia.
  - unfold parts_raw_significand. rewrite Z.land_comm. change 0x007FFFFF with (2 ^ 23 - 1). apply land_low. lia.
Qed.

Lemma bits_decompose b : 0 <= b < 2 ^ 32 -> b = (if parts_negative b then 2 ^ 31 else 0) + ieee_exponent 32 23 b * 2 ^ 23 + ieee_significand 23 b.
Proof.
  intros Hb. destruct (parts_fields b Hb) as (-> & _). unfold ieee_sign, ieee_exponent, ieee_significand. change (32 - 1 - 23) with 8. change (32 - 1) with 31. pose proof (Z.div_mod b (2 ^ 23) ltac:(lia)). pose proof (Z.div_mod (b / 2 ^ 23) (2 ^ 8) ltac:(lia)) as D. rewrite Z.div_div in D by lia. change (2 ^ 23 * 2 ^ 8) with (2 ^ 31) in D.
  assert (S : 0 <= b / 2 ^ 31 < 2) by (split; [apply Z.div_pos; lia|apply Z.div_lt_upper_bound; lia]). destruct (Z.eqb_spec (b / 2 ^ 31) 1); lia.
Qed.
Lemma set_two_f32 k : -127 < k <= 127 -> exists p, set_exponent f32 0x40000000 k = Ok p /\ of_bits f32 p = Fin (2 ^ (149 + k)).
Proof.
  intros Hk. assert (HB : std_fpfmt f32) by (left; reflexivity). change 0x40000000 with (two_bits f32). rewrite set_two by (auto; change (fp_bias f32) with 127; lia). eexists. split; [reflexivity|]. rewrite of_bits_power by (auto; change (fp_bias f32) with 127; lia). reflexivity.
Qed.
Lemma significand_common b : 0 <= b < 2 ^ 32 -> 0 < ieee_exponent 32 23 b < 255 -> exists v M, of_bits f32 b = Fin v /\ Z.abs v = M * 2 ^ (ieee_exponent 32 23 b - 1) /\ 2 ^ 23 <= M < 2 ^ 24 /\
  parts_significand b = p <- set_exponent f32 0x40000000 (127 - ieee_exponent 32 23 b) ;; Ok (if ieee_exponent 32 23 b <? 127 then fmul single (Fin (Z.abs v)) (of_bits f32 p) else fdiv single (Fin (Z.abs v)) (of_bits f32 p)).
Proof.
  intros Hb He. destruct (parts_fields b Hb) as (_ & _ & E & _). assert (Hm : 0 <= ieee_significand 23 b < 2 ^ 23) by (apply Z.mod_pos_bound; lia). set (e := ieee_exponent 32 23 b) in *. pose proof (two_pos (e - 1) ltac:(lia)) as Pe.
  pose proof (of_bits_normal f32 (parts_negative b) e (ieee_significand 23 b) (or_introl eq_refl)) as OB. change (fp_bias f32) with 127 in OB. change (fp_sig f32) with 23 in OB. change (fp_bits f32 - 1) with 31 in OB. pose proof (bits_decompose b Hb) as Db. fold e in Db. rewrite <- Db in OB. set (M := ieee_significand 23 b + 2 ^ 23) in *. specialize (OB ltac:(lia) Hm).
  assert (PM : 0 < M * 2 ^ (e - 1)) by (apply Z.mul_pos_pos; lia). exists (if parts_negative b then - (M * 2 ^ (e - 1)) else M * 2 ^ (e - 1)), M. split; [exact OB|]. split; [destruct (parts_negative b); lia|]. split; [lia|].
  unfold parts_significand. rewrite OB, E. cbn [flt fneg]. replace (- (e - 127)) with (127 - e) by lia.
  match goal with |- context [if ?c then Fin ?x else Fin ?y] => assert (A : (if c then Fin x else Fin y) = Fin (Z.abs y)) by (destruct (Z.ltb_spec y 0); f_equal; lia) end. rewrite A.
  destruct (set_exponent f32 0x40000000 (127 - e)); cbn [bind]; try reflexivity. destruct (Z.ltb_spec (e - 127) 0), (Z.ltb_spec e 127); try reflexivity; lia.
Qed.
(** The significand of the numbers less than two is right. *)
Lemma significand_ok b : 0 <= b < 2 ^ 32 -> 0 < ieee_exponent 32 23 b <= 127 -> exists v x, of_bits f32 b = Fin v /\ parts_significand b = Ok (Fin x) /\ unit_of single <= x < 2 * unit_of single /\ x = Z.abs v * 2 ^ (127 - ieee_exponent 32 23 b).
Proof.
  intros Hb He. destruct (significand_common b Hb ltac:(lia)) as (v & M & OB & Ev & HM & ->). set (e := ieee_exponent 32 23 b) in *. destruct (set_two_f32 (127 - e) ltac:(lia)) as (p & -> & Ep). cbn [bind]. rewrite Ep.
  assert (Ex : Z.abs v * 2 ^ (127 - e) = M * 2 ^ 126) by (rewrite Ev, <- Z.mul_assoc, <- two_split by lia; do 2 f_equal; lia). assert (Bx : M * 2 ^ 126 < 2 ^ 150) by (change (2 ^ 150) with (2 ^ 24 * 2 ^ 126); apply Z.mul_lt_mono_pos_r; [apply two_pos; lia|lia]).
  assert (Rx : representable single (M * 2 ^ 126)) by (exists M, 126; split; [lia|]; split; [change (prec single) with 24; lia|reflexivity]).
  exists v, (M * 2 ^ 126). split; [exact OB|]. split; [|split; [|symmetry; exact Ex]].
  - destruct (Z.ltb_spec e 127).
    + rewrite (mul_power_s _ _ (M * 2 ^ 126)); [reflexivity| |exact Rx|split; [apply Z.mul_nonneg_nonneg; [lia|apply Z.pow_nonneg; lia]|pose proof (pow_lt 150 277 ltac:(lia)); lia]]. rewrite <- Ex. rewrite (two_split 149) by lia. ring.
    + assert (e = 127) by lia. replace (149 + (127 - e)) with 149 by lia. replace (127 - e) with 0 in Ex by lia. change (2 ^ 0) with 1 in Ex. rewrite Z.mul_1_r in Ex. rewrite Ex. cbn [fdiv]. change (2 ^ one_exp single) with (2 ^ 149). pose proof (two_pos 149 ltac:(lia)) as P. destruct (Z.eqb_spec (2 ^ 149) 0); [lia|]. rewrite (Z.sgn_pos _ P), Z.mul_1_r, (Z.abs_eq (2 ^ 149)) by lia. rewrite (rnd_exact single single_proper _ _ P Rx). rewrite fin_ok; [reflexivity|]. rewrite Z.abs_eq by (apply Z.mul_nonneg_nonneg; [lia|apply Z.pow_nonneg; lia]). change (top_exp single) with 277. pose proof (pow_lt 150 277 ltac:(lia)). lia.
  - change (unit_of single) with (2 ^ 149). change (2 ^ 149) with (2 ^ 23 * 2 ^ 126) at 1. split; [apply Z.mul_le_mono_nonneg_r; [apply Z.pow_nonneg; lia|lia]|]. change (2 * 2 ^ 149) with (2 ^ 150). exact Bx.
Qed.
(** That of the others is not less than two. *)
Lemma significand_wrong b : 0 <= b < 2 ^ 32 -> 127 < ieee_exponent 32 23 b < 254 -> exists v x, of_bits f32 b = Fin v /\ parts_significand b = Ok (fin single x) /\ x = Z.abs v * 2 ^ (ieee_exponent 32 23 b - 127) /\ 4 * unit_of single <= x.
Proof.
  intros Hb He. destruct (significand_common b Hb ltac:(lia)) as (v & M & OB & Ev & HM & ->). set (e := ieee_exponent 32 23 b) in *. destruct (set_two_f32 (127 - e) ltac:(lia)) as (p & -> & Ep). cbn [bind]. rewrite Ep. destruct (Z.ltb_spec e 127); [lia|].
  assert (Ex : Z.abs v * 2 ^ (e - 127) = M * 2 ^ (2 * e - 128)) by (rewrite Ev, <- Z.mul_assoc, <- two_split by lia; do 2 f_equal; lia).
  exists v, (Z.abs v * 2 ^ (e - 127)). split; [exact OB|]. split; [|split; [reflexivity|]].
  - f_equal. cbn [fdiv]. change (2 ^ one_exp single) with (2 ^ 149). pose proof (two_pos (149 + (127 - e)) ltac:(lia)) as P. destruct (Z.eqb_spec (2 ^ (149 + (127 - e))) 0); [lia|]. rewrite (Z.sgn_pos _ P), Z.mul_1_r, (Z.abs_eq (2 ^ (149 + (127 - e)))) by lia. f_equal.
    replace (Z.abs v * 2 ^ 149) with (Z.abs v * 2 ^ (e - 127) * 2 ^ (149 + (127 - e))) by (rewrite <- Z.mul_assoc, <- two_split by lia; do 2 f_equal; lia). apply (rnd_exact single single_proper); [exact P|]. rewrite Ex. exists M, (2 * e - 128). split; [lia|]. split; [change (prec single) with 24; lia|reflexivity].
  - rewrite Ex. change (4 * unit_of single) with (2 ^ 23 * 2 ^ 128). apply Z.mul_le_mono_nonneg; [lia|lia|apply Z.pow_nonneg; lia|apply pow_le; lia].
Qed.
Lemma signbit_ok B b x : std_fpfmt B -> of_bits B b = x -> x <> NaN -> x <> Fin 0 -> signbit B b = Z.testbit b (fp_bits B - 1).
Proof.
  unfold signbit. intros HB <-. destruct (fpfmt_sizes B HB) as (Z1 & _). unfold of_bits. set (e := (b / 2 ^ fp_sig B) mod 2 ^ (fp_bits B - 1 - fp_sig B)). set (s := Z.testbit b (fp_bits B - 1)). destruct (_ =? _).
  - destruct (_ =? 0); [|congruence]. intros _ _. destruct s; reflexivity.
  - intros _ Hz. cbn [flt]. pose proof (two_pos (fp_sig B) ltac:(lia)) as Ps. pose proof (Z.mod_pos_bound b _ Ps). assert (P : 0 <= if e =? 0 then b mod 2 ^ fp_sig B else (b mod 2 ^ fp_sig B + 2 ^ fp_sig B) * 2 ^ (e - 1)) by (destruct (e =? 0); [lia|apply Z.mul_nonneg_nonneg; [lia|apply Z.pow_nonneg; lia]]).
    revert Hz P. set (v := if e =? 0 then _ else _). clearbody v s. intros Hz P. destruct s; [apply Z.ltb_lt|apply Z.ltb_ge; exact P]. destruct (Z.eq_dec v 0) as [->|]; [exfalso; apply Hz; reflexivity|lia].
Qed.

(** * The statements of the properties *)

Lemma by_exact (step : ity -> fp -> res Z) n k y : 0 < y -> Z.abs n < 2 ^ 52 -> step i64 (Fin (n * 2 ^ 1074)) = Ok k -> Z.abs k <= 2 ^ 53 -> representable double (k * y) -> Z.abs (k * y) < 2 ^ 2098 ->
  by_double step (Fin (n * y)) (Fin y) = Ok (Fin (k * y)).
Proof.
  intros Hy Hn Hs Hk Rk Bk. pose proof (two_pos 1074 ltac:(lia)) as PU. unfold by_double. assert (Q : fdiv double (Fin (n * y)) (Fin y) = Fin (n * 2 ^ 1074)).
  { cbn [fdiv]. destruct (Z.eqb_spec y 0); [lia|]. rewrite (Z.sgn_pos y Hy), Z.mul_1_r, (Z.abs_eq y) by lia. change (2 ^ one_exp double) with (2 ^ 1074). replace (n * y * 2 ^ 1074) with (n * 2 ^ 1074 * y) by ring.
    rewrite (rnd_exact double double_proper); [|exact Hy|exists n, 1074; split; [lia|]; split; [change (prec double) with 53; lia|reflexivity]]. apply fin_ok. change (top_exp double) with 2098. rewrite Z.abs_mul, (Z.abs_eq (2 ^ 1074)) by lia. apply Z.lt_trans with (2 ^ 52 * 2 ^ 1074); [apply Z.mul_lt_mono_pos_r; lia|]. rewrite <- two_split by lia. apply pow_lt. lia. }
  rewrite Q, Hs. cbn [bind]. rewrite (of_int_small double double_proper) by exact Hk. change (unit_of double) with (2 ^ 1074). cbn [fmul]. change (2 ^ one_exp double) with (2 ^ 1074). replace (k * 2 ^ 1074 * y) with (k * y * 2 ^ 1074) by ring. rewrite (rnd_exact double double_proper) by auto. rewrite fin_ok by exact Bk. reflexivity.
Qed.

Lemma c281_floor :
  forall F T d, proper_fmt F -> 0 <= d \/ integral F d -> lowest T <= floor_of F d <= highest T -> m_floor F T (Fin d) = Ok (floor_of F d).
Proof.
  intros F T d HF. apply (floor_ok F HF).
Qed.

Lemma c281_floor_refuted :
  forall F T d, proper_fmt F -> d < 0 -> ~ integral F d -> lowest T <= floor_of F d + 1 <= highest T -> m_floor F T (Fin d) = Ok (floor_of F d + 1).
Proof.
  intros F T d HF. apply (floor_wrong F HF).
Qed.

Lemma c281_round :
  forall T d, representable double d -> 0 <= d < 2 ^ 52 * unit_of double -> d <> below_half -> lowest T <= nearest_of double d <= highest T -> m_round_d T (Fin d) = Ok (nearest_of double d).
Proof.
  intros T d R H N. rewrite m_round_plus. apply (round_ok double double_proper); auto.
Qed.

Lemma c281_round_float :
  forall T d, representable single d -> 0 <= d < 2 ^ 52 * unit_of single -> lowest T <= nearest_of single d <= highest T -> m_round_f T (Fin d) = Ok (nearest_of single d).
Proof.
  exact round_float_ok.
Qed.

Lemma c281_round_refuted :
  m_round_d i64 (Fin below_half) = Ok 1 /\ 2 * below_half < unit_of double /\
  forall T n, - 2 ^ 52 < n < 0 -> lowest T <= n + 1 <= highest T -> m_round_d T (Fin (n * unit_of double)) = Ok (n + 1).
Proof.
  split; [vm_compute; reflexivity|]. split; [vm_compute; reflexivity|]. intros T n H L. rewrite m_round_plus. apply (round_negative double double_proper); auto.
Qed.

Lemma c281_ceil :
  forall T d, Z.abs d < 2 ^ 52 * unit_of double -> - unit_of double < d -> ~ integral double d -> representable double (d + unit_of double) -> lowest T <= ceil_of double d <= highest T -> m_ceil_d T (Fin d) = Ok (ceil_of double d).
Proof.
  intros T d A B C D E. rewrite m_ceil_plus. apply (ceil_ok double double_proper); auto.
Qed.

Lemma c281_ceil_refuted :
  (forall T n, Z.abs n < 2 ^ 52 -> lowest T <= n + 1 <= highest T -> m_ceil_d T (Fin (n * unit_of double)) = Ok (n + 1)) /\
  (forall T d, representable double d -> - (2 ^ 52 * unit_of double) < d < - unit_of double -> ~ integral double d -> lowest T <= ceil_of double d -> ceil_of double d + 1 <= highest T -> m_ceil_d T (Fin d) = Ok (ceil_of double d + 1)).
Proof.
  split; intros T d; intros; rewrite m_ceil_plus; [apply (ceil_int double double_proper)|apply (ceil_wrong double double_proper)]; auto.
Qed.

Lemma c281_multiples :
  forall n y, 0 < y -> representable double (n * y) -> Z.abs (n * y) < 2 ^ 2098 -> Z.abs n < 2 ^ 52 ->
  m_floor_by (Fin (n * y)) (Fin y) = Ok (Fin (n * y)) /\ (0 <= n -> m_round_by (Fin (n * y)) (Fin y) = Ok (Fin (n * y))).
Proof.
  intros n y Hy R B Hn. assert (RU : representable double (n * 2 ^ 1074)) by (exists n, 1074; split; [lia|]; split; [change (prec double) with 53; lia|reflexivity]). split.
  - apply (by_exact (m_floor double)); auto; [|lia]. rewrite (floor_ok double double_proper); [unfold floor_of; change (unit_of double) with (2 ^ 1074); rewrite Z.div_mul by lia; reflexivity|right; exists n; reflexivity|unfold floor_of; change (unit_of double) with (2 ^ 1074); rewrite Z.div_mul by lia; change (lowest i64) with (- 2 ^ 63); change (highest i64) with (2 ^ 63 - 1); lia].
  - intros H0. pose proof (two_pos 1074 ltac:(lia)) as PU. assert (E : nearest_of double (n * 2 ^ 1074) = n) by (unfold nearest_of; change (unit_of double) with (2 ^ 1074); symmetry; apply Z.div_unique with (2 ^ 1074); lia).
    apply (by_exact m_round_d n n y Hy Hn); [|lia|exact R|exact B]. rewrite m_round_plus, (round_ok double double_proper); [rewrite E; reflexivity|exact RU| | |rewrite E; change (lowest i64) with (- 2 ^ 63); change (highest i64) with (2 ^ 63 - 1); lia].
    + change (prec double - 1) with 52. change (unit_of double) with (2 ^ 1074). split; [apply Z.mul_nonneg_nonneg; lia|apply Z.mul_lt_mono_pos_r; lia].
    + change (one_exp double - 1) with 1073. change (one_exp double - 1 - prec double) with 1020. intros X. assert (D : n * 2 ^ 1074 < 1 * 2 ^ 1074 /\ 0 * 2 ^ 1074 < n * 2 ^ 1074) by (rewrite X; split; vm_compute; reflexivity). destruct D as [D1 D2]. apply Z.mul_lt_mono_pos_r in D1; [|exact PU]. apply Z.mul_lt_mono_pos_r in D2; [|exact PU]. lia.
Qed.

Lemma c281_ceil_by_refuted :
  forall n y, 0 < y -> representable double ((n + 1) * y) -> Z.abs ((n + 1) * y) < 2 ^ 2098 -> Z.abs n < 2 ^ 52 -> m_ceil_by (Fin (n * y)) (Fin y) = Ok (Fin ((n + 1) * y)).
Proof.
  intros n y Hy R B Hn. apply (by_exact m_ceil_d n (n + 1) y Hy Hn); [|lia|exact R|exact B]. rewrite m_ceil_plus. apply (ceil_int double double_proper); [exact Hn|]. change (lowest i64) with (- 2 ^ 63). change (highest i64) with (2 ^ 63 - 1). lia.
Qed.

Lemma c282_laws :
  forall F, proper_fmt F -> (forall a b eps, nearly_equal F a b eps = nearly_equal F b a eps) /\ (forall a eps, nearly_equal F a a eps = true) /\ (forall a eps, a <> NaN -> nearly_equal F NaN a eps = false).
Proof.
  intros F HF. split; [intros; apply (near_sym F HF)|]. split; [intros; apply (near_refl F)|intros; apply (near_nan F); auto].
Qed.

Lemma c282_sound :
  forall F a b, proper_fmt F -> number F (Fin a) -> number F (Fin b) -> a <> 0 -> b <> 0 -> a <> b -> nearly_equal F (Fin a) (Fin b) (epsilon F) = true -> 2 ^ prec F * Z.abs (a - b) <= 4 * (Z.abs a + Z.abs b).
Proof.
  intros F a b HF. apply (near_sound F HF).
Qed.

Lemma c282_complete :
  forall F a b, proper_fmt F -> 3 <= prec F -> number F (Fin a) -> number F (Fin b) -> a <> 0 -> b <> 0 -> 2 ^ prec F * Z.abs (a - b) <= Z.min (Z.abs a + Z.abs b) (2 ^ top_exp F) -> nearly_equal F (Fin a) (Fin b) (epsilon F) = true.
Proof.
  intros F a b HF. apply (near_complete F HF).
Qed.

Lemma c282_zero_refuted :
  forall F x e, proper_fmt F -> x <> 0 -> 0 < e -> nearly_equal F (Fin 0) (Fin x) (Fin e) = false.
Proof.
  intros F x e HF. apply (near_zero F HF).
Qed.

Lemma c283_ends :
  forall z, number double (Fin z) -> (exists n v, forall m, (n <= m)%nat -> m_sin m (Fin z) = Ok v) /\ (exists n v, forall m, (n <= m)%nat -> m_cos m (Fin z) = Ok v).
Proof.
  intros z H. split; [apply m_sin_total; exact H|apply m_cos_total; exact H].
Qed.

Lemma c283_special_refuted :
  forall n x, (exists s, x = Inf s) \/ x = NaN -> m_sin n x = OutOfFuel /\ m_cos n x = OutOfFuel.
Proof.
  intros n x H. split; [apply m_sin_special; exact H|apply m_cos_special; exact H].
Qed.

Lemma c284_scale :
  forall a k, -1022 <= k <= 1023 -> exists z, ldexp (Fin a) k = Ok (fin double z) /\ nearest_rep double z (a * 2 ^ (1074 + k)) (2 ^ 1074).
Proof.
  exact ldexp_ok.
Qed.

Lemma c284_exact :
  forall a k, number double (Fin a) -> 0 <= k <= 1023 -> ldexp (Fin a) k = Ok (fin double (a * 2 ^ k)).
Proof.
  exact ldexp_exact.
Qed.

Lemma c284_limits_refuted :
  (forall a, 0 < a -> ldexp (Fin a) 1024 = Ok (Inf false)) /\ (forall a, ldexp (Fin a) (-1023) = Ok (Fin 0)) /\ representable double (1 * 2 ^ 1024) /\ 1 * 2 ^ 1024 < 2 ^ top_exp double.
Proof.
  split; [exact ldexp_1024|]. split; [exact ldexp_m1023|]. split; [exists 1, 1024; repeat split; lia|vm_compute; reflexivity].
Qed.

Lemma c285_pow2 :
  forall e, -307 <= e <= 307 -> dpow2 e = Ok (Fin (2 ^ (1074 + e))).
Proof.
  exact dpow2_ok.
Qed.

Lemma c285_pow10 :
  forall e, 0 <= e <= 22 -> dpow10 e = Ok (Fin (10 ^ e * 2 ^ 1074)).
Proof.
  exact dpow10_exact.
Qed.

Lemma c285_pow10_error :
  forall e, 0 <= e <= 307 -> (exists z, dpow10 e = Ok (Fin z) /\ 2 ^ 53 * Z.abs (z - 10 ^ e * 2 ^ 1074) <= 34 * (10 ^ e * 2 ^ 1074)) /\
  (exists z, dpow10 (- e) = Ok (Fin z) /\ 2 ^ 53 * Z.abs (z * 10 ^ e - 2 ^ 1074) <= 40 * 2 ^ 1074).
Proof.
  intros e H. split; [apply dpow10_pos; exact H|]. destruct (Z.eq_dec e 0) as [->|N]; [|apply dpow10_neg; lia]. exists (2 ^ 1074). split; [change (- 0) with 0; rewrite dpow10_exact by lia; do 2 f_equal; lia|]. change (10 ^ 0) with 1. rewrite Z.mul_1_r, Z.sub_diag. change (Z.abs 0) with 0. rewrite Z.mul_0_r. apply Z.mul_nonneg_nonneg; [lia|apply Z.pow_nonneg; lia].
Qed.

Lemma c285_outside_refuted :
  forall e, e < -307 \/ 307 < e -> dpow2 e = UB /\ dpow10 e = UB.
Proof.
  intros e H. split; apply table_outside; exact H.
Qed.

Lemma c285_nearest_refuted :
  exists e z y, dpow10 e = Ok (Fin z) /\ 0 <= e <= 307 /\ representable double y /\ Z.abs (y - 10 ^ e * 2 ^ 1074) < Z.abs (z - 10 ^ e * 2 ^ 1074).
Proof.
  exists 44. do 2 eexists. split; [vm_compute; reflexivity|]. split; [lia|]. split; [exists 5048709793414476, (1074 + 94); split; [lia|]; split; [vm_compute; reflexivity|reflexivity]|]. vm_compute. reflexivity.
Qed.

Lemma c286_bits :
  forall f, number single (Fin f) -> f <> 0 -> exists b, bits_compat (Fin f) = Ok b /\ 0 <= b < 2 ^ 32 /\ of_bits f32 b = Fin f.
Proof.
  exact bits_finite.
Qed.

Lemma c286_fields :
  forall b, 0 <= b < 2 ^ 32 -> parts_negative b = (ieee_sign 32 b =? 1) /\ parts_exponent b = ieee_exponent 32 23 b - 127 /\ parts_raw_significand b = ieee_significand 23 b.
Proof.
  intros b H. destruct (parts_fields b H) as (A & _ & C & D). auto.
Qed.

Lemma c286_significand :
  forall b, 0 <= b < 2 ^ 32 -> 0 < ieee_exponent 32 23 b <= 127 ->
  exists v x, of_bits f32 b = Fin v /\ parts_significand b = Ok (Fin x) /\ unit_of single <= x < 2 * unit_of single /\ x = Z.abs v * 2 ^ (127 - ieee_exponent 32 23 b).
Proof.
  exact significand_ok.
Qed.

Lemma c286_copy_sign :
  forall B n s, B = f32 \/ B = f64 -> 0 <= n < 2 ^ fp_bits B -> 0 <= s < 2 ^ fp_bits B ->
  ieee_sign (fp_bits B) (copy_sign B n s) = ieee_sign (fp_bits B) s /\ ieee_exponent (fp_bits B) (fp_sig B) (copy_sign B n s) = ieee_exponent (fp_bits B) (fp_sig B) n /\ ieee_significand (fp_sig B) (copy_sign B n s) = ieee_significand (fp_sig B) n.
Proof.
  exact copy_sign_ok.
Qed.

Lemma c286_next :
  forall d, 0 <= d -> d + 1 < 0x7FF0000000000000 -> exists x y, of_bits f64 d = Fin x /\ of_bits f64 (d + 1) = Fin y /\ adj_ulp d 1 = Ok (d + 1) /\ adj_ulp (d + 1) (-1) = Ok d /\ x < y /\ forall z, representable double z -> ~ (x < z < y).
Proof.
  intros d H0 H. destruct (next_double d H0 H) as (x & y & A & B & C & D). exists x, y. split; [exact A|]. split; [exact B|]. rewrite !adj_ulp_ok by lia. split; [reflexivity|]. split; [f_equal; lia|]. split; [exact C|exact D].
Qed.

Lemma c286_signbit :
  forall B b, B = f32 \/ B = f64 -> of_bits B b <> NaN -> of_bits B b <> Fin 0 -> signbit B b = Z.testbit b (fp_bits B - 1).
Proof.
  intros B b HB. apply (signbit_ok B b _ HB eq_refl).
Qed.

Lemma c286_parts_refuted :
  (forall b, 0 <= b < 2 ^ 32 -> parts_sign_bit b = (ieee_sign 32 b =? 0)) /\
  (forall b, 0 <= b < 2 ^ 32 -> 127 < ieee_exponent 32 23 b < 254 -> exists v x, of_bits f32 b = Fin v /\ parts_significand b = Ok (fin single x) /\ x = Z.abs v * 2 ^ (ieee_exponent 32 23 b - 127) /\ 4 * unit_of single <= x) /\
  (of_bits f32 0x7F800001 = NaN /\ parts_is_nan 0x7F800001 = false).
Proof.
  split; [intros b H; apply (parts_fields b H)|]. split; [exact significand_wrong|]. split; vm_compute; reflexivity.
Qed.

Lemma c286_signs_refuted :
  (forall b, 0 <= b -> b + 1 < 0x7FF0000000000000 -> exists x y, of_bits f64 (2 ^ 63 + b) = Fin x /\ adj_ulp (2 ^ 63 + b) 1 = Ok (2 ^ 63 + b + 1) /\ of_bits f64 (2 ^ 63 + b + 1) = Fin y /\ y < x) /\
  signbit f64 (2 ^ 63) = false /\ ieee_sign 64 (2 ^ 63) = 1.
Proof.
  split; [exact adj_ulp_negative|]. split; vm_compute; reflexivity.
Qed.

Lemma c287_accuracy :
  forall B b, B = f32 \/ B = f64 -> 2 ^ fp_sig B <= b < fp_infinity B -> exists z r, of_bits B b = Fin z /\ m_sqrt B b = Ok (Fin r) /\ 0 < z /\ 0 < r /\
  2 ^ prec (of_fmt B) * Z.abs (r * r - z * unit_of (of_fmt B)) <= 16 * (z * unit_of (of_fmt B)).
Proof.
  exact m_sqrt_ok.
Qed.

Lemma c287_special :
  forall B, B = f32 \/ B = f64 -> m_sqrt B 0 = Ok (Fin 0) /\ m_sqrt B (fp_infinity B) = Ok (Inf false) /\ m_sqrt B (fp_infinity B + 1) = Ok NaN.
Proof.
  intros B [-> | ->]; (split; [vm_compute; reflexivity|split; vm_compute; reflexivity]).
Qed.

Lemma c287_negative_refuted :
  (exists r, m_sqrt f32 0xC1800000 = Ok (Fin r) /\ of_bits f32 0xC1800000 = Fin (- 16 * unit_of single) /\ r < 0) /\ of_bits f32 0xFF800000 = Inf true /\ m_sqrt f32 0xFF800000 = Ok (Inf false).
Proof.
  split; [eexists; split; [vm_compute; reflexivity|]; split; vm_compute; reflexivity|]. split; vm_compute; reflexivity.
Qed.

Lemma c287_subnormal_refuted :
  exists r, of_bits f32 1 = Fin 1 /\ m_sqrt f32 1 = Ok (Fin r) /\ 0 < r /\ 2 ^ 10 * (1 * unit_of single) < r * r.
Proof.
  eexists. split; [vm_compute; reflexivity|]. split; [vm_compute; reflexivity|]. split; vm_compute; reflexivity.
Qed.

Lemma c281_ceil_float_refuted_l :
  forall T n, Z.abs n < 2 ^ 52 -> lowest T <= n + 1 <= highest T -> m_ceil_f T (Fin (n * unit_of single)) = Ok (n + 1).
Proof.
  intros T n H L. unfold m_ceil_f, to_double. replace (n * unit_of single * 2 ^ (one_exp double - one_exp single)) with (n * unit_of double).
  - apply c281_ceil_refuted; auto.
  - rewrite <- Z.mul_assoc. f_equal.
Qed.

Lemma c286_parts_inf_l :
  forall b, 0 <= b < 2 ^ 32 -> (parts_is_inf b = true <-> exists s, of_bits f32 b = Inf s).
Proof.
  intros b H. unfold parts_is_inf, of_bits. change (fp_bits f32) with 32. change (fp_sig f32) with 23. cbv zeta. change (32 - 1 - 23) with 8. change (32 - 1) with 31.
  change (2 ^ 8) with 256. change (2 ^ 23) with 8388608. rewrite Bool.orb_true_iff, !Z.eqb_eq.
  pose proof (Z.div_mod b 8388608 ltac:(lia)) as D. pose proof (Z.mod_pos_bound b 8388608 ltac:(lia)) as M.
  assert (Q : 0 <= b / 8388608 < 512) by (split; [apply Z.div_pos; lia|apply Z.div_lt_upper_bound; lia]).
  destruct (Z.eqb_spec ((b / 8388608) mod 256) (256 - 1)) as [E | E].
  - destruct (Z.eqb_spec (b mod 8388608) 0) as [Z0 | Z0].
    + split; [eauto|]. intros _. assert (b / 8388608 = 255 \/ b / 8388608 = 511) by (pose proof (Z.div_mod (b / 8388608) 256 ltac:(lia)); lia). lia.
    + split; [intros [-> | ->]; now elim Z0|intros (s & K); discriminate].
  - split; [intros [-> | ->]; now elim E|intros (s & K); destruct (Z.testbit b 31); discriminate].
Qed.
