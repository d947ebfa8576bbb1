(** Proofs about square roots and the tables of powers. *)
From Verif Require Import Common Ints Math CxMath SpecMath CxMathProofs CxPowProofs Floats FloatMath SpecFloats SpecFloatMath FloatsProofs FloatMathProofs FloatTrigProofs.
Ltac Zify.zify_post_hook ::= idtac.
Open Scope Z_scope.

Section Fmt.
Variable F : fmt.
Hypothesis HF : proper_fmt F.
Notation p := (prec F).
Notation oe := (one_exp F).
Notation U := (unit_of F).
Notation N := (2 ^ p).
(** The relative error of a rounded quotient in the range of the normal numbers. *)
Lemma rnd_error_den n d : 0 < d -> 2 ^ (p - 1) * d <= n -> N * Z.abs (rnd F n d * d - n) <= n /\ 0 < rnd F n d.
Proof.
  intros Hd H. pose proof (sizes F HF) as S. pose proof (two_pos (p - 1) ltac:(lia)) as P1. assert (Hn : 0 < n) by nia.
  split; [|apply Z.lt_le_trans with (2 ^ (p - 1)); [exact P1|apply (rnd_above F HF); [exact Hd|apply (rep_pow F HF); lia|exact H]]].
  unfold rnd. destruct (Z.ltb_spec n 0); [lia|]. destruct (rnd_pos_grid F HF n d ltac:(lia) Hd) as (k & E & _ & B & _). rewrite E. set (e := grid F (n / d)) in *.
  assert (He : 0 <= e) by apply grid_nonneg. assert (Q : 2 ^ (p - 1 + e) <= n / d).
  { destruct (Z.eq_dec e 0) as [E0|E0]; [rewrite E0, Z.add_0_r; apply Z.div_le_lower_bound; lia|]. pose proof (grid_lower F HF (n / d) ltac:(fold e; lia) ltac:(apply Z.div_pos; lia)) as G. fold e in G. replace (p + e - 1) with (p - 1 + e) in G by lia. exact G. }
  assert (Q2 : d * 2 ^ (p - 1 + e) <= n) by (eapply Z.le_trans; [apply Z.mul_le_mono_nonneg_l; [lia|exact Q]|apply Z.mul_div_le; exact Hd]).
  assert (PP : N = 2 * 2 ^ (p - 1)) by (rewrite <- Z.pow_succ_r by lia; f_equal; lia). rewrite two_split in Q2 by lia. rewrite PP. set (A := Z.abs (k * 2 ^ e * d - n)) in *.
  assert (2 ^ (p - 1) * (2 * A) <= 2 ^ (p - 1) * (d * 2 ^ e)) by (apply Z.mul_le_mono_nonneg_l; lia). lia.
Qed.
Lemma fdiv_rel f y : 0 < y -> 2 ^ (p - 1) * y <= f * U -> f * U <= y * 2 ^ (top_exp F - 1) -> exists q, fdiv F (Fin f) (Fin y) = Fin q /\ N * Z.abs (q * y - f * U) <= f * U /\ 0 < q /\ representable F q.
Proof.
  intros Hy L H. pose proof (sizes F HF) as S. cbn [fdiv]. fold U. destruct (Z.eqb_spec y 0); [lia|]. rewrite (Z.sgn_pos y), (Z.abs_eq y), Z.mul_1_r by lia. destruct (rnd_error_den (f * U) y Hy L) as [R P].
  exists (rnd F (f * U) y). split; [apply fin_ok; rewrite Z.abs_eq by lia|]. 2:{ split; [exact R|]. split; [exact P|apply rnd_rep; auto]. }
  pose proof (rnd_below F HF (f * U) y (2 ^ (top_exp F - 1)) Hy (rep_pow F HF (top_exp F - 1) ltac:(lia)) ltac:(lia)). pose proof (pow_lt (top_exp F - 1) (top_exp F) ltac:(lia)). lia.
Qed.
Lemma fadd_rel a b : 0 < a -> 0 < b -> a + b <= 2 ^ (top_exp F - 1) -> exists s, fadd F (Fin a) (Fin b) = Fin s /\ N * Z.abs (s - (a + b)) <= a + b /\ representable F s.
Proof.
  intros Ha Hb H. pose proof (sizes F HF) as S. exists (rnd F (a + b) 1). split; [apply (fadd_finite F HF a b (top_exp F - 1)); lia|]. split; [|apply rnd_rep; auto; lia]. pose proof (rnd_error F HF (a + b)) as R. rewrite (Z.abs_eq (a + b)) in R by lia. exact R.
Qed.
(** Multiplying by a power of two is exact while the result is a number. *)
Lemma fmul_power a k h : h * U = 2 ^ k * a -> representable F h -> Z.abs h < 2 ^ top_exp F -> fmul F (Fin (2 ^ k)) (Fin a) = Fin h.
Proof. intros E R B. cbn [fmul]. fold U. rewrite <- E, (rnd_exact F HF h U (U_pos F HF) R). apply fin_ok. exact B. Qed.
Lemma half_rep s j : 0 <= j -> representable F s -> 2 ^ (p + j) <= s -> exists h, s = h * 2 ^ j /\ representable F h.
Proof.
  intros Hj (m & e & He & Hm & E) L. pose proof (sizes F HF) as S. assert (Hje : j <= e).
  { destruct (Z_le_gt_dec j e) as [|G]; [auto|exfalso]. assert (s < 2 ^ p * 2 ^ e) by (pose proof (two_pos e He); nia). rewrite <- two_split in H by lia. pose proof (pow_lt (p + e) (p + j) ltac:(lia)). lia. }
  exists (m * 2 ^ (e - j)). split; [rewrite <- Z.mul_assoc, <- two_split by lia; rewrite E; do 2 f_equal; lia|]. exists m, (e - j). repeat split; auto. lia.
Qed.
End Fmt.
Lemma abs_bound N a b c : 0 <= N -> N * Z.abs (a - b) <= c -> N * a <= N * b + c /\ N * b <= N * a + c.
Proof. intros HN H. destruct (Z.abs_spec (a - b)) as [[L E]|[L E]]; rewrite E in H; nia. Qed.
(** One step of Newton's iteration, with rounding: [ph] is the argument, [y] the old and [h] the new approximation of its root. *)
Lemma newton_quality N K ph y q s h : 64 <= N -> 2 <= K -> 0 < ph -> 0 < y -> 0 < q -> s = 2 * h ->
  N * Z.abs (q * y - ph) <= ph -> N * Z.abs (s - (y + q)) <= y + q -> K * Z.abs (y * y - ph) <= ph ->
  32 * N * (K * (K - 1)) * Z.abs (h * h - ph) <= (8 * N + 33 + 132 * (K * (K - 1))) * ph.
Proof.
  intros HN HK Hph Hy Hq Es Rq Rs Q. set (yy := y * y) in *. set (g := yy - ph) in *. assert (Hyy : 0 < yy) by (apply Z.mul_pos_pos; lia).
  (* the sum times y *)
  set (A := yy + ph). assert (HA : 0 < A) by (unfold A; lia).
  assert (Hys : N * Z.abs (y * s - (yy + q * y)) <= yy + q * y). { replace (y * s - (yy + q * y)) with (y * (s - (y + q))) by (unfold yy; ring). rewrite Z.abs_mul, (Z.abs_eq y) by lia. replace (yy + q * y) with (y * (y + q)) by (unfold yy; ring). replace (N * (y * Z.abs (s - (y + q)))) with (y * (N * Z.abs (s - (y + q)))) by ring. apply Z.mul_le_mono_nonneg_l; lia. }
  assert (Hqy : 0 < q * y) by (apply Z.mul_pos_pos; lia). set (w := y * s) in *. set (v := q * y) in *.
  destruct (abs_bound N _ _ _ ltac:(lia) Rq) as [Rq1 Rq2]. destruct (abs_bound N _ _ _ ltac:(lia) Hys) as [Hs1 Hs2]. fold v in Rq1, Rq2.
  assert (V1 : N * v <= (N + 1) * ph) by lia. assert (V2 : (N - 1) * ph <= N * v) by lia.
  assert (W1 : N * w <= (N + 1) * (yy + v)) by lia. assert (W2 : (N - 1) * (yy + v) <= N * w) by lia.
  assert (W3 : N * N * w <= (N + 1) * (N + 1) * A). { assert (N * (N * w) <= N * ((N + 1) * (yy + v))) by (apply Z.mul_le_mono_nonneg_l; lia). assert (N * (yy + v) <= (N + 1) * A) by (unfold A; lia). assert ((N + 1) * (N * (yy + v)) <= (N + 1) * ((N + 1) * A)) by (apply Z.mul_le_mono_nonneg_l; lia). lia. }
  assert (W4 : (N - 1) * (N - 1) * A <= N * N * w). { assert (N * ((N - 1) * (yy + v)) <= N * (N * w)) by (apply Z.mul_le_mono_nonneg_l; lia). assert ((N - 1) * A <= N * (yy + v)) by (unfold A; lia). assert ((N - 1) * ((N - 1) * A) <= (N - 1) * (N * (yy + v))) by (apply Z.mul_le_mono_nonneg_l; lia). lia. }
  (* squares *)
  assert (EW : w * w = 4 * yy * (h * h)) by (unfold w, yy; rewrite Es; ring). assert (EA : A * A = 4 * yy * ph + g * g) by (unfold A, g; ring).
  assert (HAA : 0 < A * A) by (apply Z.mul_pos_pos; lia). set (AA := A * A) in *. set (N2 := N * N) in *. assert (HN2 : 64 * N <= N2) by (apply Z.mul_le_mono_nonneg_r; lia). assert (Hw : 0 <= w) by (apply Z.mul_nonneg_nonneg; [lia|]; clear - Rs HN Hy Hq; destruct (abs_bound N _ _ _ ltac:(lia) Rs) as [_ K]; assert (64 * (y + q) <= N * (y + q)) by (apply Z.mul_le_mono_nonneg_r; lia); destruct (Z_le_gt_dec 0 s); [lia|]; assert (N * s <= 0) by (apply Z.mul_nonneg_nonpos; lia); lia).
  assert (Hl : 0 <= N2 * w) by (apply Z.mul_nonneg_nonneg; lia). assert (Hm : 0 <= (N - 1) * (N - 1) * A) by (apply Z.mul_nonneg_nonneg; [apply Z.mul_nonneg_nonneg; lia|lia]).
  assert (X1 : (N2 * w) * (N2 * w) <= ((N + 1) * (N + 1) * A) * ((N + 1) * (N + 1) * A)) by (apply Z.mul_le_mono_nonneg; assumption).
  assert (X2 : ((N - 1) * (N - 1) * A) * ((N - 1) * (N - 1) * A) <= (N2 * w) * (N2 * w)) by (apply Z.mul_le_mono_nonneg; assumption).
  replace ((N + 1) * (N + 1) * A * ((N + 1) * (N + 1) * A)) with ((N2 * N2 + (4 * N * N2 + 6 * N2 + 4 * N + 1)) * AA) in X1 by (unfold N2, AA; ring).
  replace ((N - 1) * (N - 1) * A * ((N - 1) * (N - 1) * A)) with ((N2 * N2 - (4 * N * N2 - 6 * N2 + 4 * N - 1)) * AA) in X2 by (unfold N2, AA; ring).
  replace (N2 * w * (N2 * w)) with (N2 * N2 * (w * w)) in X1, X2 by ring. rewrite EW in X1, X2.
  assert (HM0 : 64 * N2 <= N * N2) by (apply Z.mul_le_mono_nonneg_r; lia).
  assert (C1 : 8 * (4 * N * N2 + 6 * N2 + 4 * N + 1) <= 33 * (N * N2)) by lia. assert (C2 : 8 * (4 * N * N2 - 6 * N2 + 4 * N - 1) <= 33 * (N * N2)) by lia.
  assert (C3 : 8 * (4 * N * N2 + 6 * N2 + 4 * N + 1) * AA <= 33 * (N * N2) * AA) by (apply Z.mul_le_mono_nonneg_r; lia). assert (C4 : 8 * (4 * N * N2 - 6 * N2 + 4 * N - 1) * AA <= 33 * (N * N2) * AA) by (apply Z.mul_le_mono_nonneg_r; lia).
  set (hh := h * h) in *. set (gg := g * g) in *. assert (Hgg : 0 <= gg) by apply Z.square_nonneg. set (M := N * N2) in *. assert (HM : 0 < M) by (unfold M; lia). assert (E4 : N2 * N2 = N * M) by (unfold M, N2; ring). rewrite E4 in X1, X2.
  assert (Y1 : M * (32 * N * yy * (hh - ph)) <= M * (8 * N * gg + 33 * AA)).
  { replace (M * (32 * N * yy * (hh - ph))) with (8 * (N * M * (4 * yy * hh)) - 8 * (N * M * (4 * yy * ph))) by ring. replace (4 * yy * ph) with (AA - gg) by lia. lia. }
  assert (Y2 : M * (32 * N * yy * (ph - hh)) <= M * (8 * N * gg + 33 * AA)).
  { replace (M * (32 * N * yy * (ph - hh))) with (8 * (N * M * (4 * yy * ph)) - 8 * (N * M * (4 * yy * hh))) by ring. replace (4 * yy * ph) with (AA - gg) by lia. assert (0 <= N * M * gg) by (apply Z.mul_nonneg_nonneg; [apply Z.mul_nonneg_nonneg; lia|lia]). lia. }
  apply Z.mul_le_mono_pos_l in Y1; [|exact HM]. apply Z.mul_le_mono_pos_l in Y2; [|exact HM].
  assert (Y3 : 32 * N * yy * Z.abs (hh - ph) <= 8 * N * gg + 33 * AA) by (destruct (Z.abs_spec (hh - ph)) as [[_ ->]|[_ ->]]; lia).
  (* the old error *)
  set (J := K * (K - 1)). assert (HJ : 0 < J) by (apply Z.mul_pos_pos; lia). set (ag := Z.abs g) in *. assert (Eg : gg = ag * ag) by (unfold gg, ag; destruct (Z.abs_spec g) as [[_ ->]|[_ ->]]; ring).
  assert (Hag : 0 <= ag) by (unfold ag; lia). assert (G1 : (K - 1) * ag <= yy). { assert (Z.abs g = ag) by reflexivity. assert (ph - ag <= yy) by (unfold ag, g; lia). lia. }
  assert (G2 : J * gg <= yy * ph). { rewrite Eg. unfold J. replace (K * (K - 1) * (ag * ag)) with ((K - 1) * ag * (K * ag)) by ring. apply Z.mul_le_mono_nonneg; try lia; apply Z.mul_nonneg_nonneg; lia. }
  assert (Z1 : J * (32 * N * yy * Z.abs (hh - ph)) <= J * (8 * N * gg + 33 * AA)) by (apply Z.mul_le_mono_nonneg_l; lia). rewrite EA in Z1.
  assert (Z2 : (8 * N + 33) * (J * gg) <= (8 * N + 33) * (yy * ph)) by (apply Z.mul_le_mono_nonneg_l; lia).
  apply Z.mul_le_mono_pos_l with yy; [exact Hyy|].
  replace (yy * (32 * N * J * Z.abs (hh - ph))) with (J * (32 * N * yy * Z.abs (hh - ph))) by ring.
  replace (yy * ((8 * N + 33 + 132 * J) * ph)) with ((8 * N + 33) * (yy * ph) + 132 * J * yy * ph) by ring.
  replace (J * (8 * N * gg + 33 * (4 * yy * ph + gg))) with ((8 * N + 33) * (J * gg) + 132 * J * yy * ph) in Z1 by ring. lia.
Qed.
(** With numbers for the old and the new quality. *)
Lemma newton_better N K L ph y q s h : 64 <= N -> 2 <= K -> 0 < ph -> 0 < y -> 0 < q -> s = 2 * h ->
  N * Z.abs (q * y - ph) <= ph -> N * Z.abs (s - (y + q)) <= y + q -> K * Z.abs (y * y - ph) <= ph ->
  0 <= L -> L * (8 * N + 33 + 132 * (K * (K - 1))) <= 32 * N * (K * (K - 1)) -> L * Z.abs (h * h - ph) <= ph.
Proof.
  intros HN HK Hph Hy Hq Es Rq Rs Q HL HC. pose proof (newton_quality N K ph y q s h HN HK Hph Hy Hq Es Rq Rs Q) as R. set (J := K * (K - 1)) in *. assert (HJ : 0 < J) by (apply Z.mul_pos_pos; lia). set (C := 8 * N + 33 + 132 * J) in *. assert (HCp : 0 < C) by (unfold C; lia).
  set (D := Z.abs (h * h - ph)) in *. assert (HD : 0 <= D) by (unfold D; lia). apply Z.mul_le_mono_pos_l with C; [exact HCp|]. eapply Z.le_trans; [|exact R]. replace (C * (L * D)) with (L * C * D) by ring. apply Z.mul_le_mono_nonneg_r; lia.
Qed.

(** * sqrt_fast *)
Section Sqrt.
Variable F : fmt.
Hypothesis HF : proper_fmt F.
Notation p := (prec F).
Notation oe := (one_exp F).
Notation U := (unit_of F).
Notation N := (2 ^ p).
Hypothesis P6 : 6 <= p.
Hypothesis Room : p + 4 < oe.
Variable f : Z.
Hypothesis Hf : U <= f < 2 * U.
Definition good (K y : Z) : Prop := 0 < y /\ K * Z.abs (y * y - f * U) <= f * U.
Lemma U_big : 16 * N <= U.
Proof. unfold unit_of. change 16 with (2 ^ 4). rewrite <- two_split by lia. apply pow_le. lia. Qed.
Lemma N64 : 64 <= N.
Proof. change 64 with (2 ^ 6). apply pow_le. lia. Qed.
Lemma top_big : 64 * U <= 2 ^ (top_exp F - 1).
Proof. unfold unit_of. change 64 with (2 ^ 6). rewrite <- two_split by lia. apply pow_le. pose proof (sizes F HF). lia. Qed.
Lemma good_range K y : 2 <= K -> good K y -> U <= 2 * y /\ y <= 2 * U.
Proof.
  intros HK [Hy Q]. pose proof (U_pos F HF) as Up. assert (Q2 : 2 * Z.abs (y * y - f * U) <= f * U) by (eapply Z.le_trans; [apply Z.mul_le_mono_nonneg_r; [|exact HK]; lia|exact Q]).
  assert (A1 : U * U <= f * U) by (apply Z.mul_le_mono_nonneg_r; lia). assert (A2 : f * U <= 2 * U * U) by (apply Z.mul_le_mono_nonneg_r; lia). split.
  - destruct (Z_le_gt_dec U (2 * y)) as [|G]; [auto|exfalso]. assert ((2 * y) * (2 * y) <= (U - 1) * (2 * y)) by (apply Z.mul_le_mono_nonneg_r; lia). assert ((U - 1) * (2 * y) <= (U - 1) * U) by (apply Z.mul_le_mono_nonneg_l; lia). lia.
  - destruct (Z_le_gt_dec y (2 * U)) as [|G]; [auto|exfalso]. assert (2 * U * (2 * U) <= 2 * U * y) by (apply Z.mul_le_mono_nonneg_l; lia). assert (2 * U * y <= y * y) by (apply Z.mul_le_mono_nonneg_r; lia). assert (0 < U * U) by (apply Z.mul_pos_pos; lia). lia.
Qed.
Lemma quotient_ok y : U <= 2 * y -> y <= 4 * U -> exists q, fdiv F (Fin f) (Fin y) = Fin q /\ N * Z.abs (q * y - f * U) <= f * U /\ 0 < q <= 8 * U /\ representable F q.
Proof.
  intros L1 L2. pose proof (U_pos F HF) as Up. pose proof U_big as UB. pose proof top_big as TB. pose proof N64 as N6. pose proof (sizes F HF) as S.
  assert (PP : N = 2 * 2 ^ (p - 1)) by (rewrite <- Z.pow_succ_r by lia; f_equal; lia).
  destruct (fdiv_rel F HF f y ltac:(lia)) as (q & E & R & P & Rq).
  - apply Z.le_trans with (2 ^ (p - 1) * (4 * U)); [apply Z.mul_le_mono_nonneg_l; lia|]. apply Z.le_trans with (U * U); [|apply Z.mul_le_mono_nonneg_r; lia]. replace (2 ^ (p - 1) * (4 * U)) with (4 * 2 ^ (p - 1) * U) by ring. apply Z.mul_le_mono_nonneg_r; lia.
  - apply Z.le_trans with (2 * U * U); [apply Z.mul_le_mono_nonneg_r; lia|]. apply Z.le_trans with (y * (64 * U)); [|apply Z.mul_le_mono_nonneg_l; lia]. replace (y * (64 * U)) with (2 * y * (32 * U)) by ring. assert (U * (32 * U) <= 2 * y * (32 * U)) by (apply Z.mul_le_mono_nonneg_r; lia). assert (0 < U * U) by (apply Z.mul_pos_pos; lia). lia.
  - exists q. split; [exact E|]. split; [exact R|]. split; [|exact Rq]. split; [exact P|]. destruct (abs_bound N _ _ _ ltac:(lia) R) as [R1 _].
    assert (X : 64 * Z.abs (q * y - f * U) <= f * U) by (eapply Z.le_trans; [apply Z.mul_le_mono_nonneg_r; [|exact N6]; lia|exact R]). assert (A2 : f * U <= 2 * U * U) by (apply Z.mul_le_mono_nonneg_r; lia).
    destruct (Z_le_gt_dec q (8 * U)) as [|G]; [auto|exfalso]. assert (8 * U * y <= q * y) by (apply Z.mul_le_mono_nonneg_r; lia). assert (4 * U * U <= 4 * U * (2 * y)) by (apply Z.mul_le_mono_nonneg_l; lia). assert (0 < U * U) by (apply Z.mul_pos_pos; lia). lia.
Qed.
Lemma sum_ok a b : 0 < a -> 0 < b -> U <= 4 * (a + b) -> a + b <= 16 * U -> exists s, fadd F (Fin a) (Fin b) = Fin s /\ N * Z.abs (s - (a + b)) <= a + b /\ representable F s /\ 2 ^ (p + 1) <= s /\ s <= 32 * U.
Proof.
  intros Ha Hb L1 L2. pose proof (U_pos F HF) as Up. pose proof U_big as UB. pose proof top_big as TB. pose proof N64 as N6. destruct (fadd_rel F HF a b Ha Hb ltac:(lia)) as (s & E & R & Rs). exists s. split; [exact E|]. split; [exact R|]. split; [exact Rs|].
  assert (X : 64 * Z.abs (s - (a + b)) <= a + b) by (eapply Z.le_trans; [apply Z.mul_le_mono_nonneg_r; [|exact N6]; lia|exact R]). rewrite Z.add_1_r, Z.pow_succ_r by (pose proof (sizes F HF); lia). lia.
Qed.
Lemma newton_step K L y : 2 <= K -> good K y -> 0 <= L -> L * (8 * N + 33 + 132 * (K * (K - 1))) <= 32 * N * (K * (K - 1)) ->
  exists q s h, fdiv F (Fin f) (Fin y) = Fin q /\ fadd F (Fin y) (Fin q) = Fin s /\ s = 2 * h /\ newton F (Fin f) (Fin y) = Fin h /\ good L h /\ representable F s.
Proof.
  intros HK G HL C. destruct (good_range K y HK G) as [L1 L2]. destruct G as [Hy Q]. pose proof (U_pos F HF) as Up. pose proof (sizes F HF) as S.
  destruct (quotient_ok y L1 ltac:(lia)) as (q & Eq & Rq & Pq & _). destruct (sum_ok y q Hy ltac:(lia) ltac:(lia) ltac:(lia)) as (s & Es & Rs & Reps & Ls & Us). destruct (half_rep F HF s 1 ltac:(lia) Reps Ls) as (h & Eh & Rh). change (2 ^ 1) with 2 in Eh.
  exists q, s, h. split; [exact Eq|]. split; [exact Es|]. split; [lia|]. assert (Hh : 0 < h) by (pose proof (two_pos (p + 1) ltac:(lia)); lia). assert (PF : 0 < f * U) by (apply Z.mul_pos_pos; lia). split; [|split; [|exact Reps]].
  - unfold newton. rewrite Eq, Es, (half_value F HF). apply (fmul_power F HF); [|exact Rh|].
    + rewrite Eh. rewrite (U_half F HF). ring.
    + rewrite Z.abs_eq by lia. pose proof top_big. pose proof (pow_lt (top_exp F - 1) (top_exp F) ltac:(lia)). lia.
  - split; [exact Hh|]. apply (newton_better N K L (f * U) y q s h); auto; try lia. exact N64.
Qed.
Lemma quarter_value : literal F 1 4 = Fin (2 ^ (oe - 2)).
Proof.
  pose proof (sizes F HF) as S. apply (literal_exact F HF); [lia| |apply (rep_pow F HF); lia|].
  - unfold unit_of. change 4 with (2 ^ 2). rewrite <- two_split by lia. rewrite Z.mul_1_l. f_equal. lia.
  - pose proof (two_pos (oe - 2) ltac:(lia)). rewrite Z.abs_eq by lia. apply pow_lt. lia.
Qed.
(** The final rounds of lines 1098-1100: z is twice an approximation. *)
Lemma quarter_step K L h : 2 <= K -> good K h -> representable F (2 * h) -> 0 <= L -> L * (8 * N + 33 + 132 * (K * (K - 1))) <= 32 * N * (K * (K - 1)) ->
  exists y, fadd F (fmul F (literal F 1 4) (Fin (2 * h))) (fdiv F (Fin f) (Fin (2 * h))) = Fin y /\ good L y.
Proof.
  intros HK G Rep HL C. destruct (good_range K h HK G) as [L1 L2]. destruct G as [Hh Q]. pose proof (U_pos F HF) as Up. pose proof (sizes F HF) as S. pose proof U_big as UB. pose proof N64 as N6.
  destruct (half_rep F HF (2 * h) 2 ltac:(lia) Rep) as (h' & Eh & Rh'). { change (2 ^ (p + 2)) with (2 ^ (p + 2)). rewrite two_split by lia. change (2 ^ 2) with 4. lia. } change (2 ^ 2) with 4 in Eh.
  assert (Eq : fmul F (literal F 1 4) (Fin (2 * h)) = Fin h').
  { rewrite quarter_value. apply (fmul_power F HF); [|exact Rh'|].
    - rewrite Eh. unfold unit_of. replace oe with (2 + (oe - 2)) at 1 by lia. rewrite two_split by lia. change (2 ^ 2) with 4. ring.
    - rewrite Z.abs_eq by lia. pose proof top_big. pose proof (pow_lt (top_exp F - 1) (top_exp F) ltac:(lia)). lia. }
  rewrite Eq. destruct (quotient_ok (2 * h) ltac:(lia) ltac:(lia)) as (q & Ed & Rq & Pq & _). rewrite Ed. destruct (sum_ok h' q ltac:(lia) ltac:(lia) ltac:(lia) ltac:(lia)) as (s & Es & Rs & Reps & Ls & Us). rewrite Es. exists s. split; [reflexivity|].
  assert (Hs : 0 < s) by (pose proof (two_pos (p + 1) ltac:(lia)); lia). split; [exact Hs|].
  apply (newton_better N K L (f * U) h (2 * q) (2 * s) s); auto; try lia.
Qed.
(** The first approximation. *)
Lemma first_guess c0 c1 t y : 0 < c0 -> 0 < c1 -> 41 * U <= 100 * c0 -> 1000 * c0 <= 419 * U -> 58 * U <= 100 * c1 -> 1000 * c1 <= 591 * U ->
  N * Z.abs (t * U - c1 * f) <= c1 * f -> N * Z.abs (y - (c0 + t)) <= c0 + t -> 0 < y -> 512 <= N -> good 3 y.
Proof.
  intros H0 H1 A1 A2 A3 A4 Rt Ry Py N5. pose proof (U_pos F HF) as Up. split; [exact Py|].
  assert (Pf : 0 < c1 * f) by (apply Z.mul_pos_pos; lia).
  assert (B1 : 512 * Z.abs (t * U - c1 * f) <= c1 * f) by (eapply Z.le_trans; [apply Z.mul_le_mono_nonneg_r; [|exact N5]; lia|exact Rt]).
  assert (C1 : 58 * U * f <= 100 * c1 * f) by (apply Z.mul_le_mono_nonneg_r; lia). assert (C2 : 1000 * c1 * f <= 591 * U * f) by (apply Z.mul_le_mono_nonneg_r; lia).
  assert (T1 : 57 * f <= 100 * t). { apply Z.mul_le_mono_pos_r with U; [exact Up|]. replace (57 * f * U) with (57 * (U * f)) by ring. replace (100 * t * U) with (100 * (t * U)) by ring. assert (0 < U * f) by (apply Z.mul_pos_pos; lia). lia. }
  assert (T2 : 1000 * t <= 593 * f). { apply Z.mul_le_mono_pos_r with U; [exact Up|]. replace (593 * f * U) with (593 * (U * f)) by ring. replace (1000 * t * U) with (1000 * (t * U)) by ring. assert (0 < U * f) by (apply Z.mul_pos_pos; lia). lia. }
  assert (Pt : 0 < t) by lia. assert (B2 : 512 * Z.abs (y - (c0 + t)) <= c0 + t) by (eapply Z.le_trans; [apply Z.mul_le_mono_nonneg_r; [|exact N5]; lia|exact Ry]).
  assert (Y1 : 40 * U + 56 * f <= 100 * y) by lia. assert (Y2 : 1000 * y <= 421 * U + 596 * f) by lia.
  assert (S1 : (40 * U + 56 * f) * (40 * U + 56 * f) <= 100 * y * (100 * y)) by (apply Z.mul_le_mono_nonneg; lia). assert (S2 : 1000 * y * (1000 * y) <= (421 * U + 596 * f) * (421 * U + 596 * f)) by (apply Z.mul_le_mono_nonneg; lia).
  (* (f - U) (2 U - f) >= 0 *)
  assert (S3 : 0 <= (f - U) * (2 * U - f)) by (apply Z.mul_nonneg_nonneg; lia). assert (S4 : 0 <= (f - U) * (f - U)) by (apply Z.square_nonneg).
  assert (S5 : 0 < U * U) by (apply Z.mul_pos_pos; lia). set (yy := y * y). replace (100 * y * (100 * y)) with (10000 * yy) in S1 by (unfold yy; ring). replace (1000 * y * (1000 * y)) with (1000000 * yy) in S2 by (unfold yy; ring).
  assert (S6 : f * U <= 2 * U * U) by (apply Z.mul_le_mono_nonneg_r; lia). assert (S7 : U * U <= f * U) by (apply Z.mul_le_mono_nonneg_r; lia). clearbody yy. clear - S1 S2 S3 S4 S5 S6 S7.
  destruct (Z.abs_spec (yy - f * U)) as [[_ ->]|[_ ->]]; lia.
Qed.
End Sqrt.

(** The first approximation is computed as assumed. *)
Lemma guess_ok F f c0 c1 : proper_fmt F -> 9 <= prec F -> prec F + 4 < one_exp F -> unit_of F <= f < 2 * unit_of F ->
  41 * unit_of F <= 100 * c0 -> 1000 * c0 <= 419 * unit_of F -> 58 * unit_of F <= 100 * c1 -> 1000 * c1 <= 591 * unit_of F ->
  exists y, fadd F (Fin c0) (fmul F (Fin c1) (Fin f)) = Fin y /\ good F f 3 y.
Proof.
  intros HF P9 Room Hf A1 A2 A3 A4. pose proof (U_pos F HF) as Up. pose proof (U_big F ltac:(lia) Room) as UB. pose proof (top_big F HF ltac:(lia) Room) as TB. pose proof (sizes F HF) as S. set (U := unit_of F) in *.
  assert (N5 : 512 <= 2 ^ prec F) by (change 512 with (2 ^ 9); apply pow_le; lia). assert (PP : 2 ^ prec F = 2 * 2 ^ (prec F - 1)) by (rewrite <- Z.pow_succ_r by lia; f_equal; lia).
  assert (Big : U * U <= 2 * (c1 * f)). { assert (c1 * U <= c1 * f) by (apply Z.mul_le_mono_nonneg_l; lia). assert (58 * U * U <= 100 * c1 * U) by (apply Z.mul_le_mono_nonneg_r; lia). lia. }
  destruct (rnd_error_den F HF (c1 * f) U Up) as [Rt Pt]. { assert (16 * 2 ^ prec F * U <= U * U) by (apply Z.mul_le_mono_nonneg_r; lia). lia. }
  cbn [fmul]. fold (unit_of F). fold U. set (t := rnd F (c1 * f) U) in *.
  assert (Bt : t <= 8 * U). { apply (rnd_below F HF); [exact Up| |].
    - unfold U, unit_of. change 8 with (2 ^ 3). rewrite <- two_split by lia. apply (rep_pow F HF). lia.
    - assert (c1 * f <= U * f) by (apply Z.mul_le_mono_nonneg_r; lia). assert (U * f <= U * (2 * U)) by (apply Z.mul_le_mono_nonneg_l; lia). assert (0 < U * U) by (apply Z.mul_pos_pos; lia). lia. }
  rewrite fin_ok by (rewrite Z.abs_eq by lia; pose proof (pow_lt (top_exp F - 1) (top_exp F) ltac:(lia)); lia).
  destruct (sum_ok F HF ltac:(lia) Room c0 t ltac:(lia) Pt) as (y & Ey & Ry & _ & Ly & _); [fold U; lia|fold U; lia|]. exists y. split; [exact Ey|].
  apply (first_guess F HF ltac:(lia) f Hf c0 c1 t y); auto; try lia; fold U; try lia; try exact Rt; pose proof (two_pos (prec F + 1) ltac:(lia)); lia.
Qed.
Ltac chk := vm_compute; discriminate.
Lemma mant_double f : unit_of double <= f < 2 * unit_of double -> exists y, sqrt_mant f64 (Fin f) = Fin y /\ good double f (2 * 10 ^ 15) y.
Proof.
  intros Hf. unfold sqrt_mant. change (of_fmt f64) with double. change (fp_bits f64 =? 32) with false. cbn iota.
  assert (C0 : exists c0, cst f64 41731 100000 = Fin c0 /\ 41 * unit_of double <= 100 * c0 /\ 1000 * c0 <= 419 * unit_of double) by (eexists; split; [vm_compute; reflexivity|]; split; chk).
  assert (C1 : exists c1, cst f64 59016 100000 = Fin c1 /\ 58 * unit_of double <= 100 * c1 /\ 1000 * c1 <= 591 * unit_of double) by (eexists; split; [vm_compute; reflexivity|]; split; chk).
  destruct C0 as (c0 & -> & A1 & A2). destruct C1 as (c1 & -> & A3 & A4). pose proof double_proper as HF. assert (P6 : 6 <= prec double) by chk. assert (Room : prec double + 4 < one_exp double) by (vm_compute; reflexivity).
  destruct (guess_ok double f c0 c1 HF ltac:(chk) Room Hf A1 A2 A3 A4) as (y0 & -> & G0).
  destruct (newton_step double HF P6 Room f Hf 3 23 y0 ltac:(lia) G0 ltac:(lia) ltac:(chk)) as (q1 & s1 & h1 & _ & _ & _ & -> & G1 & _).
  destruct (newton_step double HF P6 Room f Hf 23 2000 h1 ltac:(lia) G1 ltac:(lia) ltac:(chk)) as (q2 & s2 & h2 & _ & _ & _ & -> & G2 & _).
  destruct (newton_step double HF P6 Room f Hf 2000 15000000 h2 ltac:(lia) G2 ltac:(lia) ltac:(chk)) as (q3 & s3 & h3 & Eq & Es & Eh & _ & G3 & R3). rewrite Eq, Es. subst s3.
  destruct (quarter_step double HF P6 Room f Hf 15000000 (6 * 10 ^ 14) h3 ltac:(lia) G3 R3 ltac:(lia) ltac:(chk)) as (y4 & -> & G4).
  destruct (newton_step double HF P6 Room f Hf (6 * 10 ^ 14) (2 * 10 ^ 15) y4 ltac:(lia) G4 ltac:(lia) ltac:(chk)) as (q5 & s5 & h5 & _ & _ & _ & -> & G5 & _).
  exists h5. split; [reflexivity|exact G5].
Qed.
Lemma mant_single f : unit_of single <= f < 2 * unit_of single -> exists y, sqrt_mant f32 (Fin f) = Fin y /\ good single f 4000000 y.
Proof.
  intros Hf. unfold sqrt_mant. change (of_fmt f32) with single. change (fp_bits f32 =? 32) with true. cbn iota.
  assert (C0 : exists c0, cst f32 41731 100000 = Fin c0 /\ 41 * unit_of single <= 100 * c0 /\ 1000 * c0 <= 419 * unit_of single) by (eexists; split; [vm_compute; reflexivity|]; split; chk).
  assert (C1 : exists c1, cst f32 59016 100000 = Fin c1 /\ 58 * unit_of single <= 100 * c1 /\ 1000 * c1 <= 591 * unit_of single) by (eexists; split; [vm_compute; reflexivity|]; split; chk).
  destruct C0 as (c0 & -> & A1 & A2). destruct C1 as (c1 & -> & A3 & A4). pose proof single_proper as HF. assert (P6 : 6 <= prec single) by chk. assert (Room : prec single + 4 < one_exp single) by (vm_compute; reflexivity).
  destruct (guess_ok single f c0 c1 HF ltac:(chk) Room Hf A1 A2 A3 A4) as (y0 & -> & G0).
  destruct (newton_step single HF P6 Room f Hf 3 23 y0 ltac:(lia) G0 ltac:(lia) ltac:(chk)) as (q1 & s1 & h1 & _ & _ & _ & -> & G1 & _).
  destruct (newton_step single HF P6 Room f Hf 23 2000 h1 ltac:(lia) G1 ltac:(lia) ltac:(chk)) as (q3 & s3 & h3 & Eq & Es & Eh & _ & G3 & R3). rewrite Eq, Es. subst s3.
  destruct (quarter_step single HF P6 Room f Hf 2000 3200000 h3 ltac:(lia) G3 R3 ltac:(lia) ltac:(chk)) as (y4 & -> & G4).
  destruct (newton_step single HF P6 Room f Hf 3200000 4000000 y4 ltac:(lia) G4 ltac:(lia) ltac:(chk)) as (q5 & s5 & h5 & _ & _ & _ & -> & G5 & _).
  exists h5. split; [reflexivity|exact G5].
Qed.

(** The result for an odd exponent: [v] is the root [y] divided by the constant [s2] for the square root of two. *)
Lemma odd_quality N ph y v s2 u : 512 <= N -> 0 < ph -> 0 < y -> 0 < v -> 0 < s2 -> 0 < u ->
  N * Z.abs (v * s2 - y * u) <= y * u -> N * Z.abs (s2 * s2 - 2 * (u * u)) <= 4 * (u * u) -> N * Z.abs (y * y - ph) <= 5 * ph -> N * Z.abs (2 * (v * v) - ph) <= 16 * ph.
Proof.
  intros HN Hph Hy Hv Hs Hu Q1 Q2 Q3.
  destruct (abs_bound N _ _ _ ltac:(lia) Q1) as [A1 A2]. destruct (abs_bound N _ _ _ ltac:(lia) Q2) as [B1 B2]. destruct (abs_bound N _ _ _ ltac:(lia) Q3) as [C1 C2]. clear Q1 Q2 Q3.
  set (a := v * s2) in *. set (b := y * u) in *. assert (Ha : 0 < a) by (apply Z.mul_pos_pos; lia). assert (Hb : 0 < b) by (apply Z.mul_pos_pos; lia).
  set (vv := v * v) in *. set (yy := y * y) in *. set (uu := u * u) in *. set (ss := s2 * s2) in *.
  assert (Hvv : 0 < vv) by (apply Z.mul_pos_pos; lia). assert (Hyy : 0 < yy) by (apply Z.mul_pos_pos; lia). assert (Huu : 0 < uu) by (apply Z.mul_pos_pos; lia).
  assert (Eaa : a * a = vv * ss) by (unfold a, vv, ss; ring). assert (Ebb : b * b = yy * uu) by (unfold b, yy, uu; ring).
  assert (HNa : 0 <= N * a) by (apply Z.mul_nonneg_nonneg; lia). assert (HNb : 0 <= (N - 1) * b) by (apply Z.mul_nonneg_nonneg; lia).
  assert (D1 : (N * a) * (N * a) <= ((N + 1) * b) * ((N + 1) * b)) by (apply Z.mul_le_mono_nonneg; lia).
  assert (D2 : ((N - 1) * b) * ((N - 1) * b) <= (N * a) * (N * a)) by (apply Z.mul_le_mono_nonneg; lia).
  replace (N * a * (N * a)) with (N * N * (vv * ss)) in D1, D2 by (rewrite <- Eaa; ring).
  replace ((N + 1) * b * ((N + 1) * b)) with ((N + 1) * (N + 1) * yy * uu) in D1 by (rewrite <- Z.mul_assoc, <- Ebb; ring).
  replace ((N - 1) * b * ((N - 1) * b)) with ((N - 1) * (N - 1) * yy * uu) in D2 by (rewrite <- Z.mul_assoc, <- Ebb; ring).
  assert (E1 : N * vv * ((2 * N - 4) * uu) <= N * vv * (N * ss)) by (apply Z.mul_le_mono_nonneg_l; [apply Z.mul_nonneg_nonneg; lia|lia]).
  assert (E2 : N * vv * (N * ss) <= N * vv * ((2 * N + 4) * uu)) by (apply Z.mul_le_mono_nonneg_l; [apply Z.mul_nonneg_nonneg; lia|lia]).
  assert (F1 : 2 * (N * (N - 2)) * vv <= (N + 1) * (N + 1) * yy). { apply Z.mul_le_mono_pos_r with uu; [lia|]. replace (2 * (N * (N - 2)) * vv * uu) with (N * vv * ((2 * N - 4) * uu)) by ring. lia. }
  assert (F2 : (N - 1) * (N - 1) * yy <= 2 * (N * (N + 2)) * vv). { apply Z.mul_le_mono_pos_r with uu; [lia|]. replace (2 * (N * (N + 2)) * vv * uu) with (N * vv * ((2 * N + 4) * uu)) by ring. lia. }
  clear - HN Hph Hvv Hyy C1 C2 F1 F2.
  assert (G1 : N * (2 * vv) <= (N + 16) * ph).
  { apply Z.mul_le_mono_pos_l with (N * (N - 2)); [apply Z.mul_pos_pos; lia|].
    assert (H1 : N * (2 * (N * (N - 2)) * vv) <= N * ((N + 1) * (N + 1) * yy)) by (apply Z.mul_le_mono_nonneg_l; lia).
    assert (H2 : (N + 1) * (N + 1) * (N * yy) <= (N + 1) * (N + 1) * ((N + 5) * ph)) by (apply Z.mul_le_mono_nonneg_l; [apply Z.mul_nonneg_nonneg; lia|lia]).
    assert (H3 : (N + 1) * (N + 1) * (N + 5) * ph <= N * (N - 2) * (N + 16) * ph) by (apply Z.mul_le_mono_nonneg_r; [lia|]; assert (512 * N <= N * N) by (apply Z.mul_le_mono_nonneg_r; lia); assert (512 * (N * N) <= N * (N * N)) by (apply Z.mul_le_mono_nonneg_r; lia); lia).
    lia. }
  assert (G2 : (N - 16) * ph <= N * (2 * vv)).
  { apply Z.mul_le_mono_pos_l with (N * (N + 2)); [apply Z.mul_pos_pos; lia|].
    assert (H1 : N * ((N - 1) * (N - 1) * yy) <= N * (2 * (N * (N + 2)) * vv)) by (apply Z.mul_le_mono_nonneg_l; lia).
    assert (H2 : (N - 1) * (N - 1) * ((N - 5) * ph) <= (N - 1) * (N - 1) * (N * yy)) by (apply Z.mul_le_mono_nonneg_l; [apply Z.mul_nonneg_nonneg; lia|lia]).
    assert (H3 : N * (N + 2) * (N - 16) * ph <= (N - 1) * (N - 1) * (N - 5) * ph) by (apply Z.mul_le_mono_nonneg_r; [lia|]; assert (512 * N <= N * N) by (apply Z.mul_le_mono_nonneg_r; lia); lia).
    lia. }
  destruct (Z.abs_spec (2 * vv - ph)) as [[L E]|[L E]]; rewrite E; lia.
Qed.
Lemma fmul_rep F a b z : proper_fmt F -> fmul F a b = Fin z -> representable F z.
Proof.
  intros HF. destruct a as [a|s|], b as [b|t|]; cbn [fmul]; try discriminate; try (repeat match goal with |- context [if ?c then _ else _] => destruct c end; discriminate).
  unfold fin. destruct (_ <? _); [|discriminate]. intros E. injection E as <-. apply rnd_rep; auto. apply (U_pos F HF).
Qed.
Section Fast.
Variable B : fpfmt.
Hypothesis HB : std_fpfmt B.
Local Notation F := (of_fmt B).
Local Notation U := (unit_of F).
Lemma fexp3_ok e m : 0 < e < 2 * fp_bias B + 1 -> 0 <= m < 2 ^ fp_sig B ->
  fexp3 B F (two_bits B) (Fin ((m + 2 ^ fp_sig B) * 2 ^ (e - 1))) 0 (e - fp_bias B) = Ok (Fin ((m + 2 ^ fp_sig B) * 2 ^ (fp_bias B - 1))).
Proof.
  intros He Hm. pose proof (of_fmt_proper B HB) as HF. destruct (fpfmt_sizes B HB) as (Z1 & Z2 & Z3 & Z4 & Z5 & Z6 & Z7 & Z8).
  assert (Rf : representable F ((m + 2 ^ fp_sig B) * 2 ^ (fp_bias B - 1))). { exists (m + 2 ^ fp_sig B), (fp_bias B - 1). split; [lia|]. split; [|reflexivity]. rewrite Z3, Z.pow_add_r by lia. lia. }
  assert (Bf : Z.abs ((m + 2 ^ fp_sig B) * 2 ^ (fp_bias B - 1)) < 2 ^ top_exp F).
  { rewrite Z.abs_eq by (apply Z.mul_nonneg_nonneg; [lia|apply Z.pow_nonneg; lia]). apply Z.lt_le_trans with (2 ^ (fp_sig B + 1) * 2 ^ (fp_bias B - 1)).
    - apply Z.mul_lt_mono_pos_r; [apply two_pos; lia|]. rewrite Z.pow_add_r by lia. lia.
    - rewrite <- two_split by lia. apply pow_le. lia. }
  unfold fexp3. destruct (Z.gtb_spec (0 - (e - fp_bias B)) 0) as [G|G].
  - rewrite set_two by (auto; lia). cbn [bind]. rewrite of_bits_power by (auto; lia). rewrite (fmul_power F HF _ _ ((m + 2 ^ fp_sig B) * 2 ^ (fp_bias B - 1))); auto.
    unfold unit_of. rewrite (Z.mul_comm (2 ^ _) (_ * 2 ^ (e - 1))), <- !Z.mul_assoc, <- !two_split by lia. do 2 f_equal. lia.
  - rewrite set_two by (auto; lia). cbn [bind]. rewrite of_bits_power by (auto; lia). cbn [fdiv]. fold U.
    pose proof (two_pos (one_exp F + - (0 - (e - fp_bias B))) ltac:(lia)) as Pk. destruct (Z.eqb_spec (2 ^ (one_exp F + - (0 - (e - fp_bias B)))) 0); [lia|]. rewrite (Z.sgn_pos _ Pk), Z.mul_1_r, (Z.abs_eq (2 ^ _)) by lia.
    replace ((m + 2 ^ fp_sig B) * 2 ^ (e - 1) * U) with ((m + 2 ^ fp_sig B) * 2 ^ (fp_bias B - 1) * 2 ^ (one_exp F + - (0 - (e - fp_bias B)))).
    + rewrite (rnd_exact F HF _ _ Pk Rf), fin_ok by exact Bf. reflexivity.
    + unfold unit_of. rewrite <- !Z.mul_assoc, <- !two_split by lia. do 2 f_equal. lia.
Qed.
Lemma scale_ok v k : representable F v -> U <= 4 * v -> v <= 2 * U -> - fp_bias B - 1 <= 2 * k <= fp_bias B + 1 ->
  exists r, fmul F (Fin v) (Fin (2 ^ (one_exp F + k))) = Fin r /\ 0 < r /\ (0 <= k -> r = v * 2 ^ k) /\ (k < 0 -> v = r * 2 ^ (- k)).
Proof.
  intros Rv L1 L2 Hk. pose proof (of_fmt_proper B HB) as HF. destruct (fpfmt_sizes B HB) as (Z1 & Z2 & Z3 & Z4 & Z5 & Z6 & Z7 & Z8). pose proof (U_pos F HF) as Up.
  assert (Cm : forall a b, fmul F (Fin a) (Fin b) = fmul F (Fin b) (Fin a)) by (intros; cbn [fmul]; rewrite (Z.mul_comm a b); reflexivity). rewrite Cm.
  assert (VB : v <= 2 ^ (one_exp F + 1)) by (rewrite Z.pow_add_r by lia; unfold unit_of in L2; lia).
  destruct (Z_le_gt_dec 0 k) as [P|P].
  - exists (v * 2 ^ k). pose proof (two_pos k P) as Pk. assert (Pr : 0 < v * 2 ^ k) by (apply Z.mul_pos_pos; lia). split; [|split; [exact Pr|split; intros; [reflexivity|lia]]].
    apply fmul_power; auto.
    + unfold unit_of. rewrite <- Z.mul_assoc, <- two_split by lia. rewrite (Z.mul_comm (2 ^ (one_exp F + k))). do 2 f_equal. lia.
    + destruct Rv as (m & e & He & Hm & ->). exists m, (e + k). split; [lia|]. split; [exact Hm|]. rewrite <- Z.mul_assoc, <- two_split by lia. reflexivity.
    + rewrite Z.abs_eq by lia. apply Z.le_lt_trans with (2 ^ (one_exp F + 1) * 2 ^ k); [apply Z.mul_le_mono_nonneg_r; lia|]. rewrite <- two_split by lia. apply pow_lt. lia.
  - assert (HB2 : prec F + - k + 2 <= one_exp F) by lia.
    destruct (half_rep F HF v (- k) ltac:(lia) Rv) as (r & Er & Rr).
    { apply Z.mul_le_mono_pos_l with (2 ^ 2); [lia|]. rewrite <- two_split by lia. apply Z.le_trans with U; [apply pow_le; lia|]. change (2 ^ 2) with 4. lia. }
    pose proof (two_pos (- k) ltac:(lia)) as Pk. assert (Pr : 0 < r) by (destruct (Z_le_gt_dec r 0); [assert (r * 2 ^ (- k) <= 0) by (apply Z.mul_nonpos_nonneg; lia); lia|lia]).
    exists r. split; [|split; [exact Pr|split; intros; [lia|exact Er]]]. apply fmul_power; auto.
    + rewrite Er. unfold unit_of. rewrite (Z.mul_comm (2 ^ (one_exp F + k))), <- Z.mul_assoc, <- two_split by lia. do 2 f_equal. lia.
    + assert (r * 1 <= r * 2 ^ (- k)) by (apply Z.mul_le_mono_nonneg_l; lia). rewrite Z.abs_eq by lia. apply Z.le_lt_trans with (2 ^ (one_exp F + 1)); [lia|]. apply pow_lt. lia.
Qed.
End Fast.

Lemma mant_ok B f : std_fpfmt B -> unit_of (of_fmt B) <= f < 2 * unit_of (of_fmt B) -> exists y, sqrt_mant B (Fin f) = Fin y /\ representable (of_fmt B) y /\ 0 < y /\
  2 ^ prec (of_fmt B) * Z.abs (y * y - f * unit_of (of_fmt B)) <= 5 * (f * unit_of (of_fmt B)) /\ unit_of (of_fmt B) <= 2 * y /\ y <= 2 * unit_of (of_fmt B).
Proof.
  intros HB Hf. pose proof (of_fmt_proper B HB) as HF. assert (M : exists K y, sqrt_mant B (Fin f) = Fin y /\ good (of_fmt B) f K y /\ 2 <= K /\ 2 ^ prec (of_fmt B) <= 5 * K).
  { destruct HB as [-> | ->].
    - destruct (mant_single f Hf) as (y & E & G). exists 4000000, y. split; [exact E|]. split; [exact G|]. split; chk.
    - destruct (mant_double f Hf) as (y & E & G). exists (2 * 10 ^ 15), y. split; [exact E|]. split; [exact G|]. split; chk. }
  destruct M as (K & y & E & G & HK & KN). exists y. split; [exact E|]. split; [unfold sqrt_mant, newton in E; apply fmul_rep in E; auto|]. pose proof (good_range (of_fmt B) HF f Hf K y HK G) as R. destruct G as [Py G]. split; [exact Py|]. split; [|exact R].
  apply Z.le_trans with (5 * (K * Z.abs (y * y - f * unit_of (of_fmt B)))); [|lia]. rewrite Z.mul_assoc. apply Z.mul_le_mono_nonneg_r; [apply Z.abs_nonneg|exact KN].
Qed.
Lemma sqrt2_ok B : std_fpfmt B -> exists s, sqrt2 (of_fmt B) = Fin s /\ 2 ^ prec (of_fmt B) * Z.abs (s * s - 2 * (unit_of (of_fmt B) * unit_of (of_fmt B))) <= 4 * (unit_of (of_fmt B) * unit_of (of_fmt B)) /\ unit_of (of_fmt B) <= s <= 2 * unit_of (of_fmt B).
Proof. intros [-> | ->]; (eexists; split; [vm_compute; reflexivity|]; split; [chk|split; chk]). Qed.
Lemma min_exp_ok B k : std_fpfmt B -> - fp_bias B - 1 <= 2 * k <= fp_bias B + 1 -> fp_min_exponent B < k < fp_max_exponent B.
Proof. intros [-> | ->]; unfold f32, f64; cbn [fp_min_exponent fp_max_exponent fp_bias]; lia. Qed.
(** From the quality of the scaled root to the quality of the root: [c] is 1 for an even and 2 for an odd exponent. *)
Lemma scale_quality N k (c : Z) v r ph zu : (c = 1 \/ c = 2) -> 0 < N -> (0 <= k -> r = v * 2 ^ k) -> (k < 0 -> v = r * 2 ^ (- k)) ->
  (0 <= k -> c * zu = ph * (2 ^ k * 2 ^ k)) -> (k < 0 -> ph = c * zu * (2 ^ (- k) * 2 ^ (- k))) -> N * Z.abs (c * (v * v) - ph) <= 16 * ph -> N * Z.abs (r * r - zu) <= 16 * zu.
Proof.
  intros Hc HN R1 R2 Z1 Z2 Q. assert (Q' : N * Z.abs (c * (r * r) - c * zu) <= 16 * (c * zu)).
  { destruct (Z_le_gt_dec 0 k) as [P|P].
    - rewrite (R1 P), (Z1 P). pose proof (two_pos k P) as Pk. set (t := 2 ^ k) in *. replace (c * (v * t * (v * t)) - ph * (t * t)) with ((c * (v * v) - ph) * (t * t)) by ring. rewrite Z.abs_mul, (Z.abs_eq (t * t)) by (apply Z.mul_nonneg_nonneg; lia).
      rewrite !Z.mul_assoc. rewrite !Z.mul_assoc in Q. apply Z.mul_le_mono_nonneg_r; [lia|]. apply Z.mul_le_mono_nonneg_r; [lia|exact Q].
    - rewrite (R2 ltac:(lia)), (Z2 ltac:(lia)) in Q. pose proof (two_pos (- k) ltac:(lia)) as Pk. set (t := 2 ^ (- k)) in *. replace (c * (r * t * (r * t)) - c * zu * (t * t)) with ((c * (r * r) - c * zu) * (t * t)) in Q by ring. rewrite Z.abs_mul, (Z.abs_eq (t * t)) in Q by (apply Z.mul_nonneg_nonneg; lia).
      apply Z.mul_le_mono_pos_r with (t * t); [apply Z.mul_pos_pos; lia|]. lia. }
  replace (c * (r * r) - c * zu) with (c * (r * r - zu)) in Q' by ring. rewrite Z.abs_mul in Q'. destruct Hc as [-> | ->]; [change (Z.abs 1) with 1 in Q'|change (Z.abs 2) with 2 in Q']; lia.
Qed.
Lemma sqrt_fast_ok B e m : std_fpfmt B -> 0 < e < 2 * fp_bias B + 1 -> 0 <= m < 2 ^ fp_sig B ->
  exists r, sqrt_fast B (e * 2 ^ fp_sig B + m) = Ok (Fin r) /\ 0 < r /\
  2 ^ prec (of_fmt B) * Z.abs (r * r - (m + 2 ^ fp_sig B) * 2 ^ (e - 1) * unit_of (of_fmt B)) <= 16 * ((m + 2 ^ fp_sig B) * 2 ^ (e - 1) * unit_of (of_fmt B)).
Proof.
  intros HB He Hm. pose proof (of_fmt_proper B HB) as HF. destruct (fpfmt_sizes B HB) as (Z1 & Z2 & Z3 & Z4 & Z5 & Z6 & Z7 & Z8). pose proof (U_pos (of_fmt B) HF) as Up.
  assert (GE : get_exponent B (e * 2 ^ fp_sig B + m) = e - fp_bias B).
  { pose proof (two_pos (fp_sig B) ltac:(lia)) as Ps. assert (Bd : 0 <= e * 2 ^ fp_sig B + m < 2 ^ (fp_bits B - 1)).
    { split; [apply Z.add_nonneg_nonneg; [apply Z.mul_nonneg_nonneg; lia|lia]|]. replace (fp_bits B - 1) with (fp_bits B - 1 - fp_sig B + fp_sig B) by lia. rewrite (Z.pow_add_r 2 (fp_bits B - 1 - fp_sig B) (fp_sig B)), Z5 by lia. assert (e * 2 ^ fp_sig B <= (2 * fp_bias B) * 2 ^ fp_sig B) by (apply Z.mul_le_mono_nonneg_r; lia). lia. }
    rewrite (get_exponent_ok B _ HB) by (split; [lia|]; apply Z.lt_trans with (2 ^ (fp_bits B - 1)); [lia|apply pow_lt; lia]).
    unfold ieee_exponent, ieee_bias. rewrite Z.div_add_l by lia. rewrite (Z.div_small m) by lia. rewrite Z5, Z.mod_small by lia. replace (fp_bits B - 1 - fp_sig B) with (Z.succ (fp_bits B - 2 - fp_sig B)) in Z5 by lia. rewrite Z.pow_succ_r in Z5 by lia. lia. }
  unfold sqrt_fast. rewrite GE. pose proof (of_bits_normal B false e m HB He Hm) as OB. cbn iota in OB. rewrite Z.add_0_l in OB. rewrite OB. clear OB. rewrite (fexp3_ok B HB e m He Hm). cbn [bind].
  set (f := (m + 2 ^ fp_sig B) * 2 ^ (fp_bias B - 1)). set (z := (m + 2 ^ fp_sig B) * 2 ^ (e - 1)).
  assert (Hf : unit_of (of_fmt B) <= f < 2 * unit_of (of_fmt B)).
  { unfold f, unit_of. rewrite Z4, Z.add_comm, Z.pow_add_r by lia. pose proof (two_pos (fp_bias B - 1) ltac:(lia)). rewrite Z.mul_assoc. split; [apply Z.mul_le_mono_nonneg_r; lia|apply Z.mul_lt_mono_pos_r; lia]. }
  destruct (mant_ok B f HB Hf) as (y & -> & Ry & Py & Qy & L1 & L2). rewrite is_odd_ok by (vm_compute; reflexivity).
  assert (PU : 0 < f * unit_of (of_fmt B)) by (apply Z.mul_pos_pos; lia).
  assert (N5 : 512 <= 2 ^ prec (of_fmt B)) by (change 512 with (2 ^ 9); apply pow_le; lia).
  destruct (Z.odd (e - fp_bias B)) eqn:Od.
  - apply Z.odd_spec in Od. destruct Od as (j & Ej). set (k := j + 1). assert (Hk : - fp_bias B - 1 <= 2 * k <= fp_bias B + 1) by lia. replace (e - fp_bias B + 1) with (k * 2) by lia. rewrite Z.quot_mul by lia.
    rewrite pow2_bits by (auto using min_exp_ok). cbn [bind]. rewrite of_bits_power by (auto; lia). destruct (sqrt2_ok B HB) as (s & -> & Qs & S1 & S2).
    destruct (fdiv_rel (of_fmt B) HF y s ltac:(lia)) as (v & -> & Qv & Pv & Rv).
    { apply Z.mul_le_mono_pos_l with 2; [lia|]. assert (prec (of_fmt B) + 4 < one_exp (of_fmt B)) as Room by lia. pose proof (U_big (of_fmt B) ltac:(lia) Room) as UB. assert (PP : 2 ^ prec (of_fmt B) = 2 * 2 ^ (prec (of_fmt B) - 1)) by (rewrite <- Z.pow_succ_r by lia; f_equal; lia).
      pose proof (two_pos (prec (of_fmt B) - 1) ltac:(lia)). apply Z.le_trans with (2 * (2 ^ (prec (of_fmt B) - 1) * (2 * unit_of (of_fmt B)))). { apply Z.mul_le_mono_nonneg_l; [lia|]. apply Z.mul_le_mono_nonneg_l; lia. }
      assert (unit_of (of_fmt B) * unit_of (of_fmt B) <= 2 * y * unit_of (of_fmt B)) by (apply Z.mul_le_mono_nonneg_r; lia). assert (4 * 2 ^ (prec (of_fmt B) - 1) * unit_of (of_fmt B) <= unit_of (of_fmt B) * unit_of (of_fmt B)) by (apply Z.mul_le_mono_nonneg_r; lia). lia. }
    { assert (Room : prec (of_fmt B) + 4 < one_exp (of_fmt B)) by lia. pose proof (top_big (of_fmt B) HF ltac:(lia) Room) as TB. assert (y * unit_of (of_fmt B) <= 2 * unit_of (of_fmt B) * unit_of (of_fmt B)) by (apply Z.mul_le_mono_nonneg_r; lia). assert (unit_of (of_fmt B) * (64 * unit_of (of_fmt B)) <= s * 2 ^ (top_exp (of_fmt B) - 1)) by (apply Z.mul_le_mono_nonneg; lia). assert (0 < unit_of (of_fmt B) * unit_of (of_fmt B)) by (apply Z.mul_pos_pos; lia). lia. }
    assert (V : unit_of (of_fmt B) <= 4 * v /\ v <= 2 * unit_of (of_fmt B)).
    { assert (B1 : 512 * (v * s) <= 513 * (y * unit_of (of_fmt B)) /\ 511 * (y * unit_of (of_fmt B)) <= 512 * (v * s)).
      { clear - Qv N5. assert (512 * Z.abs (v * s - y * unit_of (of_fmt B)) <= y * unit_of (of_fmt B)) as Q by (apply Z.le_trans with (2 ^ prec (of_fmt B) * Z.abs (v * s - y * unit_of (of_fmt B))); [apply Z.mul_le_mono_nonneg_r; [apply Z.abs_nonneg|lia]|exact Qv]). lia. }
      clear Qv. destruct B1 as [B1 B2].
      (* s*s is close to 2 U U *)
      assert (S3 : 7 * (unit_of (of_fmt B)) <= 5 * s /\ 2 * s <= 3 * unit_of (of_fmt B)).
      { assert (Q : 128 * Z.abs (s * s - 2 * (unit_of (of_fmt B) * unit_of (of_fmt B))) <= unit_of (of_fmt B) * unit_of (of_fmt B)). { assert (512 * Z.abs (s * s - 2 * (unit_of (of_fmt B) * unit_of (of_fmt B))) <= 4 * (unit_of (of_fmt B) * unit_of (of_fmt B))); [|lia]. apply Z.le_trans with (2 ^ prec (of_fmt B) * Z.abs (s * s - 2 * (unit_of (of_fmt B) * unit_of (of_fmt B)))); [apply Z.mul_le_mono_nonneg_r; [apply Z.abs_nonneg|lia]|exact Qs]. }
        clear - Q Up S1. set (u := unit_of (of_fmt B)) in *. clearbody u. split.
        - destruct (Z_le_gt_dec (7 * u) (5 * s)) as [|G]; [auto|exfalso]. assert (5 * s * (5 * s) <= (7 * u) * (7 * u)) by (apply Z.mul_le_mono_nonneg; lia). assert (0 < u * u) by (apply Z.mul_pos_pos; lia). lia.
        - destruct (Z_le_gt_dec (2 * s) (3 * u)) as [|G]; [auto|exfalso]. assert ((3 * u) * (3 * u) <= 2 * s * (2 * s)) by (apply Z.mul_le_mono_nonneg; lia). assert (0 < u * u) by (apply Z.mul_pos_pos; lia). lia. }
      destruct S3 as [S3 S4]. split.
      - apply Z.mul_le_mono_pos_r with s; [lia|]. assert (unit_of (of_fmt B) * (2 * s) <= unit_of (of_fmt B) * (3 * unit_of (of_fmt B))) by (apply Z.mul_le_mono_nonneg_l; lia). assert (unit_of (of_fmt B) * unit_of (of_fmt B) <= 2 * y * unit_of (of_fmt B)) by (apply Z.mul_le_mono_nonneg_r; lia). lia.
      - apply Z.mul_le_mono_pos_r with s; [lia|]. assert (y * unit_of (of_fmt B) <= 2 * unit_of (of_fmt B) * unit_of (of_fmt B)) by (apply Z.mul_le_mono_nonneg_r; lia). assert (unit_of (of_fmt B) * (7 * unit_of (of_fmt B)) <= unit_of (of_fmt B) * (5 * s)) by (apply Z.mul_le_mono_nonneg_l; lia). lia. }
    destruct V as [V1 V2]. destruct (scale_ok B HB v k Rv V1 V2 Hk) as (r & -> & Pr & R1 & R2). exists r. split; [reflexivity|]. split; [exact Pr|].
    apply (scale_quality (2 ^ prec (of_fmt B)) k 2 v r (f * unit_of (of_fmt B)) (z * unit_of (of_fmt B))); auto; try lia.
    + intros P. unfold f, z. rewrite <- two_split by lia. assert (E : 2 * 2 ^ (e - 1) = 2 ^ (fp_bias B - 1) * 2 ^ (k + k)) by (rewrite <- Z.pow_succ_r, <- two_split by lia; f_equal; lia). transitivity ((m + 2 ^ fp_sig B) * unit_of (of_fmt B) * (2 * 2 ^ (e - 1))); [ring|rewrite E; ring].
    + intros P. unfold f, z. rewrite <- two_split by lia. replace (2 ^ (fp_bias B - 1)) with (2 * 2 ^ (e - 1) * 2 ^ (- k + - k)) by (rewrite <- Z.pow_succ_r, <- two_split by lia; f_equal; lia). ring.
    + apply (odd_quality _ (f * unit_of (of_fmt B)) y v s (unit_of (of_fmt B))); auto; lia.
  - assert (Ev : Z.even (e - fp_bias B) = true) by (rewrite <- Z.negb_odd, Od; reflexivity). apply Z.even_spec in Ev. destruct Ev as (k & Ek). assert (Hk : - fp_bias B - 1 <= 2 * k <= fp_bias B + 1) by lia. replace (e - fp_bias B) with (k * 2) by lia. rewrite Z.quot_mul by lia.
    rewrite pow2_bits by (auto using min_exp_ok). cbn [bind]. rewrite of_bits_power by (auto; lia).
    destruct (scale_ok B HB y k Ry ltac:(lia) L2 Hk) as (r & -> & Pr & R1 & R2). exists r. split; [reflexivity|]. split; [exact Pr|].
    apply (scale_quality (2 ^ prec (of_fmt B)) k 1 y r (f * unit_of (of_fmt B)) (z * unit_of (of_fmt B))); auto; try lia.
    + intros P. unfold f, z. rewrite <- two_split by lia. replace (2 ^ (e - 1)) with (2 ^ (fp_bias B - 1) * 2 ^ (k + k)) by (rewrite <- two_split by lia; f_equal; lia). ring.
    + intros P. unfold f, z. rewrite <- two_split by lia. replace (2 ^ (fp_bias B - 1)) with (2 ^ (e - 1) * 2 ^ (- k + - k)) by (rewrite <- two_split by lia; f_equal; lia). ring.
Qed.
Lemma m_sqrt_normal B b : std_fpfmt B -> 2 ^ fp_sig B <= b < fp_infinity B -> m_sqrt B b = sqrt_fast B b.
Proof.
  intros HB Hb. unfold m_sqrt. destruct HB as [-> | ->].
  - change (fp_bits f32 =? 32) with true. change (fp_sig f32) with 23 in Hb. change (fp_infinity f32) with 2139095040 in Hb. cbn iota. pose proof (fp_classify32_ok b ltac:(lia)) as C. assert (E : ieee_exponent 32 23 b = b / 2 ^ 23) by (unfold ieee_exponent; apply Z.mod_small; change (2 ^ (32 - 1 - 23)) with 256; change (2 ^ 23) with 8388608; clear C; split; [apply Z.div_pos; lia|apply Z.div_lt_upper_bound; lia]).
    assert (G : 1 <= b / 2 ^ 23 < 255) by (clear C E; split; [apply Z.div_le_lower_bound; lia|apply Z.div_lt_upper_bound; lia]). destruct (fp_classify32 b); cbn [class_ok] in C; try reflexivity; exfalso; destruct C as [C _]; rewrite E in C; [|change (2 ^ (32 - 1 - 23)) with 256 in C..]; lia.
  - change (fp_bits f64 =? 32) with false. change (fp_sig f64) with 52 in Hb. change (fp_infinity f64) with 9218868437227405312 in Hb. cbn iota. pose proof (fp_classify64_ok b ltac:(lia)) as C. assert (E : ieee_exponent 64 52 b = b / 2 ^ 52) by (unfold ieee_exponent; apply Z.mod_small; change (2 ^ (64 - 1 - 52)) with 2048; change (2 ^ 52) with 4503599627370496; clear C; split; [apply Z.div_pos; lia|apply Z.div_lt_upper_bound; lia]).
    assert (G : 1 <= b / 2 ^ 52 < 2047) by (clear C E; split; [apply Z.div_le_lower_bound; lia|apply Z.div_lt_upper_bound; lia]). destruct (fp_classify64 b); cbn [class_ok] in C; try reflexivity; exfalso; destruct C as [C _]; rewrite E in C; [|change (2 ^ (64 - 1 - 52)) with 2048 in C..]; lia.
Qed.
(** The square root of every positive normal number is accurate to a few units in the last place. *)
Lemma m_sqrt_ok B b : std_fpfmt B -> 2 ^ fp_sig B <= b < fp_infinity B -> exists z r, of_bits B b = Fin z /\ m_sqrt B b = Ok (Fin r) /\ 0 < z /\ 0 < r /\
  2 ^ prec (of_fmt B) * Z.abs (r * r - z * unit_of (of_fmt B)) <= 16 * (z * unit_of (of_fmt B)).
Proof.
  intros HB Hb. rewrite m_sqrt_normal by auto. destruct (fpfmt_sizes B HB) as (Z1 & Z2 & Z3 & Z4 & Z5 & Z6 & Z7 & Z8). pose proof (two_pos (fp_sig B) ltac:(lia)) as Ps.
  assert (IE : fp_infinity B = (2 * fp_bias B + 1) * 2 ^ fp_sig B) by (destruct HB as [-> | ->]; vm_compute; reflexivity). rewrite IE in Hb.
  assert (Hm : 0 <= b mod 2 ^ fp_sig B < 2 ^ fp_sig B) by (apply Z.mod_pos_bound; exact Ps). assert (He : 0 < b / 2 ^ fp_sig B < 2 * fp_bias B + 1).
  { split; [apply Z.div_str_pos; lia|apply Z.div_lt_upper_bound; lia]. }
  assert (Eb : b = b / 2 ^ fp_sig B * 2 ^ fp_sig B + b mod 2 ^ fp_sig B) by (rewrite Z.mul_comm; apply Z.div_mod; lia).
  set (e := b / 2 ^ fp_sig B) in *. set (m := b mod 2 ^ fp_sig B) in *. rewrite Eb. destruct (sqrt_fast_ok B e m HB He Hm) as (r & E & Pr & Q).
  pose proof (of_bits_normal B false e m HB He Hm) as OB. cbn iota in OB. rewrite Z.add_0_l in OB. exists ((m + 2 ^ fp_sig B) * 2 ^ (e - 1)), r. split; [exact OB|]. split; [exact E|]. split; [apply Z.mul_pos_pos; [lia|apply two_pos; lia]|]. split; [exact Pr|exact Q].
Qed.

(** * The tables of powers *)
Lemma one_value : one = Fin (2 ^ 1074).
Proof. vm_compute. reflexivity. Qed.
Lemma mul_powers a b : 0 <= a -> 0 <= b -> a + b < 1024 -> fmul double (Fin (2 ^ (1074 + a))) (Fin (2 ^ (1074 + b))) = Fin (2 ^ (1074 + a + b)).
Proof.
  intros Ha Hb H. apply (fmul_power double double_proper).
  - change (unit_of double) with (2 ^ 1074). rewrite <- !two_split by lia. f_equal. lia.
  - apply (rep_pow double double_proper). lia.
  - rewrite Z.abs_eq by (apply Z.pow_nonneg; lia). change (top_exp double) with 2098. apply pow_lt. lia.
Qed.
Lemma of_int_power b : 0 <= b <= 64 -> of_int double (2 ^ b) = Fin (2 ^ (1074 + b)).
Proof.
  intros Hb. apply (literal_exact double double_proper); [lia| | |].
  - change (unit_of double) with (2 ^ 1074). rewrite Z.mul_1_r, <- two_split by lia. f_equal. lia.
  - apply (rep_pow double double_proper). lia.
  - rewrite Z.abs_eq by (apply Z.pow_nonneg; lia). change (top_exp double) with 2098. apply pow_lt. lia.
Qed.
Lemma of_int_max : of_int double (2 ^ 64 - 1) = Fin (2 ^ (1074 + 64)).
Proof. vm_compute. reflexivity. Qed.
Lemma pow2_steps_ok n : forall exp a, 0 <= exp < 64 * Z.of_nat n -> 0 <= a -> a + exp < 1024 ->
  exists r, pow2_steps n exp (Fin (2 ^ (1074 + a))) = Ok (r, Fin (2 ^ (1074 + a + (exp - r)))) /\ 0 <= r < 64 /\ r <= exp.
Proof.
  induction n as [|n IH]; intros exp a He Ha Hs; [lia|]. cbn [pow2_steps]. rewrite Z.geb_leb. destruct (Z.leb_spec 64 exp).
  - rewrite of_int_max, mul_powers by lia. replace (1074 + a + 64) with (1074 + (a + 64)) by lia. destruct (IH (exp - 64) (a + 64)) as (r & -> & Hr & Le); [lia..|]. exists r. split; [|lia]. do 4 f_equal. lia.
  - exists exp. split; [|lia]. do 4 f_equal. lia.
Qed.
Lemma div_one_power e : 0 <= e <= 1022 -> fdiv double one (Fin (2 ^ (1074 + e))) = Fin (2 ^ (1074 - e)).
Proof.
  intros He. rewrite one_value. cbn [fdiv]. pose proof (two_pos (1074 + e) ltac:(lia)) as P. destruct (Z.eqb_spec (2 ^ (1074 + e)) 0); [lia|]. rewrite (Z.sgn_pos _ P), Z.mul_1_r, (Z.abs_eq (2 ^ (1074 + e))) by lia. change (one_exp double) with 1074.
  replace (2 ^ 1074 * 2 ^ 1074) with (2 ^ (1074 - e) * 2 ^ (1074 + e)) by (rewrite <- !two_split by lia; f_equal; lia). rewrite (rnd_exact double double_proper _ _ P (rep_pow double double_proper (1074 - e) ltac:(lia))).
  apply fin_ok. rewrite Z.abs_eq by (apply Z.pow_nonneg; lia). change (top_exp double) with 2098. apply pow_lt. lia.
Qed.
Lemma pow2_impl2_ok exp : -639 <= exp <= 639 -> pow2_impl2 exp = Ok (Fin (2 ^ (1074 + exp))).
Proof.
  intros H. unfold pow2_impl2. set (e := if exp <? 0 then - exp else exp). assert (He : 0 <= e <= 639 /\ (exp = e \/ exp = - e /\ exp < 0)) by (unfold e; destruct (Z.ltb_spec exp 0); lia). clearbody e. destruct He as [He Hx].
  rewrite one_value. change (2 ^ 1074) with (2 ^ (1074 + 0)). destruct (pow2_steps_ok 10 e 0) as (r & -> & Hr & Le); [lia..|]. cbn [bind].
  match goal with |- context [if r >? 0 then ?a else ?b] => assert (R : (if r >? 0 then a else b) = Fin (2 ^ (1074 + e))) end.
  { rewrite Z.gtb_ltb. destruct (Z.ltb_spec 0 r).
    - rewrite of_int_power by lia. replace (1074 + 0 + (e - r)) with (1074 + (e - r)) by lia. rewrite mul_powers by lia. do 2 f_equal. lia.
    - do 2 f_equal. lia. }
  rewrite R. pose proof (two_pos (1074 + e) ltac:(lia)) as P. assert (Nz : feq (Fin (2 ^ (1074 + e))) (Fin 0) = false) by (cbn [feq]; apply Z.eqb_neq; lia). rewrite Nz.
  destruct (Z.ltb_spec exp 0); cbn [andb negb].
  - rewrite Z.add_0_r. rewrite <- one_value, div_one_power by lia. do 3 f_equal. lia.
  - do 3 f_equal. lia.
Qed.
Lemma dpow2_ok exp : -307 <= exp <= 307 -> dpow2 exp = Ok (Fin (2 ^ (1074 + exp))).
Proof. intros H. unfold dpow2, table_get. change (615 / 2) with 307. destruct (Z.leb_spec 0 (307 + exp)); [|lia]. destruct (Z.ltb_spec (307 + exp) 615); [|lia]. cbn [andb]. replace (307 + exp - 307) with exp by lia. apply pow2_impl2_ok. lia. Qed.
Lemma table_outside f exp : exp < -307 \/ 307 < exp -> table_get f exp = UB.
Proof. intros H. unfold table_get. change (615 / 2) with 307. destruct (Z.leb_spec 0 (307 + exp)), (Z.ltb_spec (307 + exp) 615); cbn [andb]; try reflexivity; lia. Qed.
(** Powers of ten up to 10^22 are numbers. *)
Lemma ten_split e : 0 <= e -> 10 ^ e = 5 ^ e * 2 ^ e.
Proof. intros He. rewrite <- Z.pow_mul_l. reflexivity. Qed.
Lemma ten_pos e : 0 <= e -> 0 < 10 ^ e. Proof. intros. apply Z.pow_pos_nonneg; lia. Qed.
Lemma ten_rep e : 0 <= e <= 22 -> representable double (10 ^ e * 2 ^ 1074).
Proof.
  intros He. exists (5 ^ e), (e + 1074). split; [lia|]. split.
  - rewrite Z.abs_eq by (apply Z.pow_nonneg; lia). apply Z.le_lt_trans with (5 ^ 22); [apply Z.pow_le_mono_r; lia|vm_compute; reflexivity].
  - rewrite ten_split, two_split by lia. ring.
Qed.
Lemma ten_bound e : 0 <= e <= 308 -> 10 ^ e * 2 ^ 1074 < 2 ^ 2098.
Proof. intros He. apply Z.le_lt_trans with (10 ^ 308 * 2 ^ 1074); [apply Z.mul_le_mono_nonneg_r; [apply Z.pow_nonneg; lia|apply Z.pow_le_mono_r; lia]|vm_compute; reflexivity]. Qed.
Lemma of_int_ten e : 0 <= e <= 22 -> of_int double (10 ^ e) = Fin (10 ^ e * 2 ^ 1074).
Proof.
  intros He. apply (literal_exact double double_proper); [lia| | |].
  - change (unit_of double) with (2 ^ 1074). ring.
  - apply ten_rep. exact He.
  - rewrite Z.abs_eq by (apply Z.mul_nonneg_nonneg; apply Z.pow_nonneg; lia). apply ten_bound. lia.
Qed.
(** z is 10^e with at most k roundings behind it. *)
Definition ten_near (k e z : Z) : Prop := 0 < z /\ 2 ^ 53 * Z.abs (z - 10 ^ e * 2 ^ 1074) <= 2 * k * (10 ^ e * 2 ^ 1074).
Lemma ten_near_range k e z : 0 <= k <= 100 -> 0 <= e -> ten_near k e z -> 10 ^ e * 2 ^ 1074 <= 2 * z /\ z <= 2 * (10 ^ e * 2 ^ 1074).
Proof.
  intros Hk He [P Q]. assert (PT : 0 < 10 ^ e * 2 ^ 1074) by (apply Z.mul_pos_pos; [apply ten_pos; lia|apply two_pos; lia]). set (T := 10 ^ e * 2 ^ 1074) in *. clearbody T. assert (2 * k * T <= 200 * T) by (apply Z.mul_le_mono_nonneg_r; lia). change (2 ^ 53) with 9007199254740992 in Q. lia.
Qed.
Lemma ten_step k e d z : 0 <= k < 50 -> 0 <= e -> 0 <= d <= 22 -> e + d <= 307 -> ten_near k e z -> exists y, fmul double (Fin z) (of_int double (10 ^ d)) = Fin y /\ ten_near (k + 1) (e + d) y.
Proof.
  intros Hk He Hd Hs N0. pose proof (ten_near_range k e z ltac:(lia) He N0) as [R1 R2]. destruct N0 as [P Q]. rewrite of_int_ten by lia. pose proof (two_pos 1074 ltac:(lia)) as PU. pose proof (ten_pos d ltac:(lia)) as Pd. pose proof (ten_pos e He) as Pe.
  cbn [fmul]. change (2 ^ one_exp double) with (2 ^ 1074). set (u := 2 ^ 1074) in *. assert (E2 : 10 ^ (e + d) = 10 ^ e * 10 ^ d) by (apply Z.pow_add_r; lia).
  assert (Big : u <= 2 * z). { assert (1 * u <= 10 ^ e * u) by (apply Z.mul_le_mono_nonneg_r; lia). lia. }
  assert (UB : 2 ^ 53 * 2 <= u) by (vm_compute; discriminate).
  destruct (rnd_error_den double double_proper (z * (10 ^ d * u)) u PU) as [Rt Pt].
  { change (2 ^ (prec double - 1)) with (2 ^ 52). replace (z * (10 ^ d * u)) with (z * 10 ^ d * u) by ring. apply Z.mul_le_mono_nonneg_r; [lia|]. assert (z * 1 <= z * 10 ^ d) by (apply Z.mul_le_mono_nonneg_l; lia). change (2 ^ 53) with (2 * 2 ^ 52) in UB. lia. }
  set (y := rnd double (z * (10 ^ d * u)) u) in *. change (prec double) with 53 in Rt.
  assert (Q1 : 2 ^ 53 * Z.abs (y - z * 10 ^ d) <= z * 10 ^ d). { apply Z.mul_le_mono_pos_r with u; [exact PU|]. replace (y * u - z * (10 ^ d * u)) with ((y - z * 10 ^ d) * u) in Rt by ring. rewrite Z.abs_mul, (Z.abs_eq u) in Rt by lia. lia. }
  assert (Q2 : 2 ^ 53 * Z.abs (y - 10 ^ (e + d) * u) <= 2 * (k + 1) * (10 ^ (e + d) * u)).
  { rewrite E2. assert (Q3 : 2 ^ 53 * Z.abs (z * 10 ^ d - 10 ^ e * 10 ^ d * u) <= 2 * k * (10 ^ e * 10 ^ d * u)). { replace (z * 10 ^ d - 10 ^ e * 10 ^ d * u) with ((z - 10 ^ e * u) * 10 ^ d) by ring. rewrite Z.abs_mul, (Z.abs_eq (10 ^ d)) by lia. replace (2 * k * (10 ^ e * 10 ^ d * u)) with (2 * k * (10 ^ e * u) * 10 ^ d) by ring. rewrite Z.mul_assoc. apply Z.mul_le_mono_nonneg_r; lia. }
    assert (Q4 : z * 10 ^ d <= 2 * (10 ^ e * 10 ^ d * u)). { replace (2 * (10 ^ e * 10 ^ d * u)) with (2 * (10 ^ e * u) * 10 ^ d) by ring. apply Z.mul_le_mono_nonneg_r; lia. }
    clear - Q1 Q3 Q4. set (T := 10 ^ e * 10 ^ d * u) in *. set (w := z * 10 ^ d) in *. clearbody T w. change (2 ^ 53) with 9007199254740992 in *. lia. }
  assert (Hy : ten_near (k + 1) (e + d) y) by (split; [exact Pt|exact Q2]). exists y. split; [|exact Hy]. apply fin_ok. rewrite Z.abs_eq by lia. pose proof (ten_near_range (k + 1) (e + d) y ltac:(lia) ltac:(lia) Hy) as [_ R4]. change (2 ^ top_exp double) with (2 ^ 2098). fold u in R4.
  apply Z.le_lt_trans with (2 * (10 ^ 307 * u)); [|vm_compute; reflexivity]. apply Z.le_trans with (2 * (10 ^ (e + d) * u)); [exact R4|]. apply Z.mul_le_mono_nonneg_l; [lia|]. apply Z.mul_le_mono_nonneg_r; [lia|apply Z.pow_le_mono_r; lia].
Qed.
Lemma pow10_steps_ok n : forall exp k e z, 0 <= exp < 19 * Z.of_nat n -> 0 <= k -> k + Z.of_nat n < 50 -> 0 <= e -> e + exp <= 307 -> ten_near k e z ->
  exists r y, pow10_steps n exp (Fin z) = Ok (r, Fin y) /\ 0 <= r < 19 /\ r <= exp /\ ten_near (k + (exp - r) / 19) (e + (exp - r)) y.
Proof.
  induction n as [|n IH]; intros exp k e z Hx Hk Hkn He Hs N0; [lia|]. cbn [pow10_steps]. rewrite Z.geb_leb. destruct (Z.leb_spec 19 exp).
  - destruct (ten_step k e 19 z ltac:(lia) He ltac:(lia) ltac:(lia) N0) as (y & -> & N1). destruct (IH (exp - 19) (k + 1) (e + 19) y) as (r & w & E & Hr & Le & N2); [lia..|exact N1|]. exists r, w. split; [exact E|]. split; [exact Hr|]. split; [lia|].
    replace (e + (exp - r)) with (e + 19 + (exp - 19 - r)) by lia. replace ((exp - r) / 19) with ((exp - 19 - r) / 19 + 1); [|rewrite <- Z.div_add by lia; f_equal; lia]. rewrite (Z.add_comm _ 1), Z.add_assoc. exact N2.
  - exists exp, z. split; [reflexivity|]. split; [lia|]. split; [lia|]. rewrite Z.sub_diag. change (0 / 19) with 0. rewrite !Z.add_0_r. exact N0.
Qed.
Lemma fpow10_pos exp : 0 <= exp <= 307 -> exists z, ten_near 17 exp z /\ fpow10_impl2 exp = Ok (Fin z) /\ forall e, e = - exp -> e < 0 -> fpow10_impl2 e = Ok (fdiv double one (Fin z)).
Proof.
  intros H. assert (N0 : ten_near 0 0 (2 ^ 1074)) by (split; [apply two_pos; lia|rewrite Z.mul_1_l, Z.sub_diag; lia]).
  destruct (pow10_steps_ok 20 exp 0 0 (2 ^ 1074)) as (r & y & E & Hr & Le & N1); [lia..|exact N0|]. rewrite !Z.add_0_l in N1.
  assert (D : (exp - r) / 19 <= 16) by (apply Z.lt_succ_r; apply Z.div_lt_upper_bound; lia). assert (D0 : 0 <= (exp - r) / 19) by (apply Z.div_pos; lia).
  set (w := if r >? 0 then fmul double (Fin y) (of_int double (10 ^ r)) else Fin y).
  assert (W : exists z, w = Fin z /\ ten_near 17 exp z).
  { unfold w. rewrite Z.gtb_ltb. assert (Mono : forall a b e z, a <= b -> 0 <= e -> ten_near a e z -> ten_near b e z).
    { intros a b e z Hab He [P Q]. split; [exact P|]. apply Z.le_trans with (2 * a * (10 ^ e * 2 ^ 1074)); [exact Q|]. apply Z.mul_le_mono_nonneg_r; [|lia]. apply Z.mul_nonneg_nonneg; [pose proof (ten_pos e He); lia|apply Z.pow_nonneg; lia]. }
    destruct (Z.ltb_spec 0 r).
    - destruct (ten_step ((exp - r) / 19) (exp - r) r y ltac:(lia) ltac:(lia) ltac:(lia) ltac:(lia) N1) as (z & -> & N2). exists z. split; [reflexivity|]. replace (exp - r + r) with exp in N2 by lia. apply (Mono ((exp - r) / 19 + 1)); auto; lia.
    - exists y. split; [reflexivity|]. replace (exp - r) with exp in N1 at 2 by lia. apply (Mono ((exp - r) / 19)); auto; lia. }
  destruct W as (z & Ew & Nz). exists z. split; [exact Nz|]. assert (Fz : feq (Fin z) (Fin 0) = false) by (cbn [feq]; apply Z.eqb_neq; destruct Nz; lia).
  split; [|intros e Ee Le0].
  - unfold fpow10_impl2. destruct (Z.ltb_spec exp 0); [lia|]. rewrite one_value, E. cbn [bind]. fold w. rewrite Ew. reflexivity.
  - unfold fpow10_impl2. destruct (Z.ltb_spec e 0); [|lia]. replace (- e) with exp by lia. rewrite one_value at 1. rewrite E. cbn [bind]. fold w. rewrite Ew, Fz. reflexivity.
Qed.
Lemma dpow10_pos exp : 0 <= exp <= 307 -> exists z, dpow10 exp = Ok (Fin z) /\ 2 ^ 53 * Z.abs (z - 10 ^ exp * 2 ^ 1074) <= 34 * (10 ^ exp * 2 ^ 1074).
Proof.
  intros H. destruct (fpow10_pos exp H) as (z & [_ Q] & E & _). exists z. split; [|exact Q]. unfold dpow10, table_get. change (615 / 2) with 307. destruct (Z.leb_spec 0 (307 + exp)); [|lia]. destruct (Z.ltb_spec (307 + exp) 615); [|lia]. cbn [andb]. replace (307 + exp - 307) with exp by lia. exact E.
Qed.
Lemma dpow10_neg e : 0 < e <= 307 -> exists z, dpow10 (- e) = Ok (Fin z) /\ 2 ^ 53 * Z.abs (z * 10 ^ e - 2 ^ 1074) <= 40 * 2 ^ 1074.
Proof.
  intros H. destruct (fpow10_pos e ltac:(lia)) as (y & Ny & _ & E). pose proof (ten_near_range 17 e y ltac:(lia) ltac:(lia) Ny) as [R1 R2]. destruct Ny as [P Q]. pose proof (two_pos 1074 ltac:(lia)) as PU. pose proof (ten_pos e ltac:(lia)) as Pe.
  destruct (fdiv_rel double double_proper (2 ^ 1074) y P) as (z & Ez & Qz & Pz & _).
  - change (unit_of double) with (2 ^ 1074). change (prec double - 1) with 52. apply Z.le_trans with (2 ^ 52 * (2 * (10 ^ 307 * 2 ^ 1074))); [|vm_compute; discriminate]. apply Z.mul_le_mono_nonneg_l; [lia|]. apply Z.le_trans with (2 * (10 ^ e * 2 ^ 1074)); [exact R2|]. apply Z.mul_le_mono_nonneg_l; [lia|]. apply Z.mul_le_mono_nonneg_r; [lia|apply Z.pow_le_mono_r; lia].
  - change (unit_of double) with (2 ^ 1074). change (top_exp double - 1) with 2097. apply Z.mul_le_mono_nonneg; [lia| |lia|apply pow_le; lia]. assert (2 * 2 ^ 1074 <= 10 ^ e * 2 ^ 1074); [|lia]. apply Z.mul_le_mono_nonneg_r; [lia|]. apply Z.le_trans with (10 ^ 1); [lia|apply Z.pow_le_mono_r; lia].
  - exists z. split.
    + unfold dpow10, table_get. change (615 / 2) with 307. destruct (Z.leb_spec 0 (307 + - e)); [|lia]. destruct (Z.ltb_spec (307 + - e) 615); [|lia]. cbn [andb]. replace (307 + - e - 307) with (- e) by lia. rewrite (E (- e) eq_refl ltac:(lia)). rewrite one_value, Ez. reflexivity.
    + change (unit_of double) with (2 ^ 1074) in Qz. change (prec double) with 53 in Qz. set (u := 2 ^ 1074) in *. set (T := 10 ^ e) in *.
      (* z*y is near u*u and y is near T*u *)
      apply Z.mul_le_mono_pos_r with u; [exact PU|].
      assert (A1 : 2 ^ 53 * Z.abs (z * y - z * T * u) <= 34 * (z * T * u)). { replace (z * y - z * T * u) with (z * (y - T * u)) by ring. rewrite Z.abs_mul, (Z.abs_eq z) by lia. assert (z * (2 ^ 53 * Z.abs (y - T * u)) <= z * (2 * 17 * (T * u))) by (apply Z.mul_le_mono_nonneg_l; lia). lia. }
      assert (A2 : Z.abs ((z * T - u) * u) = Z.abs (z * T - u) * u) by (rewrite Z.abs_mul, (Z.abs_eq u) by lia; reflexivity). rewrite <- Z.mul_assoc, <- A2. replace ((z * T - u) * u) with (z * T * u - u * u) by ring. rewrite <- (Z.mul_assoc 40).
      clear - A1 Qz PU. assert (P : 0 < u * u) by (apply Z.mul_pos_pos; lia). set (a := z * T * u) in *. set (b := z * y) in *. set (c := u * u) in *. clearbody a b c. change (2 ^ 53) with 9007199254740992 in *. lia.
Qed.
(** The entries for the exponents from 0 to 22 are exact. *)
Lemma mul_tens a b : 0 <= a -> 0 <= b -> a + b <= 22 -> fmul double (Fin (10 ^ a * 2 ^ 1074)) (Fin (10 ^ b * 2 ^ 1074)) = Fin (10 ^ (a + b) * 2 ^ 1074).
Proof.
  intros Ha Hb H. cbn [fmul]. change (2 ^ one_exp double) with (2 ^ 1074). replace (10 ^ a * 2 ^ 1074 * (10 ^ b * 2 ^ 1074)) with (10 ^ (a + b) * 2 ^ 1074 * 2 ^ 1074) by (rewrite Z.pow_add_r by lia; ring).
  rewrite (rnd_exact double double_proper _ _ (two_pos 1074 ltac:(lia)) (ten_rep (a + b) ltac:(lia))). apply fin_ok. rewrite Z.abs_eq by (apply Z.mul_nonneg_nonneg; apply Z.pow_nonneg; lia). apply ten_bound. lia.
Qed.
Lemma dpow10_exact exp : 0 <= exp <= 22 -> dpow10 exp = Ok (Fin (10 ^ exp * 2 ^ 1074)).
Proof.
  intros H. unfold dpow10, table_get. change (615 / 2) with 307. destruct (Z.leb_spec 0 (307 + exp)); [|lia]. destruct (Z.ltb_spec (307 + exp) 615); [|lia]. cbn [andb]. replace (307 + exp - 307) with exp by lia.
  unfold fpow10_impl2. destruct (Z.ltb_spec exp 0); [lia|]. cbn [andb]. rewrite one_value. replace (Fin (2 ^ 1074)) with (Fin (10 ^ 0 * 2 ^ 1074)) by reflexivity.
  destruct (Z_lt_le_dec exp 19) as [L|L].
  - assert (St : pow10_steps 20 exp (Fin (10 ^ 0 * 2 ^ 1074)) = Ok (exp, Fin (10 ^ 0 * 2 ^ 1074))). { cbn [pow10_steps]. rewrite Z.geb_leb. destruct (Z.leb_spec 19 exp); [lia|reflexivity]. } rewrite St. cbn [bind]. rewrite Z.gtb_ltb. destruct (Z.ltb_spec 0 exp).
    + rewrite of_int_ten, mul_tens by lia. reflexivity.
    + replace exp with 0 by lia. reflexivity.
  - assert (St : pow10_steps 20 exp (Fin (10 ^ 0 * 2 ^ 1074)) = Ok (exp - 19, Fin (10 ^ (0 + 19) * 2 ^ 1074))). { cbn [pow10_steps]. rewrite Z.geb_leb. destruct (Z.leb_spec 19 exp); [|lia]. rewrite of_int_ten, mul_tens by lia. destruct (Z.geb_spec (exp - 19) 19); [lia|reflexivity]. } rewrite St. cbn [bind]. rewrite Z.gtb_ltb. destruct (Z.ltb_spec 0 (exp - 19)).
    + rewrite of_int_ten, mul_tens by lia. do 4 f_equal. lia.
    + replace exp with 19 by lia. reflexivity.
Qed.
