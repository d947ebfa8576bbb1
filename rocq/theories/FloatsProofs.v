(** Proofs about floating point numbers. *)
From Verif Require Import Common Ints Floats SpecFloats SpecFloatMath.
From Coq Require Import Lia ZArith.
Open Scope Z_scope.

Lemma two_pos e : 0 <= e -> 0 < 2 ^ e.
Proof. intros. apply Z.pow_pos_nonneg; lia. Qed.
Lemma two_split a b : 0 <= a -> 0 <= b -> 2 ^ (a + b) = 2 ^ a * 2 ^ b.
Proof. intros. apply Z.pow_add_r; lia. Qed.

Section Fmt.
Variable F : fmt.
Hypothesis HF : proper_fmt F.
Notation p := (prec F).
Lemma p2 : 2 <= p.
Proof. apply HF. Qed.

(** * Representable numbers *)
Lemma rep_grid f e : 0 <= e -> representable F f -> (exists k, f = k * 2 ^ e) \/ Z.abs f < 2 ^ (p + e - 1).
Proof.
  intros He (m & x & Hx & Hm & ->). pose proof p2. destruct (Z_le_gt_dec e x) as [L|G].
  - left. exists (m * 2 ^ (x - e)). rewrite <- Z.mul_assoc, <- two_split by lia. do 2 f_equal. lia.
  - right. rewrite Z.abs_mul, (Z.abs_eq (2 ^ x)) by (pose proof (two_pos x Hx); lia).
    apply Z.lt_le_trans with (2 ^ p * 2 ^ x); [pose proof (two_pos x Hx); nia|]. rewrite <- two_split by lia. apply Z.pow_le_mono_r; lia.
Qed.
Lemma grid_rep k e : 0 <= e -> Z.abs k <= 2 ^ p -> representable F (k * 2 ^ e).
Proof.
  intros He Hk. pose proof p2. destruct (Z.eq_dec (Z.abs k) (2 ^ p)) as [E|N].
  - exists (Z.sgn k), (p + e). split; [lia|]. split.
    + assert (2 ^ 1 <= 2 ^ p) by (apply Z.pow_le_mono_r; lia). pose proof (Z.sgn_abs k). destruct k; cbn; lia.
    + rewrite two_split by lia. rewrite <- E. rewrite <- (Z.abs_sgn k) at 1. ring.
  - exists k, e. split; [exact He|]. split; [lia|reflexivity].
Qed.
Lemma rep_opp z : representable F z -> representable F (- z).
Proof. intros (m & e & A & B & ->). exists (- m), e. split; [exact A|]. split; [rewrite Z.abs_opp; exact B|ring]. Qed.
Lemma rep_0 : representable F 0.
Proof. exists 0, 0. split; [lia|]. split; [apply two_pos; pose proof p2; lia|reflexivity]. Qed.
Lemma rep_pow e : 0 <= e -> representable F (2 ^ e).
Proof. intros He. rewrite <- (Z.mul_1_l (2 ^ e)). apply grid_rep; [exact He|]. pose proof p2. assert (2 ^ 1 <= 2 ^ p) by (apply Z.pow_le_mono_r; lia). lia. Qed.
Lemma rep_small z : Z.abs z <= 2 ^ p -> representable F z.
Proof. intros H. replace z with (z * 2 ^ 0) by (cbn; ring). apply grid_rep; [lia|exact H]. Qed.

(** * Rounding of positive numbers *)
Lemma grid_nonneg q : 0 <= grid F q.
Proof. unfold grid. lia. Qed.
(** The quotient has at most p bits on the grid, and exactly p if the grid is not that of the units. *)
Lemma grid_upper q : 0 <= q -> q < 2 ^ (p + grid F q).
Proof.
  intros H. pose proof p2. destruct (Z.eq_dec q 0) as [->|N]; [apply two_pos; pose proof (grid_nonneg 0); lia|].
  assert (Hq : 0 < q) by lia. destruct (Z.log2_spec q Hq) as [_ U]. eapply Z.lt_le_trans; [exact U|]. apply Z.pow_le_mono_r; unfold grid; lia.
Qed.
Lemma grid_lower q : 0 < grid F q -> 0 <= q -> 2 ^ (p + grid F q - 1) <= q.
Proof.
  intros G H. pose proof p2. destruct (Z.eq_dec q 0) as [->|N]; [unfold grid in G; change (Z.log2 0) with 0 in G; lia|].
  assert (Hq : 0 < q) by lia. destruct (Z.log2_spec q Hq) as [L _]. eapply Z.le_trans; [|exact L]. apply Z.pow_le_mono_r; unfold grid in *; lia.
Qed.
Lemma rnd_pos_grid num den : 0 <= num -> 0 < den -> let e := grid F (num / den) in
  exists k, rnd_pos F num den = k * 2 ^ e /\ 0 <= k <= 2 ^ p /\ 2 * Z.abs (k * 2 ^ e * den - num) <= den * 2 ^ e /\ (forall j, Z.abs (k * 2 ^ e * den - num) <= Z.abs (j * 2 ^ e * den - num)).
Proof.
  intros Hn Hd e. pose proof p2 as Hp. assert (He : 0 <= e) by apply grid_nonneg. assert (H2 : 0 < 2 ^ e) by (apply two_pos; exact He).
  unfold rnd_pos. fold e. set (d := den * 2 ^ e). assert (Hd2 : 0 < d) by (unfold d; nia).
  pose proof (Z.div_mod num d ltac:(lia)) as E. pose proof (Z.mod_pos_bound num d Hd2) as R.
  assert (Q : 0 <= num / d) by (apply Z.div_pos; lia).
  assert (Q2 : num / d < 2 ^ p).
  { unfold d. rewrite <- Z.div_div by lia. apply Z.div_lt_upper_bound; [exact H2|]. rewrite Z.mul_comm, <- two_split by lia. apply grid_upper. apply Z.div_pos; lia. }
  assert (C : forall k, k = num / d \/ k = num / d + 1 -> Z.abs (k * 2 ^ e * den - num) = Z.abs (k * d - num)) by (intros; f_equal; unfold d; ring).
  assert (N : forall j, Z.abs (j * d - num) >= num mod d \/ Z.abs (j * d - num) >= d - num mod d).
  { intros j. destruct (Z_le_gt_dec j (num / d)) as [L|G]; [left|right]; nia. }
  set (q := num / d) in *. set (r := num mod d) in *.
  assert (G : forall k, (k = q /\ 2 * r <= d) \/ (k = q + 1 /\ d <= 2 * r) ->
    exists k', k * 2 ^ e = k' * 2 ^ e /\ 0 <= k' <= 2 ^ p /\ 2 * Z.abs (k' * 2 ^ e * den - num) <= den * 2 ^ e /\ (forall j, Z.abs (k' * 2 ^ e * den - num) <= Z.abs (j * 2 ^ e * den - num))).
  { intros k K. exists k. split; [reflexivity|]. split; [destruct K as [[-> _]|[-> _]]; lia|]. rewrite C by tauto. fold d.
    assert (A : Z.abs (k * d - num) = if k =? q then r else d - r).
    { destruct K as [[-> K]|[-> K]]; [rewrite Z.eqb_refl|replace (q + 1 =? q) with false by (symmetry; apply Z.eqb_neq; lia)]; nia. }
    assert (M : Z.abs (k * d - num) <= r /\ Z.abs (k * d - num) <= d - r) by (rewrite A; destruct K as [[-> K]|[-> K]]; [rewrite Z.eqb_refl|replace (q + 1 =? q) with false by (symmetry; apply Z.eqb_neq; lia)]; lia).
    split; [lia|]. intros j. replace (j * 2 ^ e * den) with (j * d) by (unfold d; ring). destruct (N j); lia. }
  destruct (Z.ltb_spec (2 * r) d) as [L1|L1]; [apply G; left; lia|]. destruct (Z.ltb_spec d (2 * r)) as [L2|L2]; [apply G; right; lia|].
  destruct (Z.even q); apply G; [left|right]; lia.
Qed.
Lemma rnd_pos_rep num den : 0 <= num -> 0 < den -> representable F (rnd_pos F num den) /\ 0 <= rnd_pos F num den.
Proof.
  intros Hn Hd. destruct (rnd_pos_grid num den Hn Hd) as (k & -> & Hk & _). pose proof (grid_nonneg (num / den)). pose proof (two_pos _ H). split; [apply grid_rep; lia|nia].
Qed.
Lemma rnd_pos_nearest num den f : 0 <= num -> 0 < den -> representable F f -> Z.abs (rnd_pos F num den * den - num) <= Z.abs (f * den - num).
Proof.
  intros Hn Hd Hf. destruct (rnd_pos_grid num den Hn Hd) as (k & -> & _ & _ & N). set (e := grid F (num / den)) in *. assert (He : 0 <= e) by apply grid_nonneg.
  pose proof p2 as Hp. destruct (rep_grid f e He Hf) as [[j ->]|S]; [apply N|].
  destruct (Z.eq_dec e 0) as [E0|E0].
  - specialize (N f). rewrite E0 in *. change (2 ^ 0) with 1 in *. rewrite !Z.mul_1_r in *. exact N.
  - assert (B : 2 ^ (p + e - 1) <= num / den) by (apply grid_lower; [unfold e in *; lia|apply Z.div_pos; lia]).
    assert (B2 : 2 ^ (p + e - 1) * den <= num) by (pose proof (Z.mul_div_le num den Hd); nia).
    specialize (N (2 ^ (p - 1))). assert (E2 : 2 ^ (p - 1) * 2 ^ e = 2 ^ (p + e - 1)) by (rewrite <- two_split by lia; f_equal; lia). rewrite E2 in N.
    eapply Z.le_trans; [exact N|]. nia.
Qed.

(** * Rounding *)
Lemma rnd_cases num den : rnd F num den = if num <? 0 then - rnd_pos F (- num) den else rnd_pos F num den.
Proof. reflexivity. Qed.
Lemma rnd_rep num den : 0 < den -> representable F (rnd F num den).
Proof.
  intros Hd. unfold rnd. destruct (Z.ltb_spec num 0); [apply rep_opp|]; apply rnd_pos_rep; lia.
Qed.
Lemma rnd_nearest num den f : 0 < den -> representable F f -> Z.abs (rnd F num den * den - num) <= Z.abs (f * den - num).
Proof.
  intros Hd Hf. unfold rnd. destruct (Z.ltb_spec num 0) as [L|L]; [|apply rnd_pos_nearest; auto].
  pose proof (rnd_pos_nearest (- num) den (- f) ltac:(lia) Hd (rep_opp f Hf)). replace (- f * den - - num) with (- (f * den - num)) in H by ring. lia.
Qed.
Lemma rnd_exact f den : 0 < den -> representable F f -> rnd F (f * den) den = f.
Proof. intros Hd Hf. pose proof (rnd_nearest (f * den) den f Hd Hf). nia. Qed.
Lemma rnd_id f : representable F f -> rnd F f 1 = f.
Proof. intros Hf. pose proof (rnd_exact f 1 ltac:(lia) Hf) as E. rewrite Z.mul_1_r in E. exact E. Qed.
Lemma rnd_above num den f : 0 < den -> representable F f -> f * den <= num -> f <= rnd F num den.
Proof. intros Hd Hf L. pose proof (rnd_nearest num den f Hd Hf). nia. Qed.
Lemma rnd_below num den f : 0 < den -> representable F f -> num <= f * den -> rnd F num den <= f.
Proof. intros Hd Hf L. pose proof (rnd_nearest num den f Hd Hf). nia. Qed.
Lemma rnd_opp num den : 0 < den -> rnd F (- num) den = - rnd F num den.
Proof.
  intros Hd. unfold rnd. destruct (Z.ltb_spec (- num) 0) as [L|L]; destruct (Z.ltb_spec num 0) as [M|M]; try lia.
  - rewrite Z.opp_involutive. reflexivity.
  - replace num with 0 by lia. cbn [Z.opp]. pose proof (rnd_pos_nearest 0 den 0 ltac:(lia) Hd rep_0). destruct (rnd_pos_rep 0 den ltac:(lia) Hd). nia.
Qed.
(** The grid of a rounded integer, and the error. *)
Definition lattice (n : Z) : Z := grid F (Z.abs n).
Lemma rnd_lattice n : let e := lattice n in exists k, rnd F n 1 = k * 2 ^ e /\ 2 * Z.abs (rnd F n 1 - n) <= 2 ^ e.
Proof.
  intros e. unfold rnd, e, lattice. destruct (Z.ltb_spec n 0) as [L|L].
  - destruct (rnd_pos_grid (- n) 1 ltac:(lia) ltac:(lia)) as (k & E & _ & B & _). rewrite Z.div_1_r in *. rewrite (Z.abs_neq n) by lia. exists (- k). rewrite E. split; [ring|]. lia.
  - destruct (rnd_pos_grid n 1 ltac:(lia) ltac:(lia)) as (k & E & _ & B & _). rewrite Z.div_1_r in *. rewrite (Z.abs_eq n) by lia. exists k. rewrite E. split; [ring|]. lia.
Qed.
Lemma lattice_upper n : Z.abs n < 2 ^ (p + lattice n).
Proof. apply grid_upper. lia. Qed.
Lemma lattice_mono a b : Z.abs a <= Z.abs b -> lattice a <= lattice b.
Proof. intros H. unfold lattice, grid. pose proof (Z.log2_le_mono _ _ H). lia. Qed.
Lemma rep_lattice n : representable F n -> exists k, n = k * 2 ^ lattice n.
Proof.
  intros H. destruct (rep_grid n (lattice n) (grid_nonneg _) H) as [K|K]; [exact K|].
  destruct (Z.eq_dec (lattice n) 0) as [E|E]; [exists n; rewrite E; cbn; ring|]. exfalso.
  pose proof (grid_nonneg (Z.abs n)) as G. fold (lattice n) in G.
  assert (2 ^ (p + lattice n - 1) <= Z.abs n) by (apply grid_lower; [fold (lattice n)|]; lia). lia.
Qed.
Lemma multiple_rep n e k : 0 <= e -> n = k * 2 ^ e -> Z.abs n < 2 ^ (p + e) -> representable F n.
Proof.
  intros He -> H. apply grid_rep; [exact He|]. pose proof p2. pose proof (two_pos e He). rewrite two_split, Z.abs_mul, (Z.abs_eq (2 ^ e)) in H by lia. nia.
Qed.
(** The relative error. *)
Lemma rnd_error n : 2 ^ p * Z.abs (rnd F n 1 - n) <= Z.abs n.
Proof.
  pose proof p2 as Hp. destruct (rnd_lattice n) as (k & E & B). pose proof (grid_nonneg (Z.abs n)) as G. fold (lattice n) in G. destruct (Z.eq_dec (lattice n) 0) as [E0|E0].
  - rewrite E0 in B. change (2 ^ 0) with 1 in B. assert (Z.abs (rnd F n 1 - n) = 0) by lia. lia.
  - assert (L : 2 ^ (p + lattice n - 1) <= Z.abs n) by (apply grid_lower; [fold (lattice n)|]; lia).
    assert (E2 : 2 ^ p * 2 ^ lattice n = 2 * 2 ^ (p + lattice n - 1)) by (rewrite <- two_split by lia; change 2 with (2 ^ 1) at 2; rewrite <- two_split by lia; f_equal; lia).
    pose proof (two_pos p ltac:(lia)). nia.
Qed.

(** * Dekker's theorem *)
Lemma multiple_weaken a e e' : 0 <= e' <= e -> (exists k, a = k * 2 ^ e) -> exists k, a = k * 2 ^ e'.
Proof. intros H [k ->]. exists (k * 2 ^ (e - e')). rewrite <- Z.mul_assoc, <- two_split by lia. do 2 f_equal. lia. Qed.
Lemma multiple_sum a b e : (exists k, a = k * 2 ^ e) -> (exists k, b = k * 2 ^ e) -> exists k, a + b = k * 2 ^ e.
Proof. intros [k ->] [j ->]. exists (k + j). ring. Qed.
Lemma multiple_opp a e : (exists k, a = k * 2 ^ e) -> exists k, - a = k * 2 ^ e.
Proof. intros [k ->]. exists (- k). ring. Qed.
Lemma rnd_multiple n e : 0 <= e -> (exists k, n = k * 2 ^ e) -> exists k, rnd F n 1 = k * 2 ^ e.
Proof.
  intros He [k E]. destruct (rnd_lattice n) as (j & Ej & _). pose proof (grid_nonneg (Z.abs n)) as G. fold (lattice n) in G.
  destruct (Z_le_gt_dec e (lattice n)) as [L|L].
  - apply (multiple_weaken _ (lattice n)); [lia|]. exists j. exact Ej.
  - exists k. rewrite <- E. apply rnd_id. apply (multiple_rep n e k He E). eapply Z.lt_le_trans; [apply lattice_upper|]. apply Z.pow_le_mono_r; pose proof p2; lia.
Qed.
Lemma dekker a b : representable F a -> representable F b -> Z.abs b <= Z.abs a -> let t := rnd F (a + b) 1 in
  representable F (a - t) /\ representable F (a - t + b).
Proof.
  intros Ha Hb L t. pose proof p2 as Hp. pose proof (grid_nonneg (Z.abs a)) as Ga. fold (lattice a) in Ga. pose proof (grid_nonneg (Z.abs b)) as Gb. fold (lattice b) in Gb.
  pose proof (lattice_mono b a L) as M. pose proof (rep_lattice a Ha) as Ka. pose proof (rep_lattice b Hb) as Kb.
  pose proof (multiple_weaken a (lattice a) (lattice b) ltac:(lia) Ka) as Kab. pose proof (multiple_sum a b _ Kab Kb) as Ks.
  pose proof (rnd_multiple (a + b) (lattice b) ltac:(lia) Ks) as Kt. fold t in Kt.
  assert (N : Z.abs (t - (a + b)) <= Z.abs b). { pose proof (rnd_nearest (a + b) 1 a ltac:(lia) Ha) as N. fold t in N. rewrite !Z.mul_1_r in N. replace (a - (a + b)) with (- b) in N by ring. rewrite Z.abs_opp in N. exact N. }
  split.
  2:{ destruct (multiple_sum (a + b) (- t) (lattice b) Ks (multiple_opp t _ Kt)) as [k E]. apply (multiple_rep _ (lattice b) k Gb); [lia|]. eapply Z.le_lt_trans; [|apply lattice_upper]. lia. }
  set (e := lattice (a + b)). destruct (rnd_lattice (a + b)) as (j & Ej & B). fold t in Ej, B. fold e in Ej, B. pose proof (grid_nonneg (Z.abs (a + b))) as Ge. fold (lattice (a + b)) in Ge. fold e in Ge.
  assert (T : exists k, t = k * 2 ^ e) by (exists j; exact Ej). destruct (Z_le_gt_dec (lattice a) e) as [C|C].
  - (* the sum is on a coarser grid than a *)
    assert (D : e <= lattice a + 1).
    { unfold e, lattice, grid. pose proof (Z.log2_le_mono (Z.abs (a + b)) (2 * Z.abs a) ltac:(lia)). destruct (Z.eq_dec a 0) as [->|Na]; [replace b with 0 in * by lia; cbn in *; lia|].
      rewrite Z.log2_double in H by lia. lia. }
    pose proof (multiple_sum a (- t) (lattice a) Ka (multiple_opp _ _ (multiple_weaken t e (lattice a) ltac:(lia) T))) as [k E].
    pose proof (two_pos _ Ga) as P. assert (W : 2 ^ e <= 2 * 2 ^ lattice a).
    { change 2 with (2 ^ 1) at 2. rewrite <- two_split by lia. apply Z.pow_le_mono_r; lia. }
    assert (U : Z.abs (a - t) <= Z.abs b + 2 ^ lattice a) by lia. pose proof (lattice_upper a) as Ua. rewrite two_split in Ua by lia.
    replace (a - t) with (a + - t) by ring. rewrite E. apply grid_rep; [exact Ga|]. replace (a - t) with (k * 2 ^ lattice a) in U by lia. rewrite Z.abs_mul, (Z.abs_eq (2 ^ lattice a)) in U by lia. nia.
  - destruct (Z_le_gt_dec e (lattice b)) as [D|D].
    + assert (Q : t = a + b). { apply rnd_id. destruct (multiple_weaken (a + b) (lattice b) e ltac:(lia) Ks) as [k E]. apply (multiple_rep _ e k Ge E). apply lattice_upper. }
      rewrite Q. replace (a - (a + b)) with (- b) by ring. apply rep_opp. exact Hb.
    + destruct (multiple_sum a (- t) e (multiple_weaken a (lattice a) e ltac:(lia) Ka) (multiple_opp _ _ T)) as [k E]. replace (a - t) with (a + - t) by ring.
      apply (multiple_rep _ e k Ge E). pose proof (lattice_upper b) as Ub. assert (W : 2 ^ (p + lattice b) <= 2 ^ (p + e - 1)) by (apply Z.pow_le_mono_r; lia).
      assert (W2 : 2 ^ (p + e) = 2 * 2 ^ (p + e - 1)) by (change 2 with (2 ^ 1) at 2; rewrite <- two_split by lia; f_equal; lia).
      assert (W3 : 2 ^ e <= 2 ^ (p + e - 1)) by (apply Z.pow_le_mono_r; lia). lia.
Qed.

(** * Sums *)
Notation N := (2 ^ p).
Lemma fin_some z x : fin F z = Fin x -> x = z /\ Z.abs z < 2 ^ top_exp F.
Proof. unfold fin. destruct (Z.ltb_spec (Z.abs z) (2 ^ top_exp F)) as [L|L]; intros E; [injection E as <-; auto|discriminate]. Qed.
Lemma fin_ok z : Z.abs z < 2 ^ top_exp F -> fin F z = Fin z.
Proof. intros H. unfold fin. destruct (Z.ltb_spec (Z.abs z) (2 ^ top_exp F)); [reflexivity|lia]. Qed.
Lemma rnd_sign n : (0 <= n -> 0 <= rnd F n 1) /\ (n <= 0 -> rnd F n 1 <= 0).
Proof. split; intros H; [apply (rnd_above n 1 0)|apply (rnd_below n 1 0)]; try apply rep_0; lia. Qed.
Lemma correction a b z : number F (Fin a) -> number F (Fin b) -> fadd F (Fin a) (Fin b) = Fin z -> Z.abs b <= Z.abs a ->
  fadd F (fsub F (Fin a) (Fin z)) (Fin b) = Fin (a + b - z) /\ number F (Fin (a + b - z)).
Proof.
  intros [Ra Ba] [Rb Bb] E L. cbn [fadd] in E. apply fin_some in E. destruct E as [-> Bz]. set (z := rnd F (a + b) 1) in *.
  destruct (dekker a b Ra Rb L) as [D1 D2]. fold z in D1, D2. destruct (rnd_sign (a + b)) as [S1 S2]. fold z in S1, S2.
  assert (B1 : Z.abs (a - z) < 2 ^ top_exp F) by (destruct (Z_le_gt_dec 0 a); [specialize (S1 ltac:(lia))|specialize (S2 ltac:(lia))]; lia).
  assert (N1 : Z.abs (z - (a + b)) <= Z.abs b). { pose proof (rnd_nearest (a + b) 1 a ltac:(lia) Ra) as K. fold z in K. rewrite !Z.mul_1_r in K. replace (a - (a + b)) with (- b) in K by ring. rewrite Z.abs_opp in K. exact K. }
  unfold fsub. cbn [fneg fadd]. change (a + - z) with (a - z). rewrite (rnd_id (a - z) D1), (fin_ok (a - z) B1). cbn [fadd]. rewrite (rnd_id (a - z + b) D2).
  replace (a - z + b) with (a + b - z) in * by ring. split; [apply fin_ok; lia|]. split; [exact D2|lia].
Qed.
Lemma fle_fin a b : fle (Fin a) (Fin b) = (a <=? b).
Proof. unfold fle. cbn [flt feq]. destruct (Z.ltb_spec a b), (Z.eqb_spec a b), (Z.leb_spec a b); cbn; lia. Qed.
Lemma kbn_step_fin a b z c : number F (Fin a) -> number F (Fin b) -> fadd F (Fin a) (Fin b) = Fin z ->
  kbn_step F (Fin a, c) (Fin b) = (Fin z, fadd F c (Fin (a + b - z))) /\ number F (Fin (a + b - z)) /\ number F (Fin z) /\ N * Z.abs (a + b - z) <= Z.abs (a + b) /\ N * Z.abs z <= (N + 1) * Z.abs (a + b).
Proof.
  intros Ha Hb E. unfold kbn_step. rewrite E. cbn [fabs]. rewrite fle_fin.
  assert (K : number F (Fin (a + b - z)) /\ (if Z.abs b <=? Z.abs a then fadd F (fsub F (Fin a) (Fin z)) (Fin b) else fadd F (fsub F (Fin b) (Fin z)) (Fin a)) = Fin (a + b - z)).
  { destruct (Z.leb_spec (Z.abs b) (Z.abs a)) as [L|L].
    - destruct (correction a b z Ha Hb E L) as [A B]. split; [exact B|exact A].
    - assert (E' : fadd F (Fin b) (Fin a) = Fin z) by (cbn [fadd] in *; rewrite Z.add_comm; exact E).
      destruct (correction b a z Hb Ha E' ltac:(lia)) as [A B]. replace (b + a - z) with (a + b - z) in A, B by ring. split; [exact B|exact A]. }
  destruct K as [K1 K2]. split; [destruct (Z.abs b <=? Z.abs a); rewrite K2; reflexivity|]. split; [exact K1|]. cbn [fadd] in E. apply fin_some in E. destruct E as [-> Bz].
  split; [split; [apply rnd_rep; lia|exact Bz]|]. pose proof (rnd_error (a + b)) as R. pose proof (two_pos p ltac:(pose proof p2; lia)). replace (a + b - rnd F (a + b) 1) with (- (rnd F (a + b) 1 - (a + b))) by ring. rewrite Z.abs_opp. set (w := rnd F (a + b) 1) in *. split; [exact R|]. assert (Z.abs w <= Z.abs (w - (a + b)) + Z.abs (a + b)) by lia. nia.
Qed.
Lemma fadd_fold_inf xs : forall x s, fold_left (fadd F) (fins xs) x = Fin s -> exists a, x = Fin a.
Proof.
  induction xs as [|b xs IH]; intros x s E; cbn [fins map fold_left] in E; [eauto|]. apply IH in E. destruct E as [z E]. destruct x as [a|t|]; [eauto|discriminate..].
Qed.
Lemma kbn_fold xs : forall a c s, number F (Fin a) -> Forall (number F) (fins xs) -> fold_left (fadd F) (fins xs) (Fin a) = Fin s ->
  exists es, length es = length xs /\ Forall (number F) (fins es) /\ a + total xs = s + total es /\
    fold_left (kbn_step F) (fins xs) (Fin a, c) = (Fin s, fold_left (fadd F) (fins es) c) /\
    N ^ (Z.of_nat (length xs) + 1) * magnitude es <= Z.of_nat (length xs) * (N + 1) ^ Z.of_nat (length xs) * (Z.abs a + magnitude xs).
Proof.
  pose proof (two_pos p ltac:(pose proof p2; lia)) as HN.
  induction xs as [|b xs IH]; intros a c s Ha Hx E; cbn [fins map fold_left] in *.
  - injection E as <-. exists []. cbn. repeat split; auto; lia.
  - inversion Hx as [|? ? Hb Hx']; subst. pose proof E as E1. destruct (fadd_fold_inf xs _ _ E1) as [z Ez]. rewrite Ez in E.
    destruct (kbn_step_fin a b z c Ha Hb Ez) as (S1 & S2 & S3 & S4 & S5). destruct (IH z (fadd F c (Fin (a + b - z))) s S3 Hx' E) as (es & I1 & I2 & I3 & I4 & I5).
    exists ((a + b - z) :: es). cbn [length total magnitude fold_right fins map fold_left]. fold (total xs) (total es) (magnitude xs) (magnitude es) (fins es). rewrite S1. split; [congruence|]. split; [constructor; auto|]. split; [lia|]. split; [exact I4|].
    set (n := Z.of_nat (length xs)) in *. replace (Z.of_nat (Datatypes.S (length xs))) with (n + 1) by (unfold n; lia). assert (Hn : 0 <= n) by (unfold n; lia).
    replace (n + 1 + 1) with (Z.succ (n + 1)) by lia. rewrite (Z.pow_succ_r N (n + 1)) by lia. replace (n + 1) with (Z.succ n) in * by lia. rewrite (Z.pow_succ_r (N + 1) n), Z.pow_succ_r in * by lia.
    set (A := Z.abs a + (Z.abs b + magnitude xs)). set (P := N ^ n) in *. set (Q := (N + 1) ^ n) in *.
    assert (HP : 0 < P) by (apply Z.pow_pos_nonneg; lia). assert (PQ : P <= Q) by (apply Z.pow_le_mono_l; lia).
    assert (HM : 0 <= magnitude xs) by (clear; induction xs as [|x l]; cbn; [lia|fold (magnitude l); lia]).
    assert (A1 : N * (Z.abs z + magnitude xs) <= (N + 1) * A) by (unfold A; nia).
    assert (A2 : N * (N * P * magnitude es) <= n * Q * ((N + 1) * A)) by (assert (0 <= n * Q) by nia; nia).
    assert (A3 : N * P * (N * Z.abs (a + b - z)) <= N * P * A) by (apply Z.mul_le_mono_nonneg_l; [nia|unfold A; lia]).
    assert (A4 : N * P * A <= (N + 1) * Q * A) by (apply Z.mul_le_mono_nonneg_r; [unfold A; lia|nia]). nia.
Qed.
Lemma total_app a b : total (a ++ b) = total a + total b.
Proof. unfold total in *. induction a as [|x a IH]; cbn [app fold_right]; lia. Qed.
Lemma magnitude_app a b : magnitude (a ++ b) = magnitude a + magnitude b.
Proof. unfold magnitude in *. induction a as [|x a IH]; cbn [app fold_right]; lia. Qed.
Lemma total_magnitude a : Z.abs (total a) <= magnitude a.
Proof. unfold total, magnitude in *. induction a as [|x a IH]; cbn [fold_right]; lia. Qed.
Lemma plain_error es : forall c, plain_sum F (fins es) = Fin c ->
  N ^ Z.of_nat (length es) * Z.abs (c - total es) <= ((N + 1) ^ Z.of_nat (length es) - N ^ Z.of_nat (length es)) * magnitude es.
Proof.
  pose proof (two_pos p ltac:(pose proof p2; lia)) as HN. unfold plain_sum.
  induction es as [|e es IH] using rev_ind; intros c E; [injection E as <-; cbn; lia|].
  unfold fins in E. rewrite map_app, fold_left_app in E. fold (fins es) in E. cbn [map fold_left] in E. destruct (fold_left (fadd F) (fins es) (Fin 0)) as [c0|t|]; try discriminate.
  specialize (IH c0 eq_refl). cbn [fadd] in E. apply fin_some in E. destruct E as [-> _]. pose proof (rnd_error (c0 + e)) as R. set (c := rnd F (c0 + e) 1) in *.
  rewrite total_app, magnitude_app, app_length. cbn [length total magnitude fold_right]. rewrite Nat2Z.inj_add. change (Z.of_nat 1) with 1. set (n := Z.of_nat (length es)) in *. assert (Hn : 0 <= n) by (unfold n; lia).
  rewrite !Z.add_1_r, !Z.pow_succ_r by lia. pose proof (total_magnitude es) as TM. set (P := N ^ n) in *. set (Q := Z.succ N ^ n) in *. replace (N + 1) with (Z.succ N) in IH by lia. fold Q in IH.
  assert (HP : 0 < P) by (apply Z.pow_pos_nonneg; lia). assert (PQ : P <= Q) by (apply Z.pow_le_mono_l; lia). set (T := magnitude es) in *. set (D := Z.abs (c0 - total es)) in *.
  replace (magnitude es) with T in * by reflexivity.
  assert (A1 : N * Z.abs (c - (total es + (e + 0))) <= (N + 1) * D + (T + Z.abs e)) by (unfold D; nia).
  assert (A2 : P * (N * Z.abs (c - (total es + (e + 0)))) <= P * ((N + 1) * D + (T + Z.abs e))) by (apply Z.mul_le_mono_nonneg_l; lia).
  assert (A3 : (N + 1) * (P * D) <= (N + 1) * ((Q - P) * T)) by (apply Z.mul_le_mono_nonneg_l; lia).
  assert (A4 : (Q - P) * T <= (Q - P) * (T + Z.abs e)) by (apply Z.mul_le_mono_nonneg_l; lia). fold T. nia.
Qed.
Lemma bernoulli n : 0 <= n -> 2 * n <= N -> (N + 1) ^ n * N <= N ^ n * (N + 2 * n).
Proof.
  pose proof (two_pos p ltac:(pose proof p2; lia)) as HN. intros Hn. revert n Hn. apply (natlike_ind (fun n => 2 * n <= N -> (N + 1) ^ n * N <= N ^ n * (N + 2 * n))); [intros _; rewrite !Z.pow_0_r; lia|].
  intros n Hn IH L. specialize (IH ltac:(lia)). rewrite !Z.pow_succ_r by lia. assert (HP : 0 < N ^ n) by (apply Z.pow_pos_nonneg; lia). set (P := N ^ n) in *. set (Q := (N + 1) ^ n) in *.
  assert (A : (N + 1) * (Q * N) <= (N + 1) * (P * (N + 2 * n))) by (apply Z.mul_le_mono_nonneg_l; lia).
  assert (B : P * ((N + 1) * (N + 2 * n)) <= P * (N * (N + 2 * Z.succ n))) by (apply Z.mul_le_mono_nonneg_l; [lia|nia]). nia.
Qed.
Lemma kbn_error xs s r : Forall (number F) (fins xs) -> plain_sum F (fins xs) = Fin s -> kbn_sum F (fins xs) = Fin r -> 2 * (Z.of_nat (length xs) + 1) <= N ->
  N * N * Z.abs (r - total xs) <= N * Z.abs (total xs) + 4 * Z.of_nat (length xs) * Z.of_nat (length xs) * magnitude xs.
Proof.
  pose proof (two_pos p ltac:(pose proof p2; lia)) as HN. intros Hx Es Er L.
  assert (H0 : number F (Fin 0)) by (split; [apply rep_0|cbn; apply two_pos; destruct HF; lia]).
  destruct (kbn_fold xs 0 (Fin 0) s H0 Hx Es) as (es & I1 & I2 & I3 & I4 & I5). unfold kbn_sum in Er. rewrite I4 in Er. fold (plain_sum F (fins es)) in Er.
  destruct (plain_sum F (fins es)) as [C|t|] eqn:EC; try discriminate. pose proof (plain_error es C EC) as PE. rewrite I1 in PE.
  cbn [fadd] in Er. apply fin_some in Er. destruct Er as [-> _]. pose proof (rnd_error (s + C)) as R. set (r := rnd F (s + C) 1) in *.
  set (n := Z.of_nat (length xs)) in *. assert (Hn : 0 <= n) by (unfold n; lia). cbn [Z.abs] in I5. rewrite Z.add_0_l in I5, I3.
  pose proof (bernoulli n Hn ltac:(lia)) as B1. pose proof (bernoulli (n + 1) ltac:(lia) L) as B2. rewrite !Z.add_1_r in *. rewrite !Z.pow_succ_r in * by lia.
  set (P := N ^ n) in *. set (Q := Z.succ N ^ n) in *. assert (HP : 0 < P) by (apply Z.pow_pos_nonneg; lia). assert (PQ : P <= Q) by (apply Z.pow_le_mono_l; lia).
  set (A := magnitude xs) in *. set (M := magnitude es) in *. set (S := total xs) in *. set (D := Z.abs (C - total es)) in *.
  assert (HA : 0 <= A) by (pose proof (total_magnitude xs); unfold A; lia). assert (HM : 0 <= M) by (pose proof (total_magnitude es); unfold M; lia).
  (* the first order terms *)
  assert (X1 : N * Z.abs (r - S) <= Z.abs S + (N + 1) * D) by (unfold D; nia).
  (* the second order term *)
  assert (Y1 : (Q - P) * N <= 2 * n * P) by nia.
  assert (Y2 : Z.succ N * Q <= 2 * (N * P)).
  { apply Z.mul_le_mono_pos_r with N; [exact HN|]. eapply Z.le_trans; [exact B2|]. assert (N * P * (N + 2 * Z.succ n) <= N * P * (2 * N)) by (apply Z.mul_le_mono_nonneg_l; [nia|lia]). lia. }
  assert (Y3 : (N * P * P) * (N * (N + 1) * D) <= (N * P * P) * (4 * n * n * A)).
  { assert (Z1 : P * D * (N * P) <= (Q - P) * (N * P * M)) by nia.
    assert (Z2 : (Q - P) * (N * P * M) <= (Q - P) * (n * Q * A)) by (apply Z.mul_le_mono_nonneg_l; lia).
    assert (Z3 : (Q - P) * N * (n * A) <= 2 * n * P * (n * A)) by (apply Z.mul_le_mono_nonneg_r; [nia|exact Y1]).
    assert (Z4 : Z.succ N * Q * (2 * n * P * (n * A)) <= 2 * (N * P) * (2 * n * P * (n * A))) by (apply Z.mul_le_mono_nonneg_r; [nia|exact Y2]).
    assert (Z5 : Z.succ N * Q * ((Q - P) * N * (n * A)) <= Z.succ N * Q * (2 * n * P * (n * A))) by (apply Z.mul_le_mono_nonneg_l; [nia|exact Z3]).
    assert (Z6 : (Z.succ N * N) * (P * D * (N * P)) <= (Z.succ N * N) * ((Q - P) * (n * Q * A))) by (apply Z.mul_le_mono_nonneg_l; [nia|lia]).
    replace (N * P * P * (N * (N + 1) * D)) with ((Z.succ N * N) * (P * D * (N * P))) by (rewrite <- Z.add_1_r; ring).
    replace ((Z.succ N * N) * ((Q - P) * (n * Q * A))) with (Z.succ N * Q * ((Q - P) * N * (n * A))) in Z6 by ring.
    replace (N * P * P * (4 * n * n * A)) with (2 * (N * P) * (2 * n * P * (n * A))) by ring. lia. }
  assert (Y4 : N * (N + 1) * D <= 4 * n * n * A). { apply Z.mul_le_mono_pos_l with (N * P * P); [nia|exact Y3]. }
  nia.
Qed.
(** * Infinities *)
Definition sound_state (st : fp * fp) : Prop := match fst st with Inf s => snd st = NaN \/ snd st = Inf (negb s) | _ => True end.
Lemma fin_cases z : (exists x, fin F z = Fin x) \/ exists s, fin F z = Inf s.
Proof. unfold fin. destruct (_ <? _); eauto. Qed.
Lemma kbn_step_fst st x : fst (kbn_step F st x) = fadd F (fst st) x.
Proof. destruct st. reflexivity. Qed.
Lemma kbn_step_sound st x : sound_state st -> sound_state (kbn_step F st x).
Proof.
  destruct st as [sum c]. intros H. unfold sound_state. rewrite kbn_step_fst. cbn [fst] in *.
  assert (NN : forall y, fadd F y NaN = NaN) by (intros [| |]; reflexivity).
  destruct sum as [a|s|]; destruct x as [b|t|]; cbn [fadd]; auto.
  - destruct (fin_cases (rnd F (a + b) 1)) as [[z E]|[s E]]; rewrite E; auto. unfold kbn_step. cbn [snd fadd fabs]. rewrite E. cbn [fsub fneg fadd].
    destruct (fle _ _); destruct c as [c|u|]; cbn [fadd]; auto; destruct u, s; cbn; auto.
  - left. unfold kbn_step. cbn. destruct t; cbn; apply NN.
  - left. unfold kbn_step. cbn. destruct s; cbn; apply NN.
  - destruct s, t; cbn [Bool.eqb]; auto; left; cbn; apply NN.
Qed.
Lemma kbn_fold_sound xs : forall st, sound_state st -> sound_state (fold_left (kbn_step F) xs st) /\ fst (fold_left (kbn_step F) xs st) = fold_left (fadd F) xs (fst st).
Proof.
  induction xs as [|x xs IH]; intros st H; cbn [fold_left]; [auto|]. destruct (IH _ (kbn_step_sound st x H)) as [A B]. rewrite kbn_step_fst in B. auto.
Qed.
Lemma kbn_infinite xs s : plain_sum F xs = Inf s -> kbn_sum F xs = NaN.
Proof.
  intros E. unfold kbn_sum. destruct (kbn_fold_sound xs (Fin 0, Fin 0) Logic.I) as [A B]. destruct (fold_left (kbn_step F) xs (Fin 0, Fin 0)) as [sum c]. cbn [fst snd] in *.
  fold (plain_sum F xs) in B. rewrite E in B. subst sum. unfold sound_state in A. cbn [fst snd] in A. destruct A as [-> | ->]; [reflexivity|]. destruct s; reflexivity.
Qed.
End Fmt.
Lemma double_proper : proper_fmt double.
Proof. unfold proper_fmt. cbn. lia. Qed.
Lemma single_proper : proper_fmt single.
Proof. unfold proper_fmt. cbn. lia. Qed.

(** * The statements of the properties *)

Lemma c280_operations :
  forall F a b, proper_fmt F ->
  (exists z, fadd F (Fin a) (Fin b) = fin F z /\ nearest_rep F z (a + b) 1) /\
  (exists z, fsub F (Fin a) (Fin b) = fin F z /\ nearest_rep F z (a - b) 1) /\
  (exists z, fmul F (Fin a) (Fin b) = fin F z /\ nearest_rep F z (a * b) (unit_of F)) /\
  (b <> 0 -> exists z, fdiv F (Fin a) (Fin b) = fin F z /\ nearest_rep F z (a * unit_of F * Z.sgn b) (Z.abs b)).
Proof.
  intros F a b HF. assert (K : forall n d, 0 < d -> nearest_rep F (rnd F n d) n d) by (intros n d Hd; split; [apply rnd_rep; auto|intros f Hf; apply rnd_nearest; auto]). assert (PU : 0 < unit_of F) by (apply two_pos; destruct HF; lia).
  split; [exists (rnd F (a + b) 1); split; [reflexivity|apply K; lia]|]. split; [exists (rnd F (a - b) 1); split; [reflexivity|apply K; lia]|]. split; [exists (rnd F (a * b) (unit_of F)); split; [reflexivity|apply K; exact PU]|].
  intros Hb. exists (rnd F (a * unit_of F * Z.sgn b) (Z.abs b)). split; [|apply K; lia]. cbn [fdiv]. fold (unit_of F). destruct (Z.eqb_spec b 0); [lia|reflexivity].
Qed.

Lemma c280_compensation :
  forall F xs s, proper_fmt F -> Forall (number F) (fins xs) -> plain_sum F (fins xs) = Fin s ->
  exists es, length es = length xs /\ Forall (number F) (fins es) /\ total xs = s + total es /\ kbn_sum F (fins xs) = fadd F (Fin s) (plain_sum F (fins es)).
Proof.
  intros F xs s HF Hx Es. assert (H0 : number F (Fin 0)) by (split; [apply rep_0; exact HF|cbn; apply two_pos; destruct HF; lia]).
  destruct (kbn_fold F HF xs 0 (Fin 0) s H0 Hx Es) as (es & I1 & I2 & I3 & I4 & I5). exists es. split; [exact I1|]. split; [exact I2|]. split; [rewrite <- I3; ring|]. unfold kbn_sum. rewrite I4. reflexivity.
Qed.

Lemma c280_accuracy :
  forall F xs s r, proper_fmt F -> Forall (number F) (fins xs) -> plain_sum F (fins xs) = Fin s -> kbn_sum F (fins xs) = Fin r -> 2 * (Z.of_nat (length xs) + 1) <= 2 ^ prec F ->
  2 ^ prec F * 2 ^ prec F * Z.abs (r - total xs) <= 2 ^ prec F * Z.abs (total xs) + 4 * Z.of_nat (length xs) * Z.of_nat (length xs) * magnitude xs.
Proof.
  intros F xs s r HF. apply (kbn_error F HF).
Qed.

Lemma c280_overflow_refuted :
  forall F xs s, proper_fmt F -> plain_sum F xs = Inf s -> kbn_sum F xs = NaN.
Proof.
  intros F xs s HF. apply (kbn_infinite F).
Qed.

Lemma c280_special_values_l :
  forall F x a b s t, a < 0 -> 0 < b ->
  (fadd F NaN x = NaN /\ fadd F x NaN = NaN /\ fsub F NaN x = NaN /\ fsub F x NaN = NaN /\ fmul F NaN x = NaN /\ fmul F x NaN = NaN /\ fdiv F NaN x = NaN /\ fdiv F x NaN = NaN) /\
  (fadd F (Inf s) (Inf s) = Inf s /\ fadd F (Inf s) (Inf (negb s)) = NaN /\ fsub F (Inf s) (Inf s) = NaN /\ fsub F (Inf s) (Inf (negb s)) = Inf s) /\
  (forall c, fadd F (Inf s) (Fin c) = Inf s /\ fadd F (Fin c) (Inf s) = Inf s /\ fsub F (Inf s) (Fin c) = Inf s /\ fsub F (Fin c) (Inf s) = Inf (negb s)) /\
  (fmul F (Inf s) (Inf t) = Inf (xorb s t) /\ fmul F (Inf s) (Fin 0) = NaN /\ fmul F (Fin 0) (Inf s) = NaN) /\
  (fmul F (Inf s) (Fin b) = Inf s /\ fmul F (Fin b) (Inf s) = Inf s /\ fmul F (Inf s) (Fin a) = Inf (negb s) /\ fmul F (Fin a) (Inf s) = Inf (negb s)) /\
  (fdiv F (Inf s) (Inf t) = NaN /\ fdiv F (Fin 0) (Fin 0) = NaN /\ fdiv F (Fin b) (Fin 0) = Inf false /\ fdiv F (Fin a) (Fin 0) = Inf true) /\
  (fdiv F (Inf s) (Fin b) = Inf s /\ fdiv F (Inf s) (Fin 0) = Inf s /\ fdiv F (Inf s) (Fin a) = Inf (negb s) /\ forall c, fdiv F (Fin c) (Inf s) = Fin 0) /\
  (fabs (Inf s) = Inf false /\ fabs (Fin a) = Fin (- a) /\ fabs (Fin b) = Fin b).
Proof.
  intros F x a b s t Ha Hb.
  assert (La : (a <? 0) = true) by (apply Z.ltb_lt; lia). assert (Ea : (a =? 0) = false) by (apply Z.eqb_neq; lia).
  assert (Lb : (b <? 0) = false) by (apply Z.ltb_ge; lia). assert (Eb : (b =? 0) = false) by (apply Z.eqb_neq; lia).
  unfold fsub. repeat match goal with |- _ /\ _ => split | |- forall _, _ => intros ? end; cbn [fadd fmul fdiv fneg fabs Z.eqb]; rewrite ?La, ?Ea, ?Lb, ?Eb; try reflexivity; try (destruct x; reflexivity); try (destruct s; reflexivity); f_equal; lia.
Qed.
