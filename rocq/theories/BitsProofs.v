From Verif Require Import Common CommonProofs Ints BitsModel SpecBits.
From Coq Require Import Zify.
Open Scope Z_scope.

(** * Conversions *)
Lemma pow_pos w : 0 <= w -> 0 < 2 ^ w.
Proof. intros; apply Z.pow_pos_nonneg; lia. Qed.

Lemma pow_half w : 0 < w -> 2 ^ w = 2 * 2 ^ (w - 1).
Proof. intros. replace w with (Z.succ (w - 1)) at 1 by lia. rewrite Z.pow_succ_r; lia. Qed.

Lemma wrap_id w z : 0 <= z < 2 ^ w -> wrap w z = z.
Proof. intros; apply Z.mod_small; auto. Qed.

Lemma wrap_range w z : 0 <= w -> 0 <= wrap w z < 2 ^ w.
Proof. intros; apply Z.mod_pos_bound, pow_pos; auto. Qed.

Lemma swrap_id w z : 0 < w -> - 2 ^ (w - 1) <= z < 2 ^ (w - 1) -> swrap w z = z.
Proof.
  intros Hw H. unfold swrap. pose proof (pow_half w Hw) as E.
  destruct (Z.ltb_spec (z mod 2 ^ w) (2 ^ (w - 1))).
  - destruct (Z_lt_le_dec z 0).
    + rewrite (Z.mod_eq z (2 ^ w)) in H0 by lia.
      assert (z / 2 ^ w = -1).
      { symmetry; apply Z.div_unique_pos with (r := z + 2 ^ w); lia. }
      rewrite H1 in H0. lia.
    + apply Z.mod_small; lia.
  - destruct (Z_lt_le_dec z 0).
    + rewrite (Z.mod_eq z (2 ^ w)) by lia.
      assert (z / 2 ^ w = -1).
      { symmetry; apply Z.div_unique_pos with (r := z + 2 ^ w); lia. }
      rewrite H1. lia.
    + rewrite Z.mod_small in H0; lia.
Qed.

Lemma swrap_range w z : 0 < w -> - 2 ^ (w - 1) <= swrap w z < 2 ^ (w - 1).
Proof.
  intros Hw. unfold swrap. pose proof (pow_half w Hw).
  pose proof (Z.mod_pos_bound z (2 ^ w) ltac:(apply pow_pos; lia)).
  destruct (Z.ltb_spec (z mod 2 ^ w) (2 ^ (w - 1))); lia.
Qed.

Lemma conv_id T z : 0 < width T -> fits T z -> conv T z = z.
Proof.
  unfold fits, conv, lowest, highest. intros Hw H. destruct (signed T).
  - apply swrap_id; lia.
  - apply wrap_id; lia.
Qed.

Lemma conv_fits T z : 0 < width T -> fits T (conv T z).
Proof.
  unfold fits, conv, lowest, highest. intros Hw. destruct (signed T).
  - pose proof (swrap_range (width T) z Hw); lia.
  - pose proof (wrap_range (width T) z ltac:(lia)); lia.
Qed.

Lemma swrap_wrap w z : 0 < w -> wrap w (swrap w z) = wrap w z.
Proof.
  intros. unfold swrap, wrap. pose proof (pow_pos w ltac:(lia)).
  destruct (_ <? _).
  - apply Z.mod_mod; lia.
  - rewrite <- (Z.mod_mod z (2 ^ w)) at 2 by lia.
    rewrite <- (Z_mod_plus_full (z mod 2 ^ w) (-1) (2 ^ w)). f_equal; lia.
Qed.

Lemma conv_wrap T z : 0 < width T -> wrap (width T) (conv T z) = wrap (width T) z.
Proof.
  intros. unfold conv. destruct (signed T).
  - apply swrap_wrap; auto.
  - unfold wrap. apply Z.mod_mod. pose proof (pow_pos (width T)); lia.
Qed.

Lemma swrap_wrap_arg w z : 0 < w -> swrap w (wrap w z) = swrap w z.
Proof.
  intros. unfold swrap, wrap. rewrite Z.mod_mod; auto. pose proof (pow_pos w); lia.
Qed.

Lemma conv_wrap_arg T z : 0 < width T -> conv T (wrap (width T) z) = conv T z.
Proof.
  intros. unfold conv. destruct (signed T).
  - apply swrap_wrap_arg; auto.
  - unfold wrap. apply Z.mod_mod. pose proof (pow_pos (width T)); lia.
Qed.

Lemma wrap_bit w z i : 0 <= i < w -> Z.testbit (wrap w z) i = Z.testbit z i.
Proof. intros; apply Z.mod_pow2_bits_low; lia. Qed.
Lemma wrap_bit_high w z i : 0 <= w <= i -> Z.testbit (wrap w z) i = false.
Proof. intros; apply Z.mod_pow2_bits_high; lia. Qed.

Lemma conv_bit T z i : 0 <= i < width T -> Z.testbit (conv T z) i = Z.testbit z i.
Proof.
  intros. rewrite <- (wrap_bit (width T)), conv_wrap, wrap_bit by lia. auto.
Qed.

(** * Comparisons *)
Lemma promote_width T : width T <= width (promote T) /\ 32 <= width (promote T).
Proof. unfold promote. destruct (Z.ltb_spec (width T) 32); simpl; lia. Qed.

Lemma fits_promote T z : 0 < width T -> fits T z -> fits (promote T) z.
Proof.
  unfold promote. destruct (Z.ltb_spec (width T) 32); auto.
  unfold fits, lowest, highest. simpl. intros H0 [Hl Hh].
  assert (0 < 2 ^ (width T - 1) <= 2 ^ 31 /\ 2 ^ width T <= 2 ^ 31).
  { repeat split; [apply pow_pos | apply Z.pow_le_mono_r | apply Z.pow_le_mono_r]; lia. }
  change (2 ^ (32 - 1)) with (2 ^ 31).
  destruct (signed T); lia.
Qed.

Lemma fits_wider s w1 w2 z : 0 < w1 <= w2 ->
  fits {| signed := s; width := w1 |} z -> fits {| signed := s; width := w2 |} z.
Proof.
  unfold fits, lowest, highest. simpl. intros H [Hl Hh].
  assert (2 ^ (w1 - 1) <= 2 ^ (w2 - 1)) by (apply Z.pow_le_mono_r; lia).
  assert (2 ^ w1 <= 2 ^ w2) by (apply Z.pow_le_mono_r; lia).
  destruct s; lia.
Qed.

Lemma ity_eta T : {| signed := signed T; width := width T |} = T.
Proof. destruct T; reflexivity. Qed.

Lemma fits_unsigned_to_signed w1 w2 z : 0 < w1 < w2 ->
  fits {| signed := false; width := w1 |} z -> fits {| signed := true; width := w2 |} z.
Proof.
  unfold fits, lowest, highest. simpl. intros H [Hl Hh].
  assert (2 ^ w1 <= 2 ^ (w2 - 1)) by (apply Z.pow_le_mono_r; lia).
  pose proof (pow_pos (w2 - 1)); lia.
Qed.

Lemma fits_nonneg_unsigned w1 w2 z : 0 <= z -> 0 < w1 <= w2 ->
  fits {| signed := true; width := w1 |} z -> fits {| signed := false; width := w2 |} z.
Proof.
  unfold fits, lowest, highest. simpl. intros Hz H [Hl Hh].
  assert (2 ^ (w1 - 1) <= 2 ^ w2) by (apply Z.pow_le_mono_r; lia). lia.
Qed.

(** With operands of one signedness the common type holds both values. *)
Lemma usual_ok T U t u : signed T = signed U ->
  0 < width T -> 0 < width U -> fits T t -> fits U u ->
  0 < width (usual T U) /\ fits (usual T U) t /\ fits (usual T U) u.
Proof.
  intros Hs HT HU Ft Fu.
  pose proof (promote_width T) as WT. pose proof (promote_width U) as WU.
  pose proof (fits_promote T t HT Ft) as PT. pose proof (fits_promote U u HU Fu) as PU.
  unfold usual. cbv zeta.
  destruct (Bool.eqb (signed (promote T)) (signed (promote U))) eqn:E.
  - apply Bool.eqb_prop in E. simpl.
    rewrite <- (ity_eta (promote T)) in PT. rewrite <- (ity_eta (promote U)) in PU.
    split; [lia|]. split.
    + eapply fits_wider; [|exact PT]. lia.
    + rewrite E. eapply fits_wider; [|exact PU]. lia.
  - (* one was promoted to int, the other is an unsigned type at least as wide *)
    apply Bool.eqb_false_iff in E.
    unfold promote in *. destruct (Z.ltb_spec (width T) 32), (Z.ltb_spec (width U) 32);
      simpl in *; try congruence.
    + (* T promoted, U wide unsigned *)
      destruct (signed U) eqn:SU; try congruence.
      destruct (Z.leb_spec 32 (width U)); [|lia].
      split; [lia|]. split; auto.
      rewrite <- (ity_eta U), SU. rewrite <- (ity_eta T), Hs in Ft.
      eapply fits_wider; [|exact Ft]. lia.
    + destruct (signed T) eqn:ST; try congruence.
      change (width i32) with 32. destruct (Z.leb_spec 32 (width T)); [|lia].
      split; [lia|]. split; auto.
      rewrite <- (ity_eta T), ST. rewrite <- (ity_eta U), <- Hs in Fu.
      eapply fits_wider; [|exact Fu]. lia.
Qed.

Lemma op_eq_ok T U t u : signed T = signed U ->
  0 < width T -> 0 < width U -> fits T t -> fits U u -> op_eq T U t u = (t =? u).
Proof.
  intros. destruct (usual_ok T U t u) as (W & Ft & Fu); auto.
  unfold op_eq. cbv zeta. rewrite !conv_id; auto.
Qed.
Lemma op_lt_ok T U t u : signed T = signed U ->
  0 < width T -> 0 < width U -> fits T t -> fits U u -> op_lt T U t u = (t <? u).
Proof.
  intros. destruct (usual_ok T U t u) as (W & Ft & Fu); auto.
  unfold op_lt. cbv zeta. rewrite !conv_id; auto.
Qed.

Lemma unsigned_of_ok T t : 0 < width T -> signed T = true -> fits T t -> 0 <= t ->
  conv (unsigned_of T) t = t /\ fits (unsigned_of T) t.
Proof.
  intros HT HS F H.
  assert (F' : fits (unsigned_of T) t).
  { rewrite <- (ity_eta T), HS in F. eapply fits_nonneg_unsigned; [| |exact F]; simpl; lia. }
  split; auto. apply conv_id; auto.
Qed.

Lemma fits_unsigned_nonneg T t : signed T = false -> fits T t -> 0 <= t.
Proof. unfold fits, lowest. intros ->. lia. Qed.

Lemma cmp_equal_ok T U t u : 0 < width T -> 0 < width U -> fits T t -> fits U u ->
  cmp_equal T U t u = (t =? u).
Proof.
  intros HT HU Ft Fu. unfold cmp_equal. cbv zeta.
  destruct (Bool.eqb (signed T) (signed U)) eqn:E.
  - apply Bool.eqb_prop in E. apply op_eq_ok; auto.
  - apply Bool.eqb_false_iff in E. destruct (signed T) eqn:ST.
    + destruct (signed U) eqn:SU; try congruence.
      pose proof (fits_unsigned_nonneg U u SU Fu).
      destruct (Z.ltb_spec t 0).
      * symmetry; apply Z.eqb_neq; lia.
      * destruct (unsigned_of_ok T t) as [E1 F1]; auto.
        rewrite E1. apply op_eq_ok; auto.
    + destruct (signed U) eqn:SU; try congruence.
      pose proof (fits_unsigned_nonneg T t ST Ft).
      destruct (Z.ltb_spec u 0).
      * symmetry; apply Z.eqb_neq; lia.
      * destruct (unsigned_of_ok U u) as [E1 F1]; auto.
        rewrite E1. apply op_eq_ok; auto.
Qed.

Lemma cmp_not_equal_ok T U t u : 0 < width T -> 0 < width U -> fits T t -> fits U u ->
  cmp_not_equal T U t u = negb (t =? u).
Proof.
  intros HT HU Ft Fu. rewrite <- (cmp_equal_ok T U t u) by auto.
  unfold cmp_equal, cmp_not_equal. cbv zeta.
  destruct (Bool.eqb _ _); auto. destruct (signed T); destruct (_ <? 0); auto.
Qed.

Lemma cmp_less_ok T U t u : 0 < width T -> 0 < width U -> fits T t -> fits U u ->
  cmp_less T U t u = (t <? u).
Proof.
  intros HT HU Ft Fu. unfold cmp_less. cbv zeta.
  destruct (Bool.eqb (signed T) (signed U)) eqn:E.
  - apply Bool.eqb_prop in E. apply op_lt_ok; auto.
  - apply Bool.eqb_false_iff in E. destruct (signed T) eqn:ST.
    + destruct (signed U) eqn:SU; try congruence.
      pose proof (fits_unsigned_nonneg U u SU Fu).
      destruct (Z.ltb_spec t 0).
      * symmetry; apply Z.ltb_lt; lia.
      * destruct (unsigned_of_ok T t) as [E1 F1]; auto.
        rewrite E1. apply op_lt_ok; auto.
    + destruct (signed U) eqn:SU; try congruence.
      pose proof (fits_unsigned_nonneg T t ST Ft).
      destruct (Z.ltb_spec u 0).
      * symmetry; apply Z.ltb_ge; lia.
      * destruct (unsigned_of_ok U u) as [E1 F1]; auto.
        rewrite E1. apply op_lt_ok; auto.
Qed.

Lemma limits_fit R : 0 < width R -> fits R (lowest R) /\ fits R (highest R).
Proof.
  unfold fits, lowest, highest. intros. pose proof (pow_pos (width R - 1)).
  pose proof (pow_pos (width R)). destruct (signed R); lia.
Qed.

Lemma in_range_ok R T t : 0 < width R -> 0 < width T -> fits T t ->
  in_range R T t = true <-> fits R t.
Proof.
  intros HR HT Ft. unfold in_range, same_type. destruct (limits_fit R HR) as [L H].
  destruct (Bool.eqb (signed R) (signed T) && (width R =? width T)) eqn:E.
  - apply andb_true_iff in E as [E1 E2]. apply Bool.eqb_prop in E1. apply Z.eqb_eq in E2.
    split; [intros _|reflexivity].
    destruct R, T; simpl in *; subst; auto.
  - unfold cmp_greater_equal, cmp_less_equal. rewrite !cmp_less_ok by auto.
    unfold fits. rewrite andb_true_iff, !negb_true_iff, !Z.ltb_ge. lia.
Qed.

(** * Bit reversal *)
Lemma bits_eq w a b : 0 <= w -> 0 <= a < 2 ^ w -> 0 <= b < 2 ^ w ->
  (forall i, 0 <= i < w -> Z.testbit a i = Z.testbit b i) -> a = b.
Proof.
  intros Hw Ha Hb H. apply Z.bits_inj'. intros i Hi.
  destruct (Z_lt_le_dec i w); [apply H; lia|].
  rewrite <- (wrap_id w a), <- (wrap_id w b), !wrap_bit_high; auto.
Qed.

(** A word below [2^w] has no bits from [w] on. *)
Lemma high_bit w v i : 0 <= v < 2 ^ w -> 0 <= w <= i -> Z.testbit v i = false.
Proof. intros. rewrite <- (wrap_id w v), wrap_bit_high; auto. Qed.

Lemma range_of_bits w r : 0 <= w -> 0 <= r ->
  (forall i, w <= i -> Z.testbit r i = false) -> r < 2 ^ w.
Proof.
  intros Hw Hr H.
  assert (r = wrap w r) as ->; [|apply wrap_range; auto].
  apply Z.bits_inj'. intros i Hi.
  destruct (Z_lt_le_dec i w); [rewrite wrap_bit; auto|].
  rewrite wrap_bit_high by lia. apply H; auto.
Qed.

(** Symbolic evaluation of shift/mask/or expressions in one variable of [w]
    bits: every bit of the result is an "or" of bits of the variable. *)
Inductive bexp :=
| BVar
| BOr (a b : bexp)
| BAnd (a : bexp) (c : Z)
| BShl (a : bexp) (k : Z)
| BShr (a : bexp) (k : Z)
| BWrap (w : Z) (a : bexp).

Fixpoint beval (v : Z) (e : bexp) : Z :=
  match e with
  | BVar => v
  | BOr a b => Z.lor (beval v a) (beval v b)
  | BAnd a c => Z.land (beval v a) c
  | BShl a k => Z.shiftl (beval v a) k
  | BShr a k => Z.shiftr (beval v a) k
  | BWrap w a => wrap w (beval v a)
  end.

Fixpoint bsrc (w : Z) (e : bexp) (i : Z) : list Z :=
  match e with
  | BVar => if i <? w then [i] else []
  | BOr a b => bsrc w a i ++ bsrc w b i
  | BAnd a c => if Z.testbit c i then bsrc w a i else []
  | BShl a k => if i <? k then [] else bsrc w a (i - k)
  | BShr a k => bsrc w a (i + k)
  | BWrap w' a => if i <? w' then bsrc w a i else []
  end.

Fixpoint bwf (e : bexp) : bool :=
  match e with
  | BVar => true
  | BOr a b => bwf a && bwf b
  | BAnd a c => bwf a
  | BShl a k => (0 <=? k) && bwf a
  | BShr a k => (0 <=? k) && bwf a
  | BWrap w a => (0 <=? w) && bwf a
  end.

Lemma bsrc_ok w v e i : 0 <= w -> 0 <= v < 2 ^ w -> bwf e = true -> 0 <= i ->
  Z.testbit (beval v e) i = existsb (Z.testbit v) (bsrc w e i).
Proof.
  intros Hw Hv. revert i. induction e; simpl; intros i WF Hi.
  - destruct (Z.ltb_spec i w); simpl.
    + rewrite orb_false_r; auto.
    + apply (high_bit w); auto.
  - apply andb_true_iff in WF as [W1 W2].
    rewrite Z.lor_spec, existsb_app, IHe1, IHe2; auto.
  - rewrite Z.land_spec, IHe; auto. destruct (Z.testbit c i); simpl;
      rewrite ?andb_true_r, ?andb_false_r; auto.
  - apply andb_true_iff in WF as [W1 W2]. apply Z.leb_le in W1.
    rewrite Z.shiftl_spec by lia. destruct (Z.ltb_spec i k).
    + rewrite Z.testbit_neg_r by lia. auto.
    + apply IHe; auto. lia.
  - apply andb_true_iff in WF as [W1 W2]. apply Z.leb_le in W1.
    rewrite Z.shiftr_spec by lia. apply IHe; auto. lia.
  - apply andb_true_iff in WF as [W1 W2]. apply Z.leb_le in W1.
    destruct (Z.ltb_spec i w0).
    + rewrite wrap_bit by lia. auto.
    + rewrite wrap_bit_high by lia. auto.
Qed.

(** All integers from 0 below [w]. *)
Definition zseq (w : Z) : list Z := map Z.of_nat (seq 0 (Z.to_nat w)).
Lemma zseq_in w i : 0 <= i < w -> In i (zseq w).
Proof.
  intros. unfold zseq. apply in_map_iff. exists (Z.to_nat i).
  split; [lia|]. apply in_seq. lia.
Qed.

Definition permutes (w : Z) (e : bexp) (f : Z -> Z) : bool :=
  bwf e && forallb (fun i => match bsrc w e i with [j] => j =? f i | _ => false end) (zseq w).

Lemma permutes_ok w e f v : 0 <= w -> permutes w e f = true -> 0 <= v < 2 ^ w ->
  forall i, 0 <= i < w -> Z.testbit (beval v e) i = Z.testbit v (f i).
Proof.
  intros Hw P Hv i Hi. unfold permutes in P. apply andb_true_iff in P as [WF P].
  rewrite forallb_forall in P. specialize (P i (zseq_in w i Hi)).
  rewrite (bsrc_ok w) by (auto; lia).
  destruct (bsrc w e i) as [|j [|]]; try discriminate.
  apply Z.eqb_eq in P as ->. simpl. apply orb_false_r.
Qed.

(** Upper bound of an expression from the bits it can have. *)
Fixpoint bnonneg (v : Z) (e : bexp) : 0 <= v -> 0 <= beval v e.
Proof.
  intros Hv. destruct e; simpl.
  - auto.
  - apply Z.lor_nonneg; auto.
  - apply Z.land_nonneg; auto.
  - apply Z.shiftl_nonneg; auto.
  - apply Z.shiftr_nonneg; auto.
  - unfold wrap. destruct (Z_lt_le_dec w 0).
    + rewrite Z.pow_neg_r by lia. rewrite Zmod_0_r. auto.
    + apply Z.mod_pos_bound, pow_pos; auto.
Defined.

(** A bound on the number of bits of an expression. *)
Fixpoint bwidth (w : Z) (e : bexp) : Z :=
  match e with
  | BVar => w
  | BOr a b => Z.max (bwidth w a) (bwidth w b)
  | BAnd a c => bwidth w a
  | BShl a k => bwidth w a + k
  | BShr a k => Z.max 0 (bwidth w a - k)
  | BWrap w' a => Z.min w' (bwidth w a)
  end.

Lemma bwidth_ok w v e : 0 <= w -> 0 <= v < 2 ^ w -> bwf e = true ->
  0 <= bwidth w e /\ forall i, bwidth w e <= i -> Z.testbit (beval v e) i = false.
Proof.
  intros Hw Hv. induction e; simpl; intros WF.
  - split; auto. intros. apply (high_bit w); auto.
  - apply andb_true_iff in WF as [W1 W2]. destruct IHe1 as [N1 I1], IHe2 as [N2 I2]; auto.
    split; [lia|]. intros. rewrite Z.lor_spec, I1, I2; auto; lia.
  - destruct IHe as [N1 I1]; auto. split; auto. intros. rewrite Z.land_spec, I1; auto.
  - apply andb_true_iff in WF as [W1 W2]. apply Z.leb_le in W1.
    destruct IHe as [N1 I1]; auto. split; [lia|]. intros.
    rewrite Z.shiftl_spec by lia. apply I1; lia.
  - apply andb_true_iff in WF as [W1 W2]. apply Z.leb_le in W1.
    destruct IHe as [N1 I1]; auto. split; [lia|]. intros.
    rewrite Z.shiftr_spec by lia. apply I1; lia.
  - apply andb_true_iff in WF as [W1 W2]. apply Z.leb_le in W1.
    destruct IHe as [N1 I1]; auto. split; [lia|]. intros.
    destruct (Z_lt_le_dec i w0).
    + rewrite wrap_bit by lia. apply I1; lia.
    + apply wrap_bit_high; lia.
Qed.

Lemma beval_range w v e : 0 <= w -> 0 <= v < 2 ^ w -> bwf e = true -> bwidth w e <= w ->
  0 <= beval v e < 2 ^ w.
Proof.
  intros. split; [apply bnonneg; lia|].
  apply range_of_bits; [lia | apply bnonneg; lia|].
  intros. apply (bwidth_ok w); auto. lia.
Qed.

Definition rev8_exp : bexp :=
  BWrap 8 (BOr (BOr (BOr (BOr (BOr (BOr (BOr
    (BShl (BAnd BVar 0x1) 7) (BShl (BAnd BVar 0x2) 5))
    (BShl (BAnd BVar 0x4) 3)) (BShl (BAnd BVar 0x8) 1))
    (BShr (BAnd BVar 0x10) 1)) (BShr (BAnd BVar 0x20) 3))
    (BShr (BAnd BVar 0x40) 5)) (BShr (BAnd BVar 0x80) 7)).
Definition rev16_exp : bexp :=
  let st a m1 m2 s := BWrap 32 (BOr (BShr (BAnd a m1) s) (BShl (BAnd a m2) s)) in
  BWrap 16 (st (st (st (st BVar 0xFF00 0x00FF 8) 0xF0F0 0x0F0F 4) 0xCCCC 0x3333 2) 0xAAAA 0x5555 1).
Definition rev32_exp : bexp :=
  let st a m s := BOr (BWrap 32 (BShl (BAnd a m) s)) (BAnd (BShr a s) m) in
  let v := st (st (st BVar 0x55555555 1) 0x33333333 2) 0x0F0F0F0F 4 in
  BOr (BOr (BOr (BWrap 32 (BShl v 24)) (BWrap 32 (BShl (BAnd v 0xFF00) 8)))
    (BAnd (BShr v 8) 0xFF00)) (BShr v 24).
Definition rev64_exp : bexp :=
  let st a m s := BOr (BAnd (BShr a s) m) (BWrap 64 (BShl (BAnd a m) s)) in
  let v := st (st (st (st (st BVar 0x5555555555555555 1) 0x3333333333333333 2)
    0x0f0f0f0f0f0f0f0f 4) 0x00ff00ff00ff00ff 8) 0x0000ffff0000ffff 16 in
  BOr (BShr v 32) (BWrap 64 (BShl v 32)).

Lemma mirrored_of_exp w e (f : Z -> Z) : 0 < w ->
  (forall v, f v = beval v e) ->
  permutes w e (fun i => w - 1 - i) = true -> bwidth w e <=? w = true ->
  forall v, 0 <= v < 2 ^ w -> mirrored w v (f v).
Proof.
  intros Hw E P B v Hv. apply Z.leb_le in B. rewrite E.
  assert (W : bwf e = true) by (apply andb_true_iff in P; tauto).
  split.
  - apply beval_range; auto; lia.
  - apply (permutes_ok w e (fun i => w - 1 - i)); auto; lia.
Qed.

Lemma reverse_bits8_ok v : 0 <= v < 2 ^ 8 -> mirrored 8 v (reverse_bits8 v).
Proof.
  apply (mirrored_of_exp 8 rev8_exp reverse_bits8); [lia | | vm_compute; reflexivity.. ].
  intros x. cbv [reverse_bits8 rev8_exp beval]. reflexivity.
Qed.
Lemma reverse_bits16_ok v : 0 <= v < 2 ^ 16 -> mirrored 16 v (reverse_bits16 v).
Proof.
  apply (mirrored_of_exp 16 rev16_exp reverse_bits16); [lia | | vm_compute; reflexivity.. ].
  intros x. cbv [reverse_bits16 rev16_exp beval]. reflexivity.
Qed.
Lemma reverse_bits32_ok v : 0 <= v < 2 ^ 32 -> mirrored 32 v (reverse_bits32 v).
Proof.
  apply (mirrored_of_exp 32 rev32_exp reverse_bits32); [lia | | vm_compute; reflexivity.. ].
  intros x. cbv [reverse_bits32 rev32_exp beval]. reflexivity.
Qed.
Lemma reverse_bits64_ok v : 0 <= v < 2 ^ 64 -> mirrored 64 v (reverse_bits64 v).
Proof.
  apply (mirrored_of_exp 64 rev64_exp reverse_bits64); [lia | | vm_compute; reflexivity.. ].
  intros x. cbv [reverse_bits64 rev64_exp beval]. reflexivity.
Qed.

(** Mirroring twice restores the word. *)
Lemma mirrored_twice w v r r' : 0 < w -> 0 <= v < 2 ^ w ->
  mirrored w v r -> mirrored w r r' -> r' = v.
Proof.
  intros Hw Hv [R1 B1] [R2 B2]. apply (bits_eq w); auto; try lia.
  intros i Hi. rewrite B2, B1 by lia. f_equal. lia.
Qed.

(** * Byte swapping *)
Definition swap16_exp : bexp :=
  BOr (BWrap 16 (BAnd (BShr BVar 8) 0x00FF)) (BWrap 16 (BAnd (BShl BVar 8) 0xFF00)).
Definition swap32_exp : bexp :=
  BOr (BOr (BOr
    (BAnd (BShr BVar 24) 0x000000FF)
    (BAnd (BShr BVar 8) 0x0000FF00))
    (BAnd (BWrap 32 (BShl BVar 8)) 0x00FF0000))
    (BAnd (BWrap 32 (BShl BVar 24)) 0xFF000000).
Definition swap64_exp : bexp :=
  BOr (BOr (BOr (BOr (BOr (BOr (BOr
    (BAnd (BShr BVar 56) 0x00000000000000FF)
    (BAnd (BShr BVar 40) 0x000000000000FF00))
    (BAnd (BShr BVar 24) 0x0000000000FF0000))
    (BAnd (BShr BVar 8) 0x00000000FF000000))
    (BAnd (BWrap 64 (BShl BVar 8)) 0x000000FF00000000))
    (BAnd (BWrap 64 (BShl BVar 24)) 0x0000FF0000000000))
    (BAnd (BWrap 64 (BShl BVar 40)) 0x00FF000000000000))
    (BAnd (BWrap 64 (BShl BVar 56)) 0xFF00000000000000).

(** Source bit of bit [i] when bytes are reversed. *)
Definition swap_src (w i : Z) : Z := 8 * (w / 8 - 1 - i / 8) + i mod 8.

Lemma swap_exp_bits w e T v : 0 < w -> w = 8 * (w / 8) -> width T = w ->
  permutes w e (swap_src w) = true ->
  forall i, 0 <= i < w ->
    Z.testbit (conv T (beval (wrap w v) e)) i = Z.testbit v (swap_src w i).
Proof.
  intros Hw W8 HT P i Hi. rewrite conv_bit by lia.
  rewrite (permutes_ok w e (swap_src w)); auto; try lia.
  2:{ apply wrap_range; lia. }
  apply wrap_bit. unfold swap_src.
  assert (0 <= i / 8) by (apply Z.div_pos; lia).
  assert (i / 8 < w / 8) by (apply Z.div_lt_upper_bound; lia).
  pose proof (Z.mod_pos_bound i 8 ltac:(lia)). lia.
Qed.

Lemma swap_bytes_bits T v : std_width (width T) -> fits T v ->
  forall i, 0 <= i < width T ->
    Z.testbit (swap_bytes T v) i = Z.testbit v (swap_src (width T) i).
Proof.
  intros HW F i Hi. unfold swap_bytes. destruct HW as [E|[E|[E|E]]]; rewrite E in *; simpl (_ =? _); cbv iota.
  - unfold swap_bytes8. f_equal. unfold swap_src.
    rewrite (Z.div_small i 8), (Z.mod_small i 8) by lia. change (8 / 8) with 1. lia.
  - apply (swap_exp_bits 16 swap16_exp T v); auto; lia || (vm_compute; reflexivity).
  - apply (swap_exp_bits 32 swap32_exp T v); auto; lia || (vm_compute; reflexivity).
  - apply (swap_exp_bits 64 swap64_exp T v); auto; lia || (vm_compute; reflexivity).
Qed.

Lemma swap_bytes_fits T v : std_width (width T) -> fits T v -> fits T (swap_bytes T v).
Proof.
  intros HW F. unfold swap_bytes. destruct HW as [E|[E|[E|E]]]; rewrite E; simpl; auto;
    apply conv_fits; lia.
Qed.

Lemma byte_bit z k j : 0 <= k -> 0 <= j < 8 -> Z.testbit (byte z k) j = Z.testbit z (8 * k + j).
Proof.
  intros. unfold byte. change 256 with (2 ^ 8). rewrite Z.mod_pow2_bits_low by lia.
  rewrite Z.div_pow2_bits by lia. f_equal. lia.
Qed.

Lemma byte_range z k : 0 <= byte z k < 2 ^ 8.
Proof. apply Z.mod_pos_bound. lia. Qed.

Lemma swap_bytes_ok T v : std_width (width T) -> fits T v ->
  fits T (swap_bytes T v) /\ bytes_reversed (width T) v (swap_bytes T v).
Proof.
  intros HW F. split; [apply swap_bytes_fits; auto|].
  intros k Hk.
  assert (W8 : width T = 8 * (width T / 8)).
  { destruct HW as [E|[E|[E|E]]]; rewrite E; reflexivity. }
  apply (bits_eq 8); try apply byte_range; [lia|].
  intros j Hj. rewrite !byte_bit by lia.
  rewrite swap_bytes_bits by (auto; lia). f_equal. unfold swap_src.
  replace ((8 * k + j) / 8) with k by (apply Z.div_unique with j; lia).
  replace ((8 * k + j) mod 8) with j by (apply Z.mod_unique with k; lia).
  lia.
Qed.

(** Equal bytes determine the value of a typed word. *)
Lemma fits_bits_eq T a b : 0 < width T -> fits T a -> fits T b ->
  (forall i, 0 <= i < width T -> Z.testbit a i = Z.testbit b i) -> a = b.
Proof.
  intros HW Fa Fb H.
  rewrite <- (conv_id T a), <- (conv_id T b) by auto.
  rewrite <- (conv_wrap_arg T a), <- (conv_wrap_arg T b) by auto.
  f_equal. apply (bits_eq (width T)); try apply wrap_range; try lia.
  intros. rewrite !wrap_bit by lia. auto.
Qed.

Lemma swap_bytes_twice T v : std_width (width T) -> fits T v ->
  swap_bytes T (swap_bytes T v) = v.
Proof.
  intros HW F.
  assert (HW0 : 0 < width T) by (destruct HW as [E|[E|[E|E]]]; lia).
  apply (fits_bits_eq T); auto using swap_bytes_fits.
  intros i Hi. rewrite swap_bytes_bits by auto using swap_bytes_fits.
  assert (W8 : width T = 8 * (width T / 8)).
  { destruct HW as [E|[E|[E|E]]]; rewrite E; reflexivity. }
  pose proof (Z_div_mod_eq_full i 8). pose proof (Z.mod_pos_bound i 8 ltac:(lia)).
  assert (B : 0 <= i / 8 < width T / 8).
  { split; [apply Z.div_pos; lia|]. apply Z.div_lt_upper_bound; lia. }
  rewrite swap_bytes_bits; auto.
  - f_equal. unfold swap_src.
    replace ((8 * (width T / 8 - 1 - i / 8) + i mod 8) / 8) with (width T / 8 - 1 - i / 8)
      by (apply Z.div_unique with (i mod 8); lia).
    replace ((8 * (width T / 8 - 1 - i / 8) + i mod 8) mod 8) with (i mod 8)
      by (apply Z.mod_unique with (width T / 8 - 1 - i / 8); lia).
    lia.
  - unfold swap_src. lia.
Qed.

(** * Masks *)
Lemma mask_msb_value w n : 0 < w -> 0 <= n ->
  mask_msb w n = if w <=? n then 0 else 2 ^ (w - n) - 1.
Proof.
  intros. unfold mask_msb. destruct (Z.leb_spec w n); auto.
  assert (E : Z.shiftr (2 ^ w - 1) n = 2 ^ (w - n) - 1).
  { rewrite Z.shiftr_div_pow2 by lia. symmetry.
    apply Z.div_unique with (2 ^ n - 1).
    - pose proof (pow_pos n); lia.
    - replace (2 ^ w) with (2 ^ n * 2 ^ (w - n)) by (rewrite <- Z.pow_add_r by lia; f_equal; lia).
      lia. }
  rewrite E. apply wrap_id.
  assert (2 ^ (w - n) <= 2 ^ w) by (apply Z.pow_le_mono_r; lia).
  pose proof (pow_pos (w - n)); lia.
Qed.

Lemma ones_bit w i : 0 <= w -> 0 <= i -> Z.testbit (2 ^ w - 1) i = (i <? w).
Proof.
  intros. 
  replace (2 ^ w - 1) with (Z.ones w) by (rewrite Z.ones_equiv; lia).
  destruct (Z.ltb_spec i w).
  - apply Z.ones_spec_low; lia.
  - apply Z.ones_spec_high; lia.
Qed.

Lemma mask_msb_bit w n i : 0 < w -> 0 <= n -> 0 <= i ->
  Z.testbit (mask_msb w n) i = (i <? w - n).
Proof.
  intros. rewrite mask_msb_value by lia. destruct (Z.leb_spec w n).
  - rewrite Z.bits_0. symmetry; apply Z.ltb_ge; lia.
  - apply ones_bit; lia.
Qed.

Lemma mask_lsb_bit w n i : 0 < w -> 0 <= n -> 0 <= i ->
  Z.testbit (mask_lsb w n) i = (n <=? i) && (i <? w).
Proof.
  intros. unfold mask_lsb. destruct (Z.leb_spec w n).
  - rewrite Z.bits_0. destruct (Z.leb_spec n i), (Z.ltb_spec i w); simpl; auto; lia.
  - destruct (Z.ltb_spec i w).
    + rewrite wrap_bit, Z.shiftl_spec by lia. rewrite andb_true_r.
      destruct (Z.leb_spec n i).
      * rewrite ones_bit by lia. apply Z.ltb_lt; lia.
      * apply Z.testbit_neg_r; lia.
    + rewrite wrap_bit_high by lia. rewrite andb_false_r; auto.
Qed.

Lemma mask_range w n : 0 < w -> 0 <= mask_msb w n < 2 ^ w /\ 0 <= mask_lsb w n < 2 ^ w.
Proof.
  intros. unfold mask_msb, mask_lsb. pose proof (pow_pos w).
  destruct (w <=? n); split; try lia; apply wrap_range; lia.
Qed.

Lemma one_shl_ok w b : std_width w -> 0 <= b < w -> one_shl w b = Ok (2 ^ b).
Proof.
  intros HW H. unfold one_shl.
  replace ((0 <=? b) && (b <? Z.max w 32)) with true.
  2:{ symmetry. apply andb_true_iff. split; [apply Z.leb_le | apply Z.ltb_lt]; lia. }
  rewrite Z.shiftl_1_l, wrap_id; auto.
  split; [pose proof (pow_pos b); lia|]. apply Z.pow_lt_mono_r; lia.
Qed.

Lemma bits_mask_ok w b bs : std_width w -> (forall x, In x (b :: bs) -> 0 <= x < w) ->
  exists m, bits_mask w b bs = Ok m /\
    forall i, 0 <= i -> (Z.testbit m i = true <-> In i (b :: bs)).
Proof.
  intros HW. induction bs as [|x t IH]; intros H.
  - exists (2 ^ b). simpl. rewrite one_shl_ok by (auto; apply H; simpl; auto).
    split; auto. intros i Hi.
    assert (0 <= b < w) by (apply H; simpl; auto).
    rewrite Z.pow2_bits_eqb, Z.eqb_eq by lia. simpl. intuition.
  - destruct IH as (m & E & B).
    { intros y [<-|Hy]; apply H; simpl; auto. }
    simpl. rewrite one_shl_ok by (auto; apply H; simpl; auto). simpl. rewrite E. simpl.
    exists (Z.lor (2 ^ x) m). split; auto. intros i Hi.
    assert (0 <= x < w) by (apply H; simpl; auto).
    rewrite Z.lor_spec, orb_true_iff, B by auto.
    rewrite Z.pow2_bits_eqb, Z.eqb_eq by lia. simpl. intuition.
Qed.

Lemma bool_iff_eq (a b : bool) : (a = true <-> b = true) -> a = b.
Proof. destruct a, b; intuition. Qed.

Definition memb (i : Z) (l : list Z) : bool := existsb (Z.eqb i) l.
Lemma memb_in i l : memb i l = true <-> In i l.
Proof.
  unfold memb. rewrite existsb_exists. split.
  - intros (x & Hx & E). apply Z.eqb_eq in E. subst; auto.
  - intros. exists i. split; auto. apply Z.eqb_refl.
Qed.

Lemma bits_ops_ok w v b bs : std_width w -> 0 <= v < 2 ^ w ->
  (forall x, In x (b :: bs) -> 0 <= x < w) ->
  (exists r, set_bits w v b bs = Ok r /\ 0 <= r < 2 ^ w /\
     forall i, 0 <= i < w -> Z.testbit r i = Z.testbit v i || memb i (b :: bs)) /\
  (exists r, unset_bits w v b bs = Ok r /\ 0 <= r < 2 ^ w /\
     forall i, 0 <= i < w -> Z.testbit r i = Z.testbit v i && negb (memb i (b :: bs))) /\
  (exists r, get_bits w v b bs = Ok r /\ 0 <= r < 2 ^ w /\
     forall i, 0 <= i < w -> Z.testbit r i = Z.testbit v i && memb i (b :: bs)).
Proof.
  intros HW Hv H. destruct (bits_mask_ok w b bs HW H) as (m & E & B).
  assert (W0 : 0 < w) by (destruct HW as [-> | [-> | [-> | ->]]]; lia).
  assert (B' : forall i, 0 <= i -> Z.testbit m i = memb i (b :: bs)).
  { intros. apply bool_iff_eq. rewrite B, memb_in by auto. reflexivity. }
  unfold set_bits, unset_bits, get_bits. rewrite E. simpl.
  split; [|split]; (eexists; split; [reflexivity|]; split; [apply wrap_range; lia|]);
    intros i Hi; rewrite wrap_bit by auto.
  - rewrite Z.lor_spec, B'; auto; lia.
  - rewrite Z.land_spec, Z.lnot_spec, B'; auto; lia.
  - rewrite Z.land_spec, B'; auto; lia.
Qed.

Lemma make_mask_bit bits : forall bit i,
  Z.testbit (make_mask bit bits) i = existsb (fun m => Z.testbit m i) (bit :: bits).
Proof.
  unfold make_mask. induction bits as [|m t IH]; intros bit i.
  - simpl. rewrite orb_false_r; auto.
  - simpl fold_left. rewrite IH. simpl. rewrite Z.lor_spec. rewrite orb_assoc; auto.
Qed.

Lemma land_zero_iff a b : 0 <= a ->
  (Z.land a b = 0 <-> forall i, 0 <= i -> Z.testbit a i && Z.testbit b i = false).
Proof.
  intros Ha. split.
  - intros E i Hi. rewrite <- Z.land_spec, E. apply Z.bits_0.
  - intros H. apply Z.bits_inj'. intros i Hi. rewrite Z.land_spec, Z.bits_0. auto.
Qed.

Lemma are_set_ok value mask masks : 0 <= value ->
  are_set value mask masks = true <->
  exists i m, 0 <= i /\ In m (mask :: masks) /\ Z.testbit m i = true /\ Z.testbit value i = true.
Proof.
  intros Hv. unfold are_set. rewrite negb_true_iff, Z.eqb_neq. split.
  - intros NE.
    assert (P : 0 < Z.land value (make_mask mask masks)).
    { pose proof (proj2 (Z.land_nonneg value (make_mask mask masks)) (or_introl Hv)). lia. }
    set (x := Z.land _ _) in *.
    exists (Z.log2 x).
    pose proof (Z.bit_log2 x P) as L. unfold x in L.
    rewrite Z.land_spec in L. apply andb_true_iff in L as [L1 L2].
    rewrite make_mask_bit in L2. apply existsb_exists in L2 as (m & Hm & L2).
    exists m. repeat split; auto. apply Z.log2_nonneg.
  - intros (i & m & Hi & Hm & B1 & B2) E.
    assert (Z.testbit (Z.land value (make_mask mask masks)) i = true).
    { rewrite Z.land_spec, B2, make_mask_bit. apply existsb_exists. exists m; auto. }
    rewrite E, Z.bits_0 in H. discriminate.
Qed.

(** * daw::bitset *)
Lemma bs_new_wf n : 2 < n -> bs_wf n (bs_new n).
Proof.
  intros. unfold bs_wf, bs_new. split; auto. split; [apply repeat_length|].
  apply Forall_forall. intros x Hx. apply repeat_spec in Hx as ->. lia.
Qed.

Lemma bs_limb_lt n m i : bs_wf n m -> 0 <= i < n -> (bs_limb i < length m)%nat.
Proof.
  intros (Hn & -> & _) Hi. unfold bs_limb.
  assert (i / 32 <= (n - 1) / 32) by (apply Z.div_le_mono; lia).
  assert (0 <= i / 32) by (apply Z.div_pos; lia). lia.
Qed.

Lemma bs_mask_value i : bs_mask i = 2 ^ (i mod 32).
Proof.
  unfold bs_mask. rewrite Z.shiftl_1_l. apply wrap_id.
  pose proof (Z.mod_pos_bound i 32 ltac:(lia)).
  split; [pose proof (pow_pos (i mod 32)); lia|]. apply Z.pow_lt_mono_r; lia.
Qed.

(** Bit [i] of the limb array. *)
Definition bs_bit (m : list Z) (i : Z) : bool := Z.testbit (nth (bs_limb i) m 0) (i mod 32).

Lemma bs_test_eq n m i : bs_wf n m -> 0 <= i < n -> bs_test m i = Ok (bs_bit m i).
Proof.
  intros W Hi. pose proof (bs_limb_lt n m i W Hi) as L.
  unfold bs_test, rd, bs_bit. rewrite (nth_error_nth' m 0 L). simpl. f_equal.
  rewrite bs_mask_value. set (x := nth _ _ _).
  pose proof (Z.mod_pos_bound i 32 ltac:(lia)).
  apply bool_iff_eq. rewrite negb_true_iff, Z.eqb_neq. split.
  - intros NE. destruct (Z.testbit x (i mod 32)) eqn:T; auto. exfalso. apply NE.
    apply Z.bits_inj'. intros j Hj. rewrite Z.land_spec, Z.pow2_bits_eqb, Z.bits_0 by lia.
    destruct (Z.eqb_spec (i mod 32) j); [subst; rewrite T|]; rewrite ?andb_false_r; auto.
  - intros T E. assert (Z.testbit (Z.land x (2 ^ (i mod 32))) (i mod 32) = true).
    { rewrite Z.land_spec, T, Z.pow2_bits_eqb, Z.eqb_refl by lia. auto. }
    rewrite E, Z.bits_0 in H0. discriminate.
Qed.

Lemma nth_upd {A} (d : A) l i x : forall j, (i < length l)%nat ->
  nth j (upd l i x) d = if (j =? i)%nat then x else nth j l d.
Proof.
  revert i. induction l as [|h t IH]; simpl; intros i j Hi; [lia|].
  destruct i as [|i], j as [|j]; simpl; auto. apply IH. lia.
Qed.

Lemma upd_Forall {A} (P : A -> Prop) l i x : P x -> Forall P l -> Forall P (upd l i x).
Proof.
  revert i. induction l as [|h t IH]; simpl; intros i Hx F; auto. inv F.
  destruct i; constructor; auto.
Qed.

Lemma upd_wf n m i x : bs_wf n m -> 0 <= x < 2 ^ 32 -> bs_wf n (upd m i x).
Proof.
  intros (H1 & H2 & H3) Hx. split; auto. split; [rewrite upd_length; auto|].
  apply upd_Forall; auto.
Qed.

Lemma limb_range n m i : bs_wf n m -> 0 <= i < n -> 0 <= nth (bs_limb i) m 0 < 2 ^ 32.
Proof.
  intros W Hi. pose proof (bs_limb_lt n m i W Hi). destruct W as (_ & _ & F).
  rewrite Forall_forall in F. apply F, nth_In; auto.
Qed.

(** Positions in the same limb with the same residue coincide. *)
Lemma bs_pos_inj i j : 0 <= i -> 0 <= j -> bs_limb i = bs_limb j -> i mod 32 = j mod 32 -> i = j.
Proof.
  unfold bs_limb. intros Hi Hj E1 E2.
  assert (0 <= i / 32) by (apply Z.div_pos; lia).
  assert (0 <= j / 32) by (apply Z.div_pos; lia).
  assert (i / 32 = j / 32) by lia.
  rewrite (Z_div_mod_eq_full i 32), (Z_div_mod_eq_full j 32). lia.
Qed.

Lemma bs_set_ok n m i : bs_wf n m -> 0 <= i < n ->
  exists m', bs_set m i = Ok m' /\ bs_wf n m' /\
    forall j, 0 <= j < n -> bs_bit m' j = if j =? i then true else bs_bit m j.
Proof.
  intros W Hi. pose proof (bs_limb_lt n m i W Hi) as L. pose proof (limb_range n m i W Hi) as R.
  unfold bs_set, rd, wr. rewrite (nth_error_nth' m 0 L). simpl.
  destruct (Nat.ltb_spec (bs_limb i) (length m)); [|lia].
  eexists. split; [reflexivity|]. rewrite bs_mask_value.
  pose proof (Z.mod_pos_bound i 32 ltac:(lia)).
  split.
  - apply upd_wf; auto. split.
    + apply Z.lor_nonneg. split; [lia|]. pose proof (pow_pos (i mod 32)); lia.
    + apply range_of_bits; [lia| |].
      * apply Z.lor_nonneg. split; [lia|]. pose proof (pow_pos (i mod 32)); lia.
      * intros k Hk. rewrite Z.lor_spec, (high_bit 32) by lia.
        rewrite Z.pow2_bits_eqb by lia. simpl. apply Z.eqb_neq. lia.
  - intros j Hj. unfold bs_bit. rewrite nth_upd by auto.
    destruct (Nat.eqb_spec (bs_limb j) (bs_limb i)) as [E|E].
    + rewrite E. rewrite Z.lor_spec, Z.pow2_bits_eqb by lia.
      destruct (Z.eqb_spec j i).
      * subst. rewrite Z.eqb_refl. apply orb_true_r.
      * replace (i mod 32 =? j mod 32) with false; [apply orb_false_r|].
        symmetry. apply Z.eqb_neq. intros E2. apply n0. apply bs_pos_inj; auto; lia.
    + destruct (Z.eqb_spec j i); [subst; congruence|auto].
Qed.

(** What unset really does: it also clears the bit [i mod 4] of the same limb. *)
Lemma bs_unset_ok n m i : bs_wf n m -> 0 <= i < n ->
  exists m', bs_unset m i = Ok m' /\ bs_wf n m' /\
    forall j, 0 <= j < n ->
      bs_bit m' j = if (j =? i) || (j =? 32 * (i / 32) + i mod 4) then false else bs_bit m j.
Proof.
  intros W Hi. set (q := 32 * (i / 32) + i mod 4).
  assert (Eq : q = 32 * (i / 32) + i mod 4) by reflexivity. clearbody q. pose proof (bs_limb_lt n m i W Hi) as L. pose proof (limb_range n m i W Hi) as R.
  unfold bs_unset, rd, wr. rewrite (nth_error_nth' m 0 L). simpl.
  destruct (Nat.ltb_spec (bs_limb i) (length m)); [|lia]. simpl.
  set (x := nth (bs_limb i) m 0) in *.
  set (y := Z.land x _).
  assert (L2 : (bs_limb i < length (upd m (bs_limb i) y))%nat) by (rewrite upd_length; auto).
  rewrite (nth_error_nth' _ 0 L2). simpl. rewrite nth_upd, Nat.eqb_refl by auto.
  destruct (Nat.ltb_spec (bs_limb i) (length (upd m (bs_limb i) y))); [|lia].
  pose proof (Z.mod_pos_bound i 32 ltac:(lia)) as M32.
  pose proof (Z.mod_pos_bound i 4 ltac:(lia)) as M4.
  assert (Yr : 0 <= y < 2 ^ 32).
  { unfold y. split; [apply Z.land_nonneg; lia|].
    apply range_of_bits; [lia|apply Z.land_nonneg; lia|].
    intros. rewrite Z.land_spec, (high_bit 32) by lia. auto. }
  eexists. split; [reflexivity|]. split.
  - apply upd_wf; [apply upd_wf; auto|]. split; [apply Z.land_nonneg; lia|].
    apply range_of_bits; [lia|apply Z.land_nonneg; lia|].
    intros. rewrite Z.land_spec, (high_bit 32) by lia. auto.
  - intros j Hj. unfold bs_bit. rewrite nth_upd by auto.
    pose proof (Z.mod_pos_bound j 32 ltac:(lia)) as J32.
    assert (D1 : 0 <= i / 32) by (apply Z.div_pos; lia).
    assert (D2 : 0 <= j / 32) by (apply Z.div_pos; lia).
    pose proof (Z_div_mod_eq_full i 32) as EI. pose proof (Z_div_mod_eq_full j 32) as EJ.
    destruct (Nat.eqb_spec (bs_limb j) (bs_limb i)) as [E|E].
    + assert (ED : j / 32 = i / 32) by (unfold bs_limb in E; lia).
      rewrite E. fold x. unfold y.
      rewrite !Z.land_spec, !wrap_bit, !Z.lnot_spec, bs_mask_value, wrap_bit, Z.shiftl_1_l by lia.
      rewrite !Z.pow2_bits_eqb by lia.
      assert (Q1 : (i mod 32 =? j mod 32) = (j =? i)).
      { apply bool_iff_eq. rewrite !Z.eqb_eq. lia. }
      assert (Q2 : (i mod 4 =? j mod 32) = (j =? q)).
      { apply bool_iff_eq. rewrite !Z.eqb_eq. lia. }
      rewrite Q1, Q2. destruct (j =? i), (j =? q); simpl;
        repeat rewrite ?andb_true_r, ?andb_false_r; auto.
    + rewrite nth_upd by auto. destruct (Nat.eqb_spec (bs_limb j) (bs_limb i)); [congruence|].
      assert (NE : j / 32 <> i / 32) by (unfold bs_limb in E; intros Q; rewrite Q in E; auto).
      destruct (Z.eqb_spec j i); [subst; congruence|].
      destruct (Z.eqb_spec j q); simpl; auto.
      exfalso. apply NE. symmetry. apply Z.div_unique with (i mod 4); lia.
Qed.

Lemma bs_new_bit n i : bs_bit (bs_new n) i = false.
Proof.
  unfold bs_bit, bs_new. 
  assert (E : nth (bs_limb i) (repeat 0 (Z.to_nat ((n - 1) / 32 + 1))) 0 = 0).
  { destruct (nth_in_or_default (bs_limb i) (repeat 0 (Z.to_nat ((n - 1) / 32 + 1))) 0) as [H|H]; auto.
    apply repeat_spec in H; auto. }
  rewrite E. apply Z.bits_0.
Qed.

Lemma masks_ok w n : 0 < w -> 0 <= n ->
  (0 <= mask_msb w n < 2 ^ w /\ forall i, 0 <= i < w -> (Z.testbit (mask_msb w n) i = true <-> i < w - n)) /\
  (0 <= mask_lsb w n < 2 ^ w /\ forall i, 0 <= i < w -> (Z.testbit (mask_lsb w n) i = true <-> n <= i)).
Proof.
  intros Hw Hn. destruct (mask_range w n Hw) as [R1 R2].
  split; split; auto; intros i Hi.
  - rewrite mask_msb_bit by lia. apply Z.ltb_lt.
  - rewrite mask_lsb_bit by lia. rewrite andb_true_iff, Z.leb_le, Z.ltb_lt. lia.
Qed.

Lemma bits_ops_in w v b bs : std_width w -> 0 <= v < 2 ^ w ->
  (forall x, In x (b :: bs) -> 0 <= x < w) ->
  exists s u g,
    set_bits w v b bs = Ok s /\ unset_bits w v b bs = Ok u /\ get_bits w v b bs = Ok g /\
    0 <= s < 2 ^ w /\ 0 <= u < 2 ^ w /\ 0 <= g < 2 ^ w /\
    forall i, 0 <= i < w ->
      (In i (b :: bs) ->
         Z.testbit s i = true /\ Z.testbit u i = false /\ Z.testbit g i = Z.testbit v i) /\
      (~ In i (b :: bs) ->
         Z.testbit s i = Z.testbit v i /\ Z.testbit u i = Z.testbit v i /\ Z.testbit g i = false).
Proof.
  intros HW Hv H.
  destruct (bits_ops_ok w v b bs HW Hv H) as ((s & E1 & R1 & B1) & (u & E2 & R2 & B2) & (g & E3 & R3 & B3)).
  exists s, u, g. do 6 (split; [assumption|]). intros i Hi. rewrite B1, B2, B3 by auto. split; intros M.
  - apply memb_in in M. rewrite M. simpl. rewrite orb_true_r, andb_false_r, andb_true_r. auto.
  - assert (M' : memb i (b :: bs) = false).
    { destruct (memb i (b :: bs)) eqn:E; auto. apply memb_in in E. contradiction. }
    rewrite M'. simpl. rewrite orb_false_r, andb_false_r, andb_true_r. auto.
Qed.

Lemma bs_new_ok n : 2 < n -> bs_wf n (bs_new n) /\
  forall i, 0 <= i < n -> bs_test (bs_new n) i = Ok false.
Proof.
  intros H. pose proof (bs_new_wf n H). split; auto. intros i Hi.
  rewrite (bs_test_eq n) by auto. rewrite bs_new_bit. auto.
Qed.

Lemma bs_set_test n m i : bs_wf n m -> 0 <= i < n ->
  exists m', bs_set m i = Ok m' /\ bs_wf n m' /\ bs_test m' i = Ok true /\
    forall j, 0 <= j < n -> j <> i -> bs_test m' j = bs_test m j.
Proof.
  intros W Hi. destruct (bs_set_ok n m i W Hi) as (m' & E & W' & B).
  exists m'. split; auto. split; auto. split.
  - rewrite (bs_test_eq n), B, Z.eqb_refl by auto. auto.
  - intros j Hj NE. rewrite !(bs_test_eq n), B by auto.
    destruct (Z.eqb_spec j i); [congruence|auto].
Qed.

Lemma bs_set_many_from n l : forall m, bs_wf n m -> (forall x, In x l -> 0 <= x < n) ->
  exists m', fold_left (fun r x => m <- r ;; bs_set m x) l (Ok m) = Ok m' /\ bs_wf n m' /\
    forall j, 0 <= j < n -> bs_bit m' j = bs_bit m j || memb j l.
Proof.
  induction l as [|x t IH]; intros m W H.
  - exists m. simpl. repeat split; auto; try apply W. intros. rewrite orb_false_r; auto.
  - destruct (bs_set_ok n m x W) as (m1 & E1 & W1 & B1); [apply H; simpl; auto|].
    destruct (IH m1 W1) as (m2 & E2 & W2 & B2); [intros; apply H; simpl; auto|].
    exists m2. simpl fold_left. rewrite E1. split; auto. split; auto.
    intros j Hj. rewrite B2, B1 by auto. unfold memb. simpl.
    destruct (j =? x); simpl; rewrite ?orb_true_r; auto.
Qed.

Lemma bs_set_many n l : 2 < n -> (forall x, In x l -> 0 <= x < n) ->
  exists m, fold_left (fun r x => m <- r ;; bs_set m x) l (Ok (bs_new n)) = Ok m /\
    forall j, 0 <= j < n -> exists b, bs_test m j = Ok b /\ (b = true <-> In j l).
Proof.
  intros Hn H. destruct (bs_set_many_from n l (bs_new n) (bs_new_wf n Hn) H) as (m & E & W & B).
  exists m. split; auto. intros j Hj. exists (bs_bit m j). split; [apply (bs_test_eq n); auto|].
  rewrite B, bs_new_bit by auto. simpl. apply memb_in.
Qed.

Lemma bs_unset_test n m i : bs_wf n m -> 0 <= i < n ->
  exists m', bs_unset m i = Ok m' /\ bs_wf n m' /\ bs_test m' i = Ok false /\
    forall j, 0 <= j < n -> j <> i ->
      bs_test m' j = if j =? 32 * (i / 32) + i mod 4 then Ok false else bs_test m j.
Proof.
  intros W Hi. destruct (bs_unset_ok n m i W Hi) as (m' & E & W' & B).
  exists m'. split; auto. split; auto. split.
  - rewrite (bs_test_eq n), B, Z.eqb_refl by auto. auto.
  - intros j Hj NE. rewrite !(bs_test_eq n), B by auto.
    destruct (Z.eqb_spec j i); [congruence|]. rewrite orb_false_l.
    destruct (j =? _); auto.
Qed.

Lemma bs_unset_bad :
  exists n m i j m', bs_wf n m /\ 0 <= i < n /\ 0 <= j < n /\ j <> i /\
    bs_unset m i = Ok m' /\ bs_test m j = Ok true /\ bs_test m' j = Ok false.
Proof.
  exists 32, [0xFF], 5, 1, [0xDD]. split.
  - split; [lia|]. split; [reflexivity|]. repeat constructor; lia.
  - repeat split; try lia; reflexivity.
Qed.

Lemma network_to_host_bad :
  exists T v, std_width (width T) /\ fits T v /\
    network_to_host_endian little T (to_big_endian little T v) <> v.
Proof.
  exists u32, 1. repeat split; unfold std_width; simpl; auto; vm_compute; congruence.
Qed.

Lemma to_native_bad :
  (exists T v, std_width (width T) /\ fits T v /\
    to_native_endian little big T (to_big_endian little T v) <> v) /\
  (exists T v, std_width (width T) /\ fits T v /\
    to_native_endian big little T (to_little_endian big T v) <> v).
Proof.
  split; exists u32, 1; repeat split; unfold std_width; simpl; auto; vm_compute; congruence.
Qed.

Lemma to_conversions native T v : std_width (width T) -> fits T v ->
  to_big_endian native T (to_big_endian native T v) = v /\
  to_little_endian native T (to_little_endian native T v) = v /\
  to_little_endian little T v = v /\ to_big_endian big T v = v /\
  bytes_reversed (width T) v (to_big_endian little T v) /\
  bytes_reversed (width T) v (to_little_endian big T v).
Proof.
  intros W F. destruct (swap_bytes_ok T v W F) as [F' B].
  unfold to_big_endian, to_little_endian.
  destruct native; simpl; repeat split; auto using swap_bytes_twice.
Qed.

Lemma round_trip native source T v : std_width (width T) -> fits T v ->
  (source = native ->
     to_native_endian native source T
       (match source with little => to_little_endian native T v | big => to_big_endian native T v end) = v) /\
  (source <> native ->
     bytes_reversed (width T) v (to_native_endian native source T
       (match source with little => to_little_endian native T v | big => to_big_endian native T v end))) /\
  (native = big -> network_to_host_endian native T (to_big_endian native T v) = v).
Proof.
  intros W F. destruct (swap_bytes_ok T v W F) as [F' B].
  unfold to_native_endian, network_to_host_endian, to_big_endian, to_little_endian.
  destruct native, source; simpl; repeat split; auto; intros; congruence.
Qed.

Lemma c40_unchecked_masks_l :
  forall w n, 0 < w -> 0 <= n ->
  (n < Z.max w 32 -> get_left_mask w n = Ok (mask_msb w n) /\ get_right_mask w n = Ok (mask_lsb w n)) /\
  (Z.max w 32 <= n -> get_left_mask w n = UB /\ get_right_mask w n = UB).
Proof.
  intros w n W N. unfold get_left_mask, get_right_mask, mask_msb, mask_lsb. split; intros H.
  - replace (n <? Z.max w 32) with true by lia. destruct (Z.leb_spec w n) as [L | L]; [|split; reflexivity].
    pose proof (Z.pow_le_mono_r 2 w n ltac:(lia) L) as P. pose proof (Z.pow_pos_nonneg 2 w ltac:(lia) ltac:(lia)) as P0. unfold wrap. split; f_equal.
    + rewrite Z.shiftr_div_pow2 by lia. rewrite Z.div_small by lia. apply Z.mod_0_l. lia.
    + rewrite Z.shiftl_mul_pow2 by lia. replace n with (n - w + w) by lia. rewrite Z.pow_add_r by lia. rewrite Z.mul_assoc. apply Z.mod_mul. lia.
  - replace (n <? Z.max w 32) with false by lia. split; reflexivity.
Qed.

Lemma c43_assign_l :
  forall n m i b, bs_wf n m -> 0 <= i < n ->
  exists m', bs_assign m i b = Ok m' /\ bs_wf n m' /\ bs_test m' i = Ok b.
Proof.
  intros n m i b W H. unfold bs_assign. destruct b.
  - destruct (bs_set_test n m i W H) as (m' & E & W' & T & _). eauto.
  - destruct (bs_unset_test n m i W H) as (m' & E & W' & T & _). eauto.
Qed.
