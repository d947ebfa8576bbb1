(** Proofs about MiscTools.v. *)
From Verif Require Import Common Ints BitsModel BitsProofs SpecBits SpecMath SpecParse BitQueue BitQueueProofs MiscTools SpecMiscTools.
Open Scope Z_scope.

(** * any_if *)
Lemma any_if_all l : Forall holds_true l -> any_if l = (Ok true, length l).
Proof. induction 1 as [|a l A _ IH]; [reflexivity|]. cbn. rewrite IH. destruct A as [-> | ->]; reflexivity. Qed.
Lemma any_if_first l1 a l2 : Forall holds_true l1 -> ~ holds_true a ->
  any_if (l1 ++ a :: l2) = (do_test a, S (length l1)).
Proof.
  intros F A. induction F as [|b l B _ IH].
  - cbn. destruct (do_test a) as [[|]| | |] eqn:E; try reflexivity. exfalso. apply A. destruct a; cbn in E; [left|right]; congruence.
  - cbn [app any_if length]. rewrite IH. destruct B as [-> | ->]; reflexivity.
Qed.

(** * from_string *)
Lemma span_app ds rest : Forall digit ds -> (forall c r, rest = c :: r -> ~ digit c) -> span_digits (ds ++ rest) = ds.
Proof.
  intros F R. induction F as [|c ds C _ IH]; cbn [app span_digits].
  - destruct rest as [|c r]; [reflexivity|]. cbn [span_digits].
    destruct ((48 <=? c) && (c <=? 57)) eqn:E; [|reflexivity]. exfalso. apply (R c r eq_refl). unfold digit. lia.
  - unfold digit in C. replace ((48 <=? c) && (c <=? 57)) with true by (symmetry; lia). now rewrite IH.
Qed.
Lemma span_spec s : exists rest, s = span_digits s ++ rest /\ Forall digit (span_digits s) /\ (forall c r, rest = c :: r -> ~ digit c).
Proof.
  induction s as [|c s IH]; cbn [span_digits]; [exists []; repeat split; auto; discriminate|].
  destruct ((48 <=? c) && (c <=? 57)) eqn:E.
  - destruct IH as [r [A [B C]]]. exists r. repeat split; [cbn; congruence| |exact C]. constructor; [unfold digit; lia|exact B].
  - exists (c :: s). repeat split; auto. intros c' r Q. injection Q as <- <-. unfold digit. lia.
Qed.
Lemma digits_value_decimal ds : digits_value ds = decimal ds.
Proof.
  unfold digits_value, decimal. generalize 0. induction ds as [|c ds IH]; intro a; cbn [fold_left]; [reflexivity|].
  rewrite IH. f_equal. lia.
Qed.
Lemma decimal_nonneg ds : Forall digit ds -> 0 <= decimal ds.
Proof.
  unfold decimal. intro F. cut (forall a, 0 <= a -> 0 <= fold_left (fun a c => 10 * a + (c - 48)) ds a); [intro H; apply H; lia|].
  induction F as [|c ds C _ IH]; intros a A; cbn [fold_left]; [exact A|]. apply IH. unfold digit in C. lia.
Qed.
Lemma digits_no_minus ds : Forall digit ds -> ~ In 45 ds.
Proof. intros F J. rewrite Forall_forall in F. specialize (F _ J). unfold digit in F. lia. Qed.

Lemma from_string_iff T s v : from_string T s = Some v <-> starts_with_number T s v /\ fits T v.
Proof.
  assert (FS : from_string T s = from_chars T s) by (unfold from_string; now destruct (from_chars T s)). rewrite FS. clear FS. unfold from_chars. split.
  - destruct s as [|c t]; [discriminate|]. destruct ((c =? 45) && signed T) eqn:M.
    + assert (c = 45) by lia. subst c. assert (S : signed T = true) by (destruct (signed T); [reflexivity|discriminate]).
      destruct (span_spec t) as [rest [A [B C]]]. destruct (span_digits t) as [|d ds] eqn:D; [discriminate|].
      destruct ((lowest T <=? _) && _) eqn:Rg; [|discriminate]. intro Q. injection Q as <-. rewrite digits_value_decimal in *.
      split; [|unfold fits; lia]. exists (45 :: d :: ds), rest. repeat split; [cbn; cbn in A; congruence| |congruence|exact C].
      exists (d :: ds). split; [discriminate|]. split; [exact B|]. right. split; reflexivity.
    + destruct (span_spec (c :: t)) as [rest [A [B C]]]. destruct (span_digits (c :: t)) as [|d ds] eqn:D; [discriminate|].
      destruct ((lowest T <=? _) && _) eqn:Rg; [|discriminate]. intro Q. injection Q as <-. rewrite digits_value_decimal in *.
      split; [|unfold fits; lia]. exists (d :: ds), rest. repeat split; [exact A| | |exact C].
      * exists (d :: ds). split; [discriminate|]. split; [exact B|]. left. split; reflexivity.
      * intros _. apply digits_no_minus, B.
  - intros [[t [rest [-> [[ds [N [F [[-> ->] | [-> ->]]]]] [U R]]]]] Fi]; unfold fits in Fi.
    + destruct ds as [|d ds]; [congruence|].
      assert (d <> 45) by (inversion F as [|? ? Dd _]; unfold digit in Dd; lia).
      cbn [app]. replace ((d =? 45) && signed T) with false by (symmetry; lia).
      change (d :: ds ++ rest) with ((d :: ds) ++ rest). rewrite (span_app _ _ F R), digits_value_decimal.
      replace (_ && _) with true by (symmetry; lia). reflexivity.
    + destruct (signed T) eqn:S; [|exfalso; apply (U eq_refl); left; reflexivity]. cbn [app]. cbn [Z.eqb Pos.eqb andb].
      rewrite (span_app _ _ F R). destruct ds as [|d ds]; [congruence|]. rewrite digits_value_decimal.
      replace (_ && _) with true by (symmetry; lia). reflexivity.
Qed.

(** * Nibbles *)
Lemma hex_fold l a : fold_left (fun a d => 16 * a + d) l a = a * 16 ^ Z.of_nat (length l) + hex_value l.
Proof.
  unfold hex_value. revert a. induction l as [|d l IH]; intro a; cbn [fold_left length]; [rewrite Z.pow_0_r; lia|].
  rewrite IH, (IH (16 * 0 + d)). rewrite Nat2Z.inj_succ, Z.pow_succ_r by lia. ring.
Qed.
Lemma hex_snoc l d : hex_value (l ++ [d]) = 16 * hex_value l + d.
Proof. unfold hex_value. now rewrite fold_left_app. Qed.
Definition nbits (l : list Z) : list bool := flat_map (low_bits 4) l.
Lemma nbits_app l1 l2 : nbits (l1 ++ l2) = nbits l1 ++ nbits l2.
Proof. apply flat_map_app. Qed.
Lemma nbits_length l : length (nbits l) = (4 * length l)%nat.
Proof. induction l as [|d l IH]; [reflexivity|]. cbn [nbits flat_map]. rewrite app_length, low_bits_length. fold (nbits l). rewrite IH. cbn [length]. lia. Qed.
Lemma val_nbits l : Forall (fun d => 0 <= d < 16) l -> val (nbits l) = hex_value l.
Proof.
  induction 1 as [|d l D _ IH]; [reflexivity|].
  unfold nbits. cbn [flat_map]. fold (nbits l). rewrite val_app, IH, val_low_bits, nbits_length.
  unfold hex_value at 2. cbn [fold_left]. rewrite hex_fold.
  rewrite Z.mod_small by (change (2 ^ Z.of_nat 4) with 16; exact D).
  replace (2 ^ Z.of_nat (4 * length l)) with (16 ^ Z.of_nat (length l)); [ring|].
  rewrite Nat2Z.inj_mul, Z.pow_mul_r by lia. reflexivity.
Qed.
Lemma low_bits_mod n k v : (n <= k)%nat -> low_bits n (v mod 2 ^ Z.of_nat k) = low_bits n v.
Proof.
  induction n as [|n IH]; intro L; [reflexivity|]. cbn [low_bits]. rewrite IH by lia. f_equal.
  rewrite Z.mod_pow2_bits_low by lia. reflexivity.
Qed.
Lemma low_bits_app m n v : low_bits (m + n) v = low_bits m (v / 2 ^ Z.of_nat n) ++ low_bits n v.
Proof.
  induction m as [|m IH]; [reflexivity|]. cbn [Nat.add low_bits app]. rewrite IH. f_equal.
  rewrite <- Z.shiftr_div_pow2, Z.shiftr_spec by lia. f_equal. lia.
Qed.
Lemma nibbles_bits n v : nbits (nibbles n v) = low_bits (4 * n) v.
Proof.
  induction n as [|n IH]; [reflexivity|]. cbn [nibbles]. unfold nbits. cbn [flat_map]. fold (nbits (nibbles n v)). rewrite IH.
  replace (4 * Datatypes.S n)%nat with (4 + 4 * n)%nat by lia. rewrite low_bits_app. f_equal.
  change 16 with (2 ^ Z.of_nat 4) at 2. rewrite low_bits_mod by lia. f_equal. f_equal.
  rewrite Nat2Z.inj_mul, Z.pow_mul_r by lia. reflexivity.
Qed.
Lemma nibbles_range n v : Forall (fun d => 0 <= d < 16) (nibbles n v).
Proof. induction n; cbn; constructor; auto. apply Z.mod_pos_bound. lia. Qed.
Lemma nibbles_length n v : length (nibbles n v) = n.
Proof. induction n; cbn; auto. Qed.

Definition nholds (qw : Z) (q : bq) (l : list Z) : Prop :=
  Forall (fun d => 0 <= d < 16) l /\ holds qw q (nbits l).
Lemma Forall_app_l {A} (P : A -> Prop) l1 l2 : Forall P (l1 ++ l2) -> Forall P l1 /\ Forall P l2.
Proof. apply Forall_app. Qed.

Section NQ.
  Variables (qw vw : Z) (native source : endian).
  Hypothesis HV : vw = 8 \/ vw = 16.
  Hypothesis HQ : vw <= qw <= 64.
  Hypothesis HM : qw mod 4 = 0.
  Lemma small4 n : 4 * Z.of_nat n <= vw -> sz (Z.of_nat n * 4) = Z.of_nat (4 * n).
  Proof. intro H. rewrite sz_small; [lia|]. lia. Qed.
  Lemma cap_bits l : (l <= Z.to_nat (nq_capacity qw))%nat <-> 4 * Z.of_nat l <= qw.
  Proof. unfold nq_capacity. pose proof (Z.div_mod qw 4 ltac:(lia)). lia. Qed.

  Lemma nq_step l op out l' q : stack_step (Z.to_nat (nq_capacity qw)) vw l op out l' -> nholds qw q l ->
    exists q', nq_run qw vw native source q [op] = Ok (out, q') /\ nholds qw q' l'.
  Proof.
    intros St [Fl H]. destruct St as [l v Rv L|l v n Rv Ln L|l1 l2 L|l].
    - destruct (push_back_ok qw vw native source q (nbits l) v 4) as [q' [E H']]; try assumption; try lia.
      { rewrite nbits_length. apply cap_bits in L. lia. }
      exists q'. cbn [nq_run]. unfold nq_push. change 4 with (Z.of_nat 4). rewrite E. split; [reflexivity|].
      split. { apply Forall_app. split; [exact Fl|]. constructor; [apply Z.mod_pos_bound; lia|constructor]. }
      rewrite nbits_app. unfold nbits at 2. cbn [flat_map]. rewrite app_nil_r. change 16 with (2 ^ Z.of_nat 4). rewrite low_bits_mod by lia. exact H'.
    - destruct (push_back_ok qw vw native source q (nbits l) v (4 * n)) as [q' [E H']]; try assumption; try lia.
      { rewrite nbits_length. apply cap_bits in L. lia. }
      exists q'. cbn [nq_run]. unfold nq_push_n. rewrite small4 by exact Ln. rewrite E. split; [reflexivity|].
      split. { apply Forall_app. split; [exact Fl|apply nibbles_range]. }
      now rewrite nbits_app, nibbles_bits.
    - apply Forall_app_l in Fl. destruct Fl as [F1 F2]. rewrite nbits_app in H.
      destruct (pop_front_ok qw vw q (nbits l1) (nbits l2)) as [q' [E H']]; try assumption; try (rewrite ?nbits_length; lia).
      exists q'. cbn [nq_run]. unfold nq_pop_front. rewrite small4 by exact L. rewrite nbits_length in E. rewrite E. cbn [bind].
      rewrite val_nbits by exact F2. split; [reflexivity|]. split; assumption.
    - exists bq_empty. split; [reflexivity|]. split; [constructor|]. apply holds_empty. lia.
  Qed.
  Lemma nq_run_cons q op ops out q1 outs q2 : nq_run qw vw native source q [op] = Ok (out, q1) -> nq_run qw vw native source q1 ops = Ok (outs, q2) ->
    nq_run qw vw native source q (op :: ops) = Ok (out ++ outs, q2).
  Proof.
    intros A B. destruct op; cbn [nq_run] in *.
    - destruct (nq_push _ _ _ _ _ _); try discriminate. cbn [bind] in *. injection A as <- <-. exact B.
    - destruct (nq_push_n _ _ _ _ _ _ _); try discriminate. cbn [bind] in *. injection A as <- <-. exact B.
    - destruct (nq_pop_front _ _ _ _) as [[x y]| | |]; try discriminate. cbn [bind] in *. injection A as <- <-. rewrite B. reflexivity.
    - injection A as <- <-. exact B.
  Qed.
  Lemma nq_history l ops outs l' : stack_history (Z.to_nat (nq_capacity qw)) vw l ops outs l' -> forall q, nholds qw q l ->
    exists q', nq_run qw vw native source q ops = Ok (outs, q') /\ nholds qw q' l'.
  Proof.
    induction 1 as [l|l op out l1 ops outs l2 St _ IH]; intros q H; [exists q; split; [reflexivity|exact H]|].
    destruct (nq_step _ _ _ _ _ St H) as [q1 [E1 H1]]. destruct (IH q1 H1) as [q2 [E2 H2]].
    exists q2. split; [|exact H2]. eapply nq_run_cons; eauto.
  Qed.
  Lemma nq_observers q l : nholds qw q l ->
    nq_size q = Z.of_nat (length l) /\ (nq_is_empty q = true <-> l = []) /\
    (nq_full qw q = true <-> length l = Z.to_nat (nq_capacity qw)) /\
    bq_queue q = hex_value l /\
    forall n, (0 <= n < 2 ^ 62)  -> (nq_can_pop q n = true <-> n <= Z.of_nat (length l)).
  Proof.
    intros [F [Hs [Hq Hc]]].
    assert (SZ : nq_size q = Z.of_nat (length l)).
    { unfold nq_size. rewrite Hs, nbits_length, Nat2Z.inj_mul. rewrite Z.mul_comm, Z.div_mul by lia. reflexivity. }
    assert (CP : nq_capacity qw >= 0) by (unfold nq_capacity; apply Z.le_ge, Z.div_pos; lia).
    unfold nq_is_empty, nq_full. rewrite SZ. split; [reflexivity|]. split; [|split; [|split]].
    - rewrite Z.eqb_eq. destruct l; cbn [length]; split; intro Q; try reflexivity; try discriminate; lia.
    - rewrite Z.eqb_eq. lia.
    - rewrite Hq. apply val_nbits, F.
    - intros n Hn. unfold nq_can_pop. rewrite sz_small by lia. rewrite Hs, nbits_length, Z.leb_le. lia.
  Qed.
  Lemma nq_too_many q l v n : nholds qw q l ->
    ((Z.to_nat (nq_capacity qw) <= length l)%nat -> nq_push qw vw native source q v = Throw) /\
    ((length l < n)%nat -> Z.of_nat n < 2 ^ 62 -> nq_pop_front qw vw q (Z.of_nat n) = Throw) /\
    ((Z.to_nat (nq_capacity qw) < length l + n)%nat -> Z.of_nat n < 2 ^ 62 -> nq_push_n qw vw native source q v (Z.of_nat n) = Throw).
  Proof.
    intros [F H].
    destruct (queue_bounds_throw qw vw native source q (nbits l) ltac:(lia) ltac:(lia) H) as [A [B _]].
    assert (Hc : 4 * nq_capacity qw = qw) by (unfold nq_capacity; pose proof (Z.div_mod qw 4 ltac:(lia)); lia).
    rewrite nbits_length in A, B. split; [|split].
    - intro L. unfold nq_push. change 4 with (Z.of_nat 4). apply A. lia.
    - intros L M. unfold nq_pop_front. rewrite sz_small by lia. replace (Z.of_nat n * 4) with (Z.of_nat (4 * n)) by lia. apply B. lia.
    - intros L M. unfold nq_push_n. rewrite sz_small by lia. replace (Z.of_nat n * 4) with (Z.of_nat (4 * n)) by lia. apply A. lia.
  Qed.
End NQ.

(** * skip_until *)
Section SkipUntil.
  Variables (w : Z) (native source : endian).
  Hypothesis HW : w = 8 \/ w = 16.
  Lemma src_bits_length src : Z.of_nat (length (src_bits w src)) = w * Z.of_nat (length src).
  Proof.
    unfold src_bits. induction src as [|x src IH]; [cbn; lia|]. cbn [flat_map]. rewrite app_length, low_bits_length, Nat2Z.inj_add, IH. cbn [length]. lia.
  Qed.
  Lemma valid_bits s bits : st_inv w s bits -> st_valid s = (w <=? Z.of_nat (length bits)).
  Proof.
    intros [_ [l [_ [L ->]]]]. rewrite app_length, Nat2Z.inj_add, src_bits_length. unfold st_valid.
    destruct (st_src s) as [|x src]; symmetry; cbn [length]; [apply Z.leb_gt; rewrite Z.mul_0_r; lia|]. apply Z.leb_le. rewrite Nat2Z.inj_succ, Z.mul_succ_r. pose proof (Z.mul_nonneg_nonneg w (Z.of_nat (length src)) ltac:(lia) ltac:(lia)). lia.
  Qed.
  Lemma pop_w s g rest : st_inv w s (g ++ rest) -> Z.of_nat (length g) = w ->
    exists s', st_pop_bits w native source s w = Ok (val g, s') /\ st_inv w s' rest.
  Proof. intros H L. pose proof (st_pop_ok w native source s g rest HW H ltac:(lia) ltac:(lia)) as P. rewrite L in P. exact P. Qed.
  Lemma concat_bits gs v : none_equal w v gs -> Z.of_nat (length (concat gs)) = w * Z.of_nat (length gs).
  Proof. induction 1 as [|g gs [G _] _ IH]; [cbn; lia|]. cbn [concat length]. rewrite app_length, Nat2Z.inj_add, IH. lia. Qed.
  Lemma st_src_len s bits : st_inv w s bits -> Z.of_nat (length (st_src s)) = Z.of_nat (length bits) / w.
  Proof.
    intros [_ [l [_ [L ->]]]]. rewrite app_length, Nat2Z.inj_add, src_bits_length.
    apply Z.div_unique with (Z.of_nat (length l)); lia.
  Qed.

  Lemma skip_loop_found v g rest : Z.of_nat (length g) = w -> val g = v ->
    forall gs fuel s cur, (length gs + 1 < fuel)%nat -> none_equal w v gs -> cur <> v -> st_inv w s (concat gs ++ g ++ rest) ->
    exists s', skip_until_loop w native source fuel s cur v = Ok (v, s') /\ st_inv w s' rest.
  Proof.
    intros G V. induction gs as [|h gs IH]; intros fuel s cur Fu N C H; (destruct fuel as [|fuel]; [lia|]); cbn [skip_until_loop].
    - rewrite (valid_bits s _ H). replace (_ && _) with true.
      2: { symmetry. cbn [concat app]. rewrite app_length. apply andb_true_intro. split; [apply Z.leb_le; lia|apply negb_true_iff, Z.eqb_neq; exact C]. }
      cbn [concat app] in H. destruct (pop_w s g rest H G) as [s' [E H']]. rewrite E. cbn [bind].
      exists s'. split; [|exact H']. destruct fuel; [cbn [length] in Fu; lia|]. cbn [skip_until_loop]. rewrite V, Z.eqb_refl, andb_false_r. reflexivity.
    - pose proof (Forall_inv N) as [Hl Hv]. pose proof (Forall_inv_tail N) as N'. cbv beta in Hl, Hv. rewrite (valid_bits s _ H). replace (_ && _) with true.
      2: { symmetry. cbn [concat]. rewrite !app_length. apply andb_true_intro. split; [apply Z.leb_le; lia|apply negb_true_iff, Z.eqb_neq; exact C]. }
      cbn [concat] in H. rewrite <- app_assoc in H. destruct (pop_w s h _ H Hl) as [s' [E H']]. rewrite E. cbn [bind].
      apply IH; auto. cbn [length] in Fu. lia.
  Qed.
  Lemma skip_until_found s gs g rest v : none_equal w v gs -> Z.of_nat (length g) = w -> val g = v ->
    st_inv w s (concat gs ++ g ++ rest) -> exists s', skip_until w native source s v = Ok s' /\ st_inv w s' rest.
  Proof.
    intros N G V H. unfold skip_until. destruct gs as [|h gs].
    - destruct (pop_w s g rest H G) as [s' [E H']]. rewrite E. cbn [bind skip_until_loop]. rewrite V, Z.eqb_refl, andb_false_r. cbn [bind negb].
      rewrite Z.eqb_refl. exists s'. split; [reflexivity|exact H'].
    - pose proof (Forall_inv N) as [Hl Hv]. pose proof (Forall_inv_tail N) as N'. cbv beta in Hl, Hv. cbn [concat] in H. rewrite <- app_assoc in H.
      destruct (pop_w s h _ H Hl) as [s1 [E H1]]. rewrite E. cbn [bind].
      destruct (skip_loop_found v g rest G V gs (S (length (st_src s1))) s1 (val h)) as [s2 [E2 H2]]; auto.
      { pose proof (st_src_len s1 _ H1) as Q. rewrite !app_length, !Nat2Z.inj_add, (concat_bits gs _ N'), G in Q.
        replace (w * Z.of_nat (length gs) + (w + Z.of_nat (length rest))) with (Z.of_nat (length rest) + (Z.of_nat (length gs) + 1) * w) in Q by ring.
        rewrite Z.div_add in Q by lia. pose proof (Z.div_pos (Z.of_nat (length rest)) w ltac:(lia) ltac:(lia)). lia. }
      rewrite E2. cbn [bind]. rewrite Z.eqb_refl. exists s2. split; [reflexivity|exact H2].
  Qed.

  Lemma skip_loop_none v rest : Z.of_nat (length rest) < w ->
    forall gs fuel s cur, (length gs < fuel)%nat -> none_equal w v gs -> cur <> v -> st_inv w s (concat gs ++ rest) ->
    exists c s', skip_until_loop w native source fuel s cur v = Ok (c, s') /\ c <> v.
  Proof.
    intros R. induction gs as [|h gs IH]; intros fuel s cur Fu N C H; (destruct fuel as [|fuel]; [lia|]); cbn [skip_until_loop].
    - rewrite (valid_bits s _ H). cbn [concat app]. replace (w <=? _) with false by (symmetry; lia). cbn [andb]. eauto.
    - pose proof (Forall_inv N) as [Hl Hv]. pose proof (Forall_inv_tail N) as N'. cbv beta in Hl, Hv. rewrite (valid_bits s _ H). replace (_ && _) with true.
      2: { symmetry. cbn [concat]. rewrite !app_length. apply andb_true_intro. split; [apply Z.leb_le; lia|apply negb_true_iff, Z.eqb_neq; exact C]. }
      cbn [concat] in H. rewrite <- app_assoc in H. destruct (pop_w s h _ H Hl) as [s' [E H']]. rewrite E. cbn [bind].
      apply IH; auto. cbn [length] in Fu. lia.
  Qed.
  Lemma skip_until_none s gs rest v : none_equal w v gs -> Z.of_nat (length rest) < w ->
    st_inv w s (concat gs ++ rest) -> skip_until w native source s v = Throw.
  Proof.
    intros N R H. unfold skip_until. destruct gs as [|h gs].
    - assert (E : st_pop_bits w native source s w = Throw).
      { replace w with (Z.of_nat (Z.to_nat w)) at 2 by lia. apply st_pop_past_end with (bits := rest); auto; lia. }
      rewrite E. reflexivity.
    - pose proof (Forall_inv N) as [Hl Hv]. pose proof (Forall_inv_tail N) as N'. cbv beta in Hl, Hv. cbn [concat] in H. rewrite <- app_assoc in H.
      destruct (pop_w s h _ H Hl) as [s1 [E H1]]. rewrite E. cbn [bind].
      destruct (skip_loop_none v rest R gs (S (length (st_src s1))) s1 (val h)) as [c [s2 [E2 H2]]]; auto.
      { pose proof (st_src_len s1 _ H1) as Q. rewrite !app_length, !Nat2Z.inj_add, (concat_bits gs _ N') in Q.
        replace (w * Z.of_nat (length gs) + Z.of_nat (length rest)) with (Z.of_nat (length rest) + Z.of_nat (length gs) * w) in Q by ring.
        rewrite Z.div_add in Q by lia. pose proof (Z.div_pos (Z.of_nat (length rest)) w ltac:(lia) ltac:(lia)). lia. }
      rewrite E2. cbn [bind]. replace (c =? v) with false by (symmetry; lia). reflexivity.
  Qed.
End SkipUntil.

(** * visit_as *)
Lemma to_bytes_length n v : length (to_bytes n v) = n.
Proof. revert v. induction n; intro v; cbn; auto. Qed.
Lemma of_to_bytes n v : of_bytes (to_bytes n v) = v mod 256 ^ Z.of_nat n.
Proof.
  revert v. induction n as [|n IH]; intro v; cbn [to_bytes of_bytes]; [now rewrite Z.mod_1_r|].
  rewrite IH, Nat2Z.inj_succ, Z.pow_succ_r by lia. rewrite Z.rem_mul_r by lia. reflexivity.
Qed.
Lemma of_bytes_app l1 l2 : of_bytes (l1 ++ l2) = of_bytes l1 + 256 ^ Z.of_nat (length l1) * of_bytes l2.
Proof.
  induction l1 as [|b l1 IH]; cbn [app of_bytes length]; [rewrite Z.pow_0_r; lia|].
  rewrite IH, Nat2Z.inj_succ, Z.pow_succ_r by lia. ring.
Qed.
Lemma firstn_to_bytes k n v : (k <= n)%nat -> firstn k (to_bytes n v) = to_bytes k v.
Proof.
  revert n v. induction k as [|k IH]; intros n v L; [reflexivity|]. destruct n as [|n]; [lia|]. cbn [to_bytes firstn]. now rewrite IH by lia.
Qed.
Lemma skipn_to_bytes k n v : skipn k (to_bytes (k + n) v) = to_bytes n (v / 256 ^ Z.of_nat k).
Proof.
  revert v. induction k as [|k IH]; intro v; cbn [Nat.add to_bytes skipn]; [now rewrite Z.div_1_r|].
  rewrite IH, Nat2Z.inj_succ, Z.pow_succ_r by lia. now rewrite Zdiv_Zdiv by lia.
Qed.
Lemma cast_nth k m v i : (i < m)%nat -> nth_error (cast_to_array k m v) i = Some (v / 256 ^ Z.of_nat (k * i) mod 256 ^ Z.of_nat k).
Proof.
  unfold cast_to_array. revert v i. induction m as [|m IH]; intros v i L; [lia|].
  replace (k * S m)%nat with (k + k * m)%nat by lia. cbn [elements_of].
  rewrite firstn_to_bytes, of_to_bytes, skipn_to_bytes by lia. destruct i as [|i]; cbn [nth_error].
  - rewrite Nat.mul_0_r, Z.div_1_r. reflexivity.
  - rewrite IH by lia. do 2 f_equal. rewrite Zdiv_Zdiv by lia. f_equal. rewrite <- Z.pow_add_r by lia. f_equal. lia.
Qed.
Lemma cast_length k m v : length (cast_to_array k m v) = m.
Proof. unfold cast_to_array. generalize (to_bytes (k * m) v). induction m; intro l; cbn; auto. Qed.
Lemma cast_back_cons k x a : cast_to_integer k (x :: a) = x mod 256 ^ Z.of_nat k + 256 ^ Z.of_nat k * cast_to_integer k a.
Proof. unfold cast_to_integer, bytes_of. cbn [flat_map]. rewrite of_bytes_app, of_to_bytes, to_bytes_length. reflexivity. Qed.
Lemma cast_round k m v : cast_to_integer k (cast_to_array k m v) = v mod 256 ^ Z.of_nat (k * m).
Proof.
  unfold cast_to_array. revert v. induction m as [|m IH]; intro v.
  - rewrite Nat.mul_0_r. cbn. now rewrite Z.mod_1_r.
  - replace (k * S m)%nat with (k + k * m)%nat by lia. cbn [elements_of].
    rewrite firstn_to_bytes, of_to_bytes, skipn_to_bytes, cast_back_cons, IH by lia.
    rewrite Z.mod_mod by lia. rewrite Nat2Z.inj_add, Z.pow_add_r by lia. rewrite Z.rem_mul_r by lia. reflexivity.
Qed.
Lemma cast_upd k i x : 0 <= x < 256 ^ Z.of_nat k -> forall a, (i < length a)%nat -> Forall (fun y => 0 <= y < 256 ^ Z.of_nat k) a ->
  cast_to_integer k (upd a i x) = cast_to_integer k a + (x - nth i a 0) * 256 ^ Z.of_nat (k * i).
Proof.
  intro X. induction i as [|i IH]; intros a L F; (destruct a as [|y a]; [cbn in L; lia|]); inversion F as [|? ? Y F']; subst.
  - cbn [upd]. rewrite !cast_back_cons. cbn [nth]. rewrite Nat.mul_0_r, Z.pow_0_r, !Z.mod_small by assumption. ring.
  - cbn [upd]. rewrite !cast_back_cons. cbn [nth length] in *. rewrite IH by (auto; lia).
    replace (k * S i)%nat with (k + k * i)%nat by lia. rewrite Nat2Z.inj_add, Z.pow_add_r by lia. ring.
Qed.
Lemma cast_range k m v : Forall (fun y => 0 <= y < 256 ^ Z.of_nat k) (cast_to_array k m v).
Proof.
  rewrite Forall_forall. intros y J. destruct (In_nth_error _ _ J) as [i E].
  assert (L : (i < m)%nat) by (rewrite <- (cast_length k m v); apply nth_error_Some; congruence).
  rewrite (cast_nth k m v i L) in E. injection E as <-. apply Z.mod_pos_bound. lia.
Qed.

(** * Digits and powers *)
Lemma num_digits_loop_ok fuel v r d : (1 <= d)%nat -> (d < fuel)%nat -> 10 ^ (Z.of_nat d - 1) <= Z.abs v < 10 ^ Z.of_nat d ->
  num_digits_loop fuel v r = Ok (r + Z.of_nat d).
Proof.
  revert v r d. induction fuel as [|fuel IH]; intros v r d D L B; [lia|].
  cbn [num_digits_loop]. assert (1 <= 10 ^ (Z.of_nat d - 1)) by (apply (Z.pow_le_mono_r 10 0); lia).
  replace (v =? 0) with false by (symmetry; lia).
  assert (Q : Z.abs (Z.quot v 10) = Z.abs v / 10).
  { rewrite <- (Z.quot_div_nonneg (Z.abs v) 10) by lia. rewrite <- Z.quot_abs by lia. reflexivity. }
  destruct d as [|[|d]]; [lia| |].
  - change (Z.of_nat 1 - 1) with 0 in B. change (Z.of_nat 1) with 1 in B. change (10 ^ 0) with 1 in B. change (10 ^ 1) with 10 in B.
    assert (Z.quot v 10 = 0) as -> by (rewrite (Z.div_small (Z.abs v) 10) in Q by lia; lia).
    destruct fuel; [lia|]. cbn [num_digits_loop]. change (0 =? 0) with true. cbn iota. reflexivity.
  - rewrite (IH _ _ (S d)); [f_equal; lia|lia|lia|]. rewrite Q. rewrite Nat2Z.inj_succ in B |- *. 
    replace (Z.succ (Z.of_nat (S d)) - 1) with (Z.succ (Z.of_nat (S d) - 1)) in B by lia. 
    rewrite !Z.pow_succ_r in B by lia.
    split; [apply Z.div_le_lower_bound; lia|apply Z.div_lt_upper_bound; lia].
Qed.

Lemma digits_exist n k : 0 < n < 10 ^ Z.of_nat k -> exists d : nat, (1 <= d)%nat /\ 10 ^ (Z.of_nat d - 1) <= n < 10 ^ Z.of_nat d.
Proof.
  induction k as [|k IH]; intro B; [change (10 ^ Z.of_nat 0) with 1 in B; lia|].
  destruct (Z.lt_ge_cases n (10 ^ Z.of_nat k)) as [L|L]; [apply IH; lia|].
  exists (S k). split; [lia|]. replace (Z.of_nat (S k) - 1) with (Z.of_nat k) by lia. lia.
Qed.
Lemma small_digits w n (d : nat) : 0 < w -> 0 < n < 2 ^ w -> 10 ^ (Z.of_nat d - 1) <= n -> (1 <= d)%nat -> Z.of_nat d <= w.
Proof.
  intros W N D L. destruct (Z.le_gt_cases (Z.of_nat d) w) as [H|H]; [exact H|exfalso].
  assert (2 ^ w <= 10 ^ (Z.of_nat d - 1)); [|lia].
  transitivity (2 ^ (Z.of_nat d - 1)); [apply Z.pow_le_mono_r; lia|apply Z.pow_le_mono_l; lia].
Qed.
Lemma fits_abs T v : 0 < width T -> fits T v -> Z.abs v < 2 ^ width T.
Proof.
  intros W F. unfold fits, lowest, highest in F. destruct (signed T); [|lia].
  assert (2 ^ width T = 2 * 2 ^ (width T - 1)) by (rewrite <- Z.pow_succ_r by lia; f_equal; lia). assert (0 < 2 ^ (width T - 1)) by (apply Z.pow_pos_nonneg; lia). lia.
Qed.
Lemma digits_in T v : 0 < width T -> fits T v -> v <> 0 ->
  exists d : nat, (1 <= d)%nat /\ 10 ^ (Z.of_nat d - 1) <= Z.abs v < 10 ^ Z.of_nat d /\ Z.of_nat d <= width T.
Proof.
  intros W F N. pose proof (fits_abs T v W F) as A.
  destruct (digits_exist (Z.abs v) (Z.to_nat (width T))) as [d [D B]].
  { split; [lia|]. apply Z.lt_le_trans with (2 ^ width T); [exact A|]. rewrite Z2Nat.id by lia. apply Z.pow_le_mono_l. lia. }
  exists d. split; [exact D|]. split; [exact B|]. apply (small_digits (width T) (Z.abs v)); lia.
Qed.
Lemma num_digits_ok T v : 0 < width T -> fits T v -> exists d, num_digits T v = Ok d /\ decimal_digits (Z.abs v) d.
Proof.
  intros W F. unfold num_digits, decimal_digits. destruct (Z.eqb_spec v 0) as [-> |N].
  - exists 1. split; [reflexivity|]. split; [lia|]. left. split; reflexivity.
  - destruct (digits_in T v W F N) as [d [D [B L]]]. exists (Z.of_nat d).
    rewrite (num_digits_loop_ok _ v 0 d) by (auto; lia). split; [reflexivity|]. split; [lia|]. right. exact B.
Qed.

Lemma whole_log10_loop_ok fuel v r (d : nat) : (1 <= d)%nat -> (d <= fuel)%nat -> 10 ^ (Z.of_nat d - 1) <= v < 10 ^ Z.of_nat d ->
  0 <= r -> r + Z.of_nat d <= 65536 -> whole_log10_loop fuel v r = Ok (r + Z.of_nat d - 1).
Proof.
  revert v r d. induction fuel as [|fuel IH]; intros v r d D L B R1 R2; [lia|]. cbn [whole_log10_loop].
  destruct d as [|[|d]]; [lia| |].
  - change (10 ^ Z.of_nat 1) with 10 in B. replace (10 <=? v) with false by (symmetry; lia). f_equal. lia.
  - rewrite Nat2Z.inj_succ in B. replace (Z.succ (Z.of_nat (S d)) - 1) with (Z.succ (Z.of_nat (S d) - 1)) in B by lia.
    rewrite !Z.pow_succ_r in B by lia.
    assert (1 <= 10 ^ (Z.of_nat (S d) - 1)) by (apply (Z.pow_le_mono_r 10 0); lia).
    replace (10 <=? v) with true by (symmetry; lia). unfold wrap at 1. rewrite Z.mod_small by lia.
    rewrite (IH _ _ (S d)); [f_equal; lia|lia|lia| |lia|lia].
    rewrite Z.quot_div_nonneg by lia.
    split; [apply Z.div_le_lower_bound; lia|apply Z.div_lt_upper_bound; lia].
Qed.
Lemma whole_log10_ok T v : 0 < width T <= 64 -> fits T v -> 1 <= v -> exists e, whole_log10 T v = Ok e /\ 0 <= e /\ 10 ^ e <= v < 10 ^ (e + 1).
Proof.
  intros W F N. destruct (digits_in T v ltac:(lia) F ltac:(lia)) as [d [D [B L]]]. rewrite Z.abs_eq in B by lia. exists (Z.of_nat d - 1).
  unfold whole_log10. rewrite (whole_log10_loop_ok _ v 0 d) by (auto; lia). split; [f_equal; lia|]. split; [lia|]. replace (Z.of_nat d - 1 + 1) with (Z.of_nat d) by lia. exact B.
Qed.

Lemma pow10_cases n : 0 <= n <= 19 -> exists p, nth_error pow10_vals (Z.to_nat (Z.quot n 2)) = Some p /\
  (if Z.rem n 2 =? 0 then p else wrap 64 (p * 10)) = 10 ^ n.
Proof.
  intro H.
  assert (n = 0 \/ n = 1 \/ n = 2 \/ n = 3 \/ n = 4 \/ n = 5 \/ n = 6 \/ n = 7 \/ n = 8 \/ n = 9 \/ n = 10 \/ n = 11 \/ n = 12 \/ n = 13 \/ n = 14 \/ n = 15 \/ n = 16 \/ n = 17 \/ n = 18 \/ n = 19) as C by lia.
  repeat (destruct C as [-> | C]; [eexists; split; reflexivity|]). subst n. eexists; split; reflexivity.
Qed.
Lemma pow10_ok R n : 0 < width R -> 0 <= n <= 19 -> fits R (10 ^ n) -> pow10 R n = Ok (10 ^ n).
Proof.
  intros W H F. unfold pow10. assert (0 <= Z.quot n 2) by (apply Z.quot_pos; lia). replace (Z.quot n 2 <? 0) with false by (symmetry; lia).
  destruct (pow10_cases n H) as [p [-> E]]. rewrite E, conv_id by assumption. reflexivity.
Qed.
Lemma pow10_out R n : n >= 20 \/ n <= -2 -> pow10 R n = UB.
Proof.
  intro H. unfold pow10. destruct (Z.ltb_spec (Z.quot n 2) 0) as [L|L]; [reflexivity|].
  rewrite (proj2 (nth_error_None pow10_vals (Z.to_nat (Z.quot n 2)))); [reflexivity|].
  change (length pow10_vals) with 10%nat. destruct H as [H | H].
  - assert (10 <= Z.quot n 2); [|lia]. rewrite Z.quot_div_nonneg by lia. apply Z.div_le_lower_bound; lia.
  - exfalso. assert (Z.quot n 2 <= -1); [|lia]. replace n with (- (- n)) by lia. rewrite Z.quot_opp_l, Z.quot_div_nonneg by lia.
    assert (1 <= (- n) / 2) by (apply Z.div_le_lower_bound; lia). lia.
Qed.

(** * The statements of the properties *)

Lemma c308_all :
  forall l, Forall holds_true l -> any_if l = (Ok true, length l).
Proof.
  exact any_if_all.
Qed.

Lemma c308_first_other :
  forall l1 a l2, Forall holds_true l1 -> ~ holds_true a -> any_if (l1 ++ a :: l2) = (do_test a, S (length l1)).
Proof.
  exact any_if_first.
Qed.

Lemma c308_any_refuted :
  (exists l, (exists a, In a l /\ holds_true a) /\ fst (any_if l) = Ok false) /\
  fst (any_if []) = Ok true /\
  forall l b, fst (any_if l) = Ok b -> (b = true <-> Forall holds_true l).
Proof.
  split; [exists [AValue true; AValue false]; split; [exists (AValue true); split; [left; reflexivity|left; reflexivity]|reflexivity]|].
split; [reflexivity|]. intro l. induction l as [|a l IH]; intros b E.
- injection E as <-. split; [constructor|reflexivity].
- cbn [any_if] in E. destruct (do_test a) as [[|]| | |] eqn:D.
  + destruct (any_if l) as [r n]. cbn [fst] in *. specialize (IH b E). rewrite IH. split; intro F; [constructor; [|exact F]; destruct a; cbn in D; [left|right]; congruence|now inversion F].
  + injection E as <-. split; [discriminate|]. intro F. inversion F as [|? ? Q _]. subst. destruct Q as [-> | ->]; discriminate.
  + discriminate.
  + discriminate.
  + discriminate.
Qed.

Lemma c309_value :
  forall T s v, from_string T s = Some v <-> starts_with_number T s v /\ fits T v.
Proof.
  exact from_string_iff.
Qed.

Lemma c309_whole :
  forall T t v, number_text t v -> (signed T = false -> ~ In 45 t) -> (from_string T t = Some v <-> fits T v).
Proof.
  intros T t v N U. rewrite from_string_iff. split; [intros [_ F]; exact F|]. intro F. split; [|exact F]. exists t, []. split; [now rewrite app_nil_r|]. split; [exact N|]. split; [exact U|discriminate].
Qed.

Lemma c309_no_number :
  forall T s, (forall c s', s = c :: s' -> ~ digit c /\ c <> 45) \/ (exists s', s = 45 :: s' /\ (signed T = false \/ forall c s'', s' = c :: s'' -> ~ digit c)) ->
  from_string T s = None.
Proof.
  intros T s H. destruct (from_string T s) as [v|] eqn:E; [|reflexivity]. exfalso. apply from_string_iff in E. destruct E as [[t [rest [-> [[ds [N [F [[-> ->] | [-> ->]]]]] [U R]]]]] _].
- destruct ds as [|d ds]; [congruence|]. inversion F as [|? ? D F']. subst. destruct H as [H | [s' [Q _]]].
  + destruct (H d _ eq_refl). contradiction.
  + injection Q as -> _. unfold digit in D. lia.
- destruct H as [H | [s' [Q C]]].
  + destruct (H 45 _ eq_refl). congruence.
  + injection Q as <-. destruct C as [C | C]; [apply (U C); left; reflexivity|]. destruct ds as [|d ds]; [congruence|]. inversion F as [|? ? D F']. subst. apply (C d _ eq_refl). exact D.
Qed.

Lemma c309_trailing_refuted :
  forall T t v rest, number_text t v -> (signed T = false -> ~ In 45 t) -> fits T v -> (forall c r, rest = c :: r -> ~ digit c) ->
  from_string T (t ++ rest) = Some v.
Proof.
  intros T t v rest N U F R. apply from_string_iff. split; [|exact F]. exists t, rest. auto.
Qed.

Lemma c309_text :
  forall s, from_string_text s = Some s.
Proof.
  reflexivity.
Qed.

Lemma c310_stack :
  forall (qw vw : Z) (native source : endian), vw = 8 \/ vw = 16 -> vw <= qw <= 64 -> qw mod 4 = 0 -> 
  forall ops outs l, stack_history (Z.to_nat (nq_capacity qw)) vw [] ops outs l ->
  exists q, nq_run qw vw native source nq_empty ops = Ok (outs, q) /\
    nq_size q = Z.of_nat (length l) /\ (nq_is_empty q = true <-> l = []) /\ (nq_full qw q = true <-> length l = Z.to_nat (nq_capacity qw)) /\
    bq_queue q = hex_value l /\ (forall n, 0 <= n < 2 ^ 62 -> (nq_can_pop q n = true <-> n <= Z.of_nat (length l))).
Proof.
  intros qw vw native source V Q M ops outs l H. destruct (nq_history qw vw native source V Q M [] ops outs l H bq_empty) as [q [E N]].
{ split; [constructor|]. apply holds_empty. lia. }
exists q. split; [exact E|]. apply (nq_observers qw vw V Q q l N).
Qed.

Lemma c310_limits :
  forall (qw vw : Z) (native source : endian), vw = 8 \/ vw = 16 -> vw <= qw <= 64 -> qw mod 4 = 0 -> 
  forall ops outs l q v n, stack_history (Z.to_nat (nq_capacity qw)) vw [] ops outs l -> nq_run qw vw native source nq_empty ops = Ok (outs, q) -> Z.of_nat n < 2 ^ 62 ->
  (length l = Z.to_nat (nq_capacity qw) -> nq_push qw vw native source q v = Throw) /\
  ((length l < n)%nat -> nq_pop_front qw vw q (Z.of_nat n) = Throw) /\
  ((Z.to_nat (nq_capacity qw) < length l + n)%nat -> nq_push_n qw vw native source q v (Z.of_nat n) = Throw).
Proof.
  intros qw vw native source V Q M ops outs l q v n H E B. destruct (nq_history qw vw native source V Q M [] ops outs l H bq_empty) as [q' [E' N]].
{ split; [constructor|]. apply holds_empty. lia. }
unfold nq_empty in E. rewrite E in E'. injection E' as <-. destruct (nq_too_many qw vw native source V Q M q l v n N) as [A [C D]].
split; [intro L; apply A; lia|]. split; [intro L; apply C; [exact L|exact B]|intro L; apply D; [exact L|exact B]].
Qed.

Lemma c310_fifo_refuted :
  forall (qw vw : Z) (native source : endian), vw = 8 \/ vw = 16 -> vw <= qw <= 64 -> qw mod 4 = 0 -> 
  forall a b, 0 <= a < 16 -> 0 <= b < 16 -> 
  exists q, nq_run qw vw native source nq_empty [NPush a; NPush b; NPop 1; NPop 1] = Ok ([b; a], q).
Proof.
  intros qw vw native source V Q M a b A B.
assert (H : stack_history (Z.to_nat (nq_capacity qw)) vw [] [NPush a; NPush b; NPop 1; NPop 1] [b; a] []).
{ assert (Cp : (2 <= Z.to_nat (nq_capacity qw))%nat) by (unfold nq_capacity; pose proof (Z.div_le_lower_bound qw 4 2 ltac:(lia) ltac:(lia)); lia).
  assert (Sm : 16 <= 2 ^ vw) by (destruct V as [-> | ->]; lia).
  apply (sh_cons _ _ [] (NPush a) [] [a]). { rewrite <- (Z.mod_small a 16 A) at 2. apply (stack_push _ _ [] a); [lia|cbn [length]; lia]. }
  apply (sh_cons _ _ [a] (NPush b) [] [a; b]). { rewrite <- (Z.mod_small b 16 B) at 2. apply (stack_push _ _ [a] b); [lia|cbn [length]; lia]. }
  apply (sh_cons _ _ [a; b] (NPop 1) [b] [a]). { apply (stack_pop _ _ [a] [b]). cbn [length]. lia. }
  apply (sh_cons _ _ [a] (NPop 1) [a] []). { apply (stack_pop _ _ [] [a]). cbn [length]. lia. }
  constructor. }
destruct (nq_history qw vw native source V Q M [] _ _ _ H bq_empty) as [q [E _]]; [split; [constructor|apply holds_empty; lia]|]. exists q. exact E.
Qed.

Lemma c311_found :
  forall (w : Z) (native source : endian) src ns gs0 bits v, w = 8 \/ w = 16 -> Forall (fun x => 0 <= x < 2 ^ w) src ->
  Forall (fun n => (0 < n)%nat /\ Z.of_nat n <= w) ns -> groups ns (flat_map (low_bits (Z.to_nat w)) src) gs0 bits ->
  exists s, st_run w native source (st_make src) ns = Ok (map val gs0, s) /\ 
    forall gs g rest, none_equal w v gs -> Z.of_nat (length g) = w -> val g = v -> bits = concat gs ++ g ++ rest ->
    exists s', skip_until w native source s v = Ok s' /\
      forall ns' gs' rest', Forall (fun n => (0 < n)%nat /\ Z.of_nat n <= w) ns' -> groups ns' rest gs' rest' ->
        exists s'', st_run w native source s' ns' = Ok (map val gs', s'').
Proof.
  intros w native source src ns gs0 bits v W Fs Fn G.
destruct (st_run_ok w native source W ns _ gs0 bits G Fn (st_make src)) as [s [E H]].
{ split; [exact Fs|]. exists []. split; [apply holds_empty; lia|]. split; [cbn; lia|reflexivity]. }
exists s. split; [exact E|]. intros gs g rest N L V ->. destruct (skip_until_found w native source W s gs g rest v N L V H) as [s' [E' H']].
exists s'. split; [exact E'|]. intros ns' gs' rest' F' G'. destruct (st_run_ok w native source W ns' rest gs' rest' G' F' s' H') as [s'' [E'' _]]. exists s''. exact E''.
Qed.

Lemma c311_not_found :
  forall (w : Z) (native source : endian) src ns gs0 bits v, w = 8 \/ w = 16 -> Forall (fun x => 0 <= x < 2 ^ w) src ->
  Forall (fun n => (0 < n)%nat /\ Z.of_nat n <= w) ns -> groups ns (flat_map (low_bits (Z.to_nat w)) src) gs0 bits ->
  exists s, st_run w native source (st_make src) ns = Ok (map val gs0, s) /\ 
    forall gs rest, none_equal w v gs -> Z.of_nat (length rest) < w -> bits = concat gs ++ rest -> skip_until w native source s v = Throw.
Proof.
  intros w native source src ns gs0 bits v W Fs Fn G.
destruct (st_run_ok w native source W ns _ gs0 bits G Fn (st_make src)) as [s [E H]].
{ split; [exact Fs|]. exists []. split; [apply holds_empty; lia|]. split; [cbn; lia|reflexivity]. }
exists s. split; [exact E|]. intros gs rest N L ->. exact (skip_until_none w native source W s gs rest v N L H).
Qed.

Lemma c312_elements :
  forall k m value i, (i < m)%nat -> nth_error (cast_to_array k m value) i = Some (value / 256 ^ Z.of_nat (k * i) mod 256 ^ Z.of_nat k) /\ length (cast_to_array k m value) = m.
Proof.
  intros k m value i L. split; [apply cast_nth, L|apply cast_length].
Qed.

Lemma c312_write :
  forall (R : Type) k m value i x (r : R), 0 <= value < 256 ^ Z.of_nat (k * m) -> (i < m)%nat -> 0 <= x < 256 ^ Z.of_nat k ->
  visit_as k m value (fun a => Ok (r, upd a i x)) =
    (Ok r, value + (x - value / 256 ^ Z.of_nat (k * i) mod 256 ^ Z.of_nat k) * 256 ^ Z.of_nat (k * i)).
Proof.
  intros R k m value i x r V L X. unfold visit_as. cbv zeta. rewrite (cast_upd k i x X) by (rewrite ?cast_length; auto; apply cast_range).
rewrite cast_round, Z.mod_small by exact V. do 3 f_equal. f_equal. apply nth_error_nth. apply cast_nth, L.
Qed.

Lemma c312_outcome :
  forall (R : Type) k m value (visitor : list Z -> res (R * list Z)), 0 <= value < 256 ^ Z.of_nat (k * m) ->
  (forall r, visitor (cast_to_array k m value) = Ok (r, cast_to_array k m value) -> visit_as k m value visitor = (Ok r, value)) /\
  (visitor (cast_to_array k m value) = Throw -> visit_as k m value visitor = (Throw, value)) /\
  (forall r a, visitor (cast_to_array k m value) = Ok (r, a) -> length a = m -> Forall (fun y => 0 <= y < 256 ^ Z.of_nat k) a ->
     exists value', visit_as k m value visitor = (Ok r, value') /\ 0 <= value' < 256 ^ Z.of_nat (k * m) /\ cast_to_array k m value' = a).
Proof.
  intros R k m value visitor V. unfold visit_as. cbv zeta. split; [|split].
- intros r ->. rewrite cast_round, Z.mod_small by exact V. reflexivity.
- intros ->. reflexivity.
- intros r a -> L F. exists (cast_to_integer k a). split; [reflexivity|]. clear - L F. revert m L. induction F as [|x a X F IH]; intros m L; cbn [length] in L; subst m.
  + rewrite Nat.mul_0_r. split; [cbn; lia|reflexivity].
  + specialize (IH _ eq_refl). destruct IH as [B E]. rewrite cast_back_cons, Z.mod_small by exact X. set (y := cast_to_integer k a) in *. clearbody y.
    assert (P : 0 < 256 ^ Z.of_nat k) by (apply Z.pow_pos_nonneg; lia).
    replace (k * S (length a))%nat with (k + k * length a)%nat by lia. rewrite Nat2Z.inj_add, Z.pow_add_r by lia. split; [nia|].
    unfold cast_to_array in *. replace (k * S (length a))%nat with (k + k * length a)%nat by lia. cbn [elements_of].
    rewrite firstn_to_bytes, of_to_bytes, skipn_to_bytes by lia. f_equal.
    * rewrite Z.mul_comm, Z.mod_add by lia. apply Z.mod_small, X.
    * rewrite Z.mul_comm, Z.div_add, Z.div_small by lia. exact E.
Qed.

Lemma c312_const :
  forall (R : Type) k m value (visitor : list Z -> res R), visit_as_const k m value visitor = visitor (cast_to_array k m value).
Proof.
  reflexivity.
Qed.

Lemma c313_num_digits :
  forall T v, 0 < width T -> fits T v -> exists d, num_digits T v = Ok d /\ decimal_digits (Z.abs v) d.
Proof.
  exact num_digits_ok.
Qed.

Lemma c313_whole_log10 :
  forall T v, 0 < width T <= 64 -> fits T v ->
  (1 <= v -> exists e, whole_log10 T v = Ok e /\ 0 <= e /\ 10 ^ e <= v < 10 ^ (e + 1)) /\ (v < 1 -> whole_log10 T v = Ok 0).
Proof.
  intros T v W F. split; [apply whole_log10_ok; assumption|]. intro L. unfold whole_log10. cbn [whole_log10_loop]. replace (10 <=? v) with false by (symmetry; lia). reflexivity.
Qed.

Lemma c313_pow10 :
  forall R n, 0 < width R -> (0 <= n <= 19 -> fits R (10 ^ n) -> pow10 R n = Ok (10 ^ n)) /\ (n >= 20 \/ n <= -2 -> pow10 R n = UB).
Proof.
  intros R n W. split; [apply pow10_ok, W|apply pow10_out].
Qed.

Lemma c313_pow10_refuted :
  pow10 i32 10 = Ok 1410065408 /\ pow10 i32 (-1) = Ok 10 /\ pow10 i64 19 = Ok (-8446744073709551616).
Proof.
  split; [|split]; reflexivity.
Qed.

Lemma c310_pop_all_l :
  forall (qw vw : Z) (native source : endian), vw = 8 \/ vw = 16 -> vw <= qw <= 64 -> qw mod 4 = 0 ->
  forall ops outs l, stack_history (Z.to_nat (nq_capacity qw)) vw [] ops outs l ->
  exists q, nq_run qw vw native source nq_empty ops = Ok (outs, q) /\ nq_pop_all vw q = (hex_value l mod 2 ^ vw, nq_empty) /\ nq_clear q = nq_empty.
Proof.
  intros qw vw native source V Q M ops outs l H. destruct (c310_stack qw vw native source V Q M ops outs l H) as (q & R & _ & _ & _ & E & _).
  exists q. split; [exact R|]. split; [|reflexivity]. unfold nq_pop_all, bq_pop_all. rewrite E. reflexivity.
Qed.

Lemma c310_of_value_l :
  forall (qw vw v : Z), 0 < qw <= 64 -> qw mod 4 = 0 -> nq_size (nq_of qw v) = nq_capacity qw /\ nq_full qw (nq_of qw v) = true /\
  (forall n, 0 <= n < 2 ^ 62 -> (nq_can_pop (nq_of qw v) n = true <-> n <= nq_capacity qw)) /\ nq_pop_all vw (nq_of qw v) = (v mod 2 ^ vw, nq_empty).
Proof.
  intros qw vw v Q M. split; [reflexivity|]. split; [apply Z.eqb_refl|]. split; [|reflexivity].
  intros n H. unfold nq_can_pop, nq_of, bq_of, nq_capacity, sz, wrap. cbn [bq_size]. rewrite Z.mod_small by lia. rewrite Z.leb_le.
  pose proof (Z.div_mod qw 4 ltac:(lia)). lia.
Qed.
