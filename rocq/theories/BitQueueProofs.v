From Verif Require Import Common CommonProofs Ints BitsModel BitQueue SpecBits BitsProofs.
Open Scope Z_scope.

Lemma val_range l : 0 <= val l < 2 ^ Z.of_nat (length l).
Proof.
  induction l as [|b t IH]; [simpl; lia|].
  simpl val. change (length (b :: t)) with (S (length t)).
  rewrite Nat2Z.inj_succ, Z.pow_succ_r by lia.
  pose proof (pow_pos (Z.of_nat (length t)) ltac:(lia)). destruct b; lia.
Qed.

Lemma val_app l1 l2 : val (l1 ++ l2) = val l1 * 2 ^ Z.of_nat (length l2) + val l2.
Proof.
  induction l1 as [|b t IH]; simpl; [lia|].
  rewrite IH, app_length, Nat2Z.inj_add, Z.pow_add_r by lia. destruct b; lia.
Qed.

Lemma low_bits_length n z : length (low_bits n z) = n.
Proof. induction n; simpl; auto. Qed.

Lemma val_low_bits n z : val (low_bits n z) = z mod 2 ^ Z.of_nat n.
Proof.
  induction n as [|n IH].
  - simpl. rewrite Z.mod_1_r. auto.
  - simpl low_bits. simpl val. rewrite low_bits_length, IH.
    rewrite Nat2Z.inj_succ, Z.pow_succ_r by lia.
    pose proof (pow_pos (Z.of_nat n) ltac:(lia)) as P.
    rewrite (Z.mul_comm 2), Z.rem_mul_r by lia.
    rewrite Z.testbit_spec' with (n := Z.of_nat n) || idtac.
    assert (E : (z / 2 ^ Z.of_nat n) mod 2 = Z.b2z (Z.testbit z (Z.of_nat n))).
    { symmetry. apply Z.testbit_spec'. lia. }
    rewrite E. destruct (Z.testbit z (Z.of_nat n)); simpl; lia.
Qed.

Lemma low_bits_val l : low_bits (length l) (val l) = l.
Proof.
  assert (H : forall l n z, length l = n -> val l = z mod 2 ^ Z.of_nat n -> low_bits n z = l).
  { clear. induction l as [|b t IH]; intros n z E V; simpl in E; subst; auto.
    rewrite Nat2Z.inj_succ, Z.pow_succ_r in V by lia. simpl val in V.
    pose proof (pow_pos (Z.of_nat (length t)) ltac:(lia)) as P.
    rewrite (Z.mul_comm 2), Z.rem_mul_r in V by lia.
    pose proof (val_range t) as R.
    pose proof (Z.mod_pos_bound z (2 ^ Z.of_nat (length t)) P) as M.
    assert (B : (z / 2 ^ Z.of_nat (length t)) mod 2 = Z.b2z (Z.testbit z (Z.of_nat (length t)))).
    { symmetry. apply Z.testbit_spec'. lia. }
    rewrite B in V. simpl. f_equal.
    - destruct b, (Z.testbit z (Z.of_nat (length t))); simpl in V; auto; nia.
    - apply IH; auto. destruct b, (Z.testbit z (Z.of_nat (length t))); simpl in V; nia. }
  apply H; auto. symmetry. apply Z.mod_small, val_range.
Qed.

Lemma lor_disjoint a b n : 0 <= n -> 0 <= b < 2 ^ n -> Z.lor (a * 2 ^ n) b = a * 2 ^ n + b.
Proof.
  intros Hn Hb.
  assert (L : Z.land (a * 2 ^ n) b = 0).
  { apply Z.bits_inj'. intros i Hi. rewrite Z.land_spec, Z.bits_0.
    destruct (Z_lt_le_dec i n).
    - rewrite Z.mul_pow2_bits_low by auto. auto.
    - rewrite (high_bit n b) by lia. apply andb_false_r. }
  rewrite Z.add_nocarry_lxor by auto. symmetry. apply Z.lxor_lor; auto.
Qed.

Lemma land_low z n : 0 <= n -> Z.land z (2 ^ n - 1) = z mod 2 ^ n.
Proof.
  intros. rewrite <- Z.land_ones by auto. rewrite Z.ones_equiv. f_equal; lia.
Qed.

Lemma sz_small z : 0 <= z < 2 ^ 64 -> sz z = z.
Proof. intros; apply Z.mod_small; auto. Qed.

Lemma to_native_is_identity native source T v : to_native_endian native source T v = v.
Proof. destruct native, source; reflexivity. Qed.

(** The queue holds the bit string [l], oldest bit most significant. *)
Definition holds (qw : Z) (q : bq) (l : list bool) : Prop :=
  bq_size q = Z.of_nat (length l) /\ bq_queue q = val l /\ Z.of_nat (length l) <= qw.

Lemma push_back_ok qw vw native source q l value n :
  0 < vw <= qw -> qw <= 64 -> holds qw q l -> 0 <= value < 2 ^ vw ->
  Z.of_nat n <= vw -> Z.of_nat (length l + n) <= qw -> Z.of_nat n < Z.max qw 32 ->
  exists q', bq_push_back qw vw native source q value (Z.of_nat n) = Ok q' /\
    holds qw q' (l ++ low_bits n value).
Proof.
  intros Hw H64 (S & Q & C) Hv Hn Hc Hb. unfold bq_push_back.
  assert (P64 : qw < 2 ^ 64) by lia.
  rewrite (sz_small (qw - bq_size q)) by lia.
  destruct (Z.leb_spec (Z.of_nat n) (qw - bq_size q)); [|lia]. simpl.
  destruct (Z.leb_spec (Z.max qw 32) (Z.of_nat n)); [lia|].
  eexists. split; [reflexivity|].
  rewrite (sz_small (vw - Z.of_nat n)) by lia.
  rewrite to_native_is_identity, mask_msb_value by lia.
  assert (V : Z.land value (if vw <=? vw - Z.of_nat n then 0 else 2 ^ (vw - (vw - Z.of_nat n)) - 1)
              = val (low_bits n value)).
  { rewrite val_low_bits. destruct (Z.leb_spec vw (vw - Z.of_nat n)).
    - assert (n = 0%nat) as -> by lia. simpl. rewrite Z.land_0_r, Z.mod_1_r. auto.
    - rewrite <- land_low by lia. do 2 f_equal. f_equal. lia. }
  rewrite V. unfold holds. simpl bq_size. simpl bq_queue.
  assert (LEN : length (l ++ low_bits n value) = (length l + n)%nat)
    by (rewrite app_length, low_bits_length; auto).
  rewrite LEN. split; [lia|]. split; [|lia].
  rewrite Z.shiftl_mul_pow2, Q by lia.
  pose proof (val_range l) as R1. pose proof (val_range (low_bits n value)) as R2.
  rewrite low_bits_length in R2.
  assert (B : val l * 2 ^ Z.of_nat n + val (low_bits n value) < 2 ^ qw).
  { pose proof (val_range (l ++ low_bits n value)) as R. rewrite val_app, low_bits_length, LEN in R.
    assert (2 ^ Z.of_nat (length l + n) <= 2 ^ qw) by (apply Z.pow_le_mono_r; lia). lia. }
  pose proof (pow_pos (Z.of_nat n) ltac:(lia)).
  rewrite (wrap_id qw (val l * 2 ^ Z.of_nat n)) by nia.
  rewrite lor_disjoint by lia. rewrite wrap_id by nia.
  rewrite val_app, low_bits_length. auto.
Qed.

Lemma pop_front_ok qw vw q l1 l2 :
  0 < vw <= qw -> qw <= 64 -> holds qw q (l1 ++ l2) ->
  Z.of_nat (length l2) <= vw -> Z.of_nat (length l2) < Z.max qw 32 ->
  exists q', bq_pop_front qw vw q (Z.of_nat (length l2)) = Ok (val l2, q') /\ holds qw q' l1.
Proof.
  intros Hw H64 (S & Q & C) Hn Hb. rewrite app_length in S, C.
  unfold bq_pop_front.
  destruct (Z.leb_spec (Z.of_nat (length l2)) (bq_size q)); [|lia]. simpl negb. cbv iota.
  destruct (Z.leb_spec (Z.max qw 32) (Z.of_nat (length l2))); [lia|].
  rewrite (sz_small (qw - Z.of_nat (length l2))) by lia.
  rewrite mask_msb_value by lia.
  pose proof (val_range l1) as R1. pose proof (val_range l2) as R2.
  pose proof (pow_pos (Z.of_nat (length l2)) ltac:(lia)) as P.
  assert (V : Z.land (bq_queue q)
      (if qw <=? qw - Z.of_nat (length l2) then 0 else 2 ^ (qw - (qw - Z.of_nat (length l2))) - 1) = val l2).
  { rewrite Q, val_app. destruct (Z.leb_spec qw (qw - Z.of_nat (length l2))).
    - destruct l2; [|simpl in *; lia]. simpl. apply Z.land_0_r.
    - replace (qw - (qw - Z.of_nat (length l2))) with (Z.of_nat (length l2)) by lia.
      rewrite land_low by lia. rewrite Z.add_comm, Z_mod_plus_full. apply Z.mod_small; auto. }
  rewrite V, wrap_id.
  2:{ assert (2 ^ Z.of_nat (length l2) <= 2 ^ vw) by (apply Z.pow_le_mono_r; lia). lia. }
  eexists. split; [reflexivity|]. unfold holds; simpl. split; [lia|]. split; [|lia].
  rewrite Z.shiftr_div_pow2, Q, val_app by lia.
  rewrite Z.div_add_l by lia. rewrite Z.div_small; lia.
Qed.

(** The exact value pop_back computes; for equal queue and value types it is the
    value of the oldest bits. *)
Lemma pop_back_ok qw vw q l1 l2 :
  0 < vw <= qw -> qw <= 64 -> holds qw q (l1 ++ l2) ->
  Z.of_nat (length l1) < 31 -> Z.of_nat (length l2) < Z.max vw 32 ->
  exists q', bq_pop_back qw vw q (Z.of_nat (length l1)) =
               Ok ((val l1 * 2 ^ Z.of_nat (length l2)) mod 2 ^ vw / 2 ^ Z.of_nat (length l2), q') /\
             holds qw q' l2.
Proof.
  intros Hw H64 (S & Q & C) Hn Hb. rewrite app_length in S, C.
  unfold bq_pop_back.
  destruct (Z.leb_spec (Z.of_nat (length l1)) (bq_size q)); [|lia]. simpl negb. cbv iota.
  destruct (Z.leb_spec 31 (Z.of_nat (length l1))); [lia|].
  set (n1 := Z.of_nat (length l1)) in *. set (n2 := Z.of_nat (length l2)) in *.
  replace (bq_size q - n1) with n2 by lia.
  destruct (Z.leb_spec (Z.max qw 32) n2); [lia|].
  destruct (Z.leb_spec (Z.max vw 32) n2); [lia|].
  pose proof (val_range l1) as R1. pose proof (val_range l2) as R2. fold n1 in R1. fold n2 in R2.
  pose proof (pow_pos n1 ltac:(lia)) as P1. pose proof (pow_pos n2 ltac:(lia)) as P2.
  assert (PP : 2 ^ n1 * 2 ^ n2 <= 2 ^ qw).
  { rewrite <- Z.pow_add_r by lia. apply Z.pow_le_mono_r; lia. }
  assert (L1 : 2 ^ n1 <= 2 ^ qw) by (apply Z.pow_le_mono_r; lia).
  rewrite (wrap_id qw (2 ^ n1 - 1)) by lia.
  rewrite Z.shiftl_mul_pow2 by lia.
  rewrite (wrap_id qw ((2 ^ n1 - 1) * 2 ^ n2)) by nia.
  assert (BM : forall i, 0 <= i -> Z.testbit ((2 ^ n1 - 1) * 2 ^ n2) i = (n2 <=? i) && (i <? n1 + n2)).
  { intros i Hi. destruct (Z.leb_spec n2 i).
    - rewrite Z.mul_pow2_bits by lia. rewrite ones_bit by lia. simpl.
      apply bool_iff_eq. rewrite !Z.ltb_lt. lia.
    - rewrite Z.mul_pow2_bits_low by lia. auto. }
  assert (BV : forall i, 0 <= i ->
     Z.testbit (val l1 * 2 ^ n2 + val l2) i = if i <? n2 then Z.testbit (val l2) i else Z.testbit (val l1) (i - n2)).
  { intros i Hi. rewrite <- lor_disjoint by lia. rewrite Z.lor_spec.
    destruct (Z.ltb_spec i n2).
    - rewrite Z.mul_pow2_bits_low by lia. auto.
    - rewrite Z.mul_pow2_bits by lia. rewrite (high_bit n2 (val l2)) by lia. apply orb_false_r. }
  assert (E1 : Z.land (bq_queue q) ((2 ^ n1 - 1) * 2 ^ n2) = val l1 * 2 ^ n2).
  { rewrite Q, val_app. apply Z.bits_inj'. intros i Hi. fold n2.
    rewrite Z.land_spec, BV, BM by auto.
    destruct (Z.ltb_spec i n2), (Z.leb_spec n2 i); try lia; simpl.
    - rewrite Z.mul_pow2_bits_low by lia. apply andb_false_r.
    - rewrite Z.mul_pow2_bits by lia. destruct (Z.ltb_spec i (n1 + n2)).
      + apply andb_true_r.
      + rewrite (high_bit n1 (val l1)) by lia. auto. }
  rewrite E1. eexists. split; [rewrite Z.shiftr_div_pow2 by lia; reflexivity|].
  unfold holds. simpl bq_size. simpl bq_queue. fold n2. split; [lia|]. split; [|lia].
  rewrite Q, val_app. fold n2. apply Z.bits_inj'. intros i Hi.
  rewrite Z.land_spec, BV by auto.
  destruct (Z_lt_le_dec i qw).
  - rewrite wrap_bit, Z.lnot_spec, BM by lia.
    destruct (Z.ltb_spec i n2), (Z.leb_spec n2 i); try lia; simpl.
    + apply andb_true_r.
    + rewrite (high_bit n2 (val l2)) by lia. destruct (Z.ltb_spec i (n1 + n2)); simpl.
      * apply andb_false_r.
      * rewrite (high_bit n1 (val l1)) by lia. auto.
  - rewrite wrap_bit_high by lia. rewrite (high_bit n2 (val l2)) by lia. apply andb_false_r.
Qed.

Lemma pop_back_same w q l1 l2 :
  0 < w <= 64 -> holds w q (l1 ++ l2) ->
  Z.of_nat (length l1) < 31 -> Z.of_nat (length l2) < Z.max w 32 ->
  exists q', bq_pop_back w w q (Z.of_nat (length l1)) = Ok (val l1, q') /\ holds w q' l2.
Proof.
  intros Hw H Hn Hb. destruct (pop_back_ok w w q l1 l2) as (q' & E & H'); auto; try lia.
  exists q'. split; auto. rewrite E. do 2 f_equal.
  destruct H as (_ & _ & C). rewrite app_length in C.
  pose proof (val_range l1). pose proof (pow_pos (Z.of_nat (length l2)) ltac:(lia)).
  assert (2 ^ Z.of_nat (length l1) * 2 ^ Z.of_nat (length l2) <= 2 ^ w).
  { rewrite <- Z.pow_add_r by lia. apply Z.pow_le_mono_r; lia. }
  rewrite Z.mod_small by nia. apply Z.div_mul. lia.
Qed.

Lemma holds_empty w : 0 < w -> holds w bq_empty [].
Proof. intros; unfold holds; simpl; auto with zarith. Qed.

(** * Histories of queue operations *)
Lemma queue_history_same w native source :
  w = 8 \/ w = 16 ->
  forall l ops outs l', queue_history w w l ops outs l' ->
  forall q, holds w q l ->
  exists q', bq_run w w native source q ops = Ok (outs, q') /\ holds w q' l'.
Proof.
  intros Hw l ops outs l' H. induction H as [l|l op out l' ops outs l'' S H IH]; intros q Hq.
  - exists q. auto.
  - assert (HL : Z.of_nat (length l) <= w) by apply Hq.
    inv S; simpl.
    + destruct (push_back_ok w w native source q l v n) as (q1 & E & K1); auto; try lia.
      rewrite E. simpl. apply IH; auto.
    + rewrite app_length in HL.
      destruct (pop_front_ok w w q l' l2) as (q1 & E & K1); auto; try lia.
      rewrite E. simpl. destruct (IH q1 K1) as (q2 & E2 & K2). rewrite E2. simpl. eauto.
    + rewrite app_length in HL.
      destruct (pop_back_same w q l1 l') as (q1 & E & K1); auto; try lia.
      rewrite E. simpl. destruct (IH q1 K1) as (q2 & E2 & K2). rewrite E2. simpl. eauto.
Qed.

Lemma queue_history_same_new w native source :
  w = 8 \/ w = 16 ->
  forall ops outs l', queue_history w w [] ops outs l' ->
  exists q', bq_run w w native source bq_empty ops = Ok (outs, q') /\
    bq_size q' = Z.of_nat (length l') /\ bq_queue q' = val l'.
Proof.
  intros Hw ops outs l' H.
  destruct (queue_history_same w native source Hw _ _ _ _ H bq_empty) as (q' & E & A & B & _).
  - apply holds_empty; lia.
  - eauto.
Qed.

Definition no_pop_old (op : queue_op) : Prop := match op with PopOld _ => False | _ => True end.

Lemma queue_history_front qw vw native source :
  0 < vw < qw -> qw <= 64 ->
  forall l ops outs l', queue_history qw vw l ops outs l' -> Forall no_pop_old ops ->
  forall q, holds qw q l ->
  exists q', bq_run qw vw native source q ops = Ok (outs, q') /\ holds qw q' l'.
Proof.
  intros Hw H64 l ops outs l' H. induction H as [l|l op out l' ops outs l'' S H IH]; intros F q Hq.
  - exists q. auto.
  - inv F. inv S; simpl; simpl in *; try tauto.
    + destruct (push_back_ok qw vw native source q l v n) as (q1 & E & K1); auto; try lia.
      rewrite E. simpl. apply IH; auto.
    + destruct (pop_front_ok qw vw q l' l2) as (q1 & E & K1); auto; try lia.
      rewrite E. simpl. destruct (IH ltac:(assumption) q1 K1) as (q2 & E2 & K2). rewrite E2. simpl. eauto.
Qed.

Lemma queue_history_front_new qw vw native source :
  0 < vw < qw -> qw <= 64 ->
  forall ops outs l', queue_history qw vw [] ops outs l' ->
  (forall n, ~ In (PopOld n) ops) ->
  exists q', bq_run qw vw native source bq_empty ops = Ok (outs, q') /\
    bq_size q' = Z.of_nat (length l') /\ bq_queue q' = val l'.
Proof.
  intros Hw H64 ops outs l' H N.
  destruct (queue_history_front qw vw native source Hw H64 _ _ _ _ H) with (q := bq_empty) as (q' & E & A & B & _).
  - rewrite Forall_forall. intros op I. destruct op; simpl; auto. apply (N n I).
  - apply holds_empty; lia.
  - eauto.
Qed.

(** What remains of pop_back for other types: the [n] oldest bits, when the whole
    content fits in the value type. *)
Lemma pop_back_fits qw vw q l1 l2 :
  0 < vw <= qw -> qw <= 64 -> holds qw q (l1 ++ l2) ->
  (0 < length l1 < 31)%nat -> Z.of_nat (length l1 + length l2) <= vw ->
  exists q', bq_pop_back qw vw q (Z.of_nat (length l1)) = Ok (val l1, q') /\ holds qw q' l2.
Proof.
  intros Hw H64 H Hn Hf. destruct (pop_back_ok qw vw q l1 l2) as (q' & E & H'); auto; try lia.
  exists q'. split; auto. rewrite E. do 2 f_equal.
  pose proof (val_range l1). pose proof (pow_pos (Z.of_nat (length l2)) ltac:(lia)).
  assert (2 ^ Z.of_nat (length l1) * 2 ^ Z.of_nat (length l2) <= 2 ^ vw).
  { rewrite <- Z.pow_add_r by lia. apply Z.pow_le_mono_r; lia. }
  rewrite Z.mod_small by nia. apply Z.div_mul. lia.
Qed.

Lemma queue_bounds_throw qw vw native source q l :
  0 < vw <= qw -> qw <= 64 -> holds qw q l ->
  (forall v n, Z.of_nat n > qw - Z.of_nat (length l) -> bq_push_back qw vw native source q v (Z.of_nat n) = Throw) /\
  (forall n, (n > length l)%nat -> bq_pop_front qw vw q (Z.of_nat n) = Throw) /\
  (forall n, (n > length l)%nat -> bq_pop_back qw vw q (Z.of_nat n) = Throw).
Proof.
  intros Hw H64 (S & Q & C). repeat split; intros.
  - unfold bq_push_back. rewrite sz_small by lia.
    destruct (Z.leb_spec (Z.of_nat n) (qw - bq_size q)); [lia|]. reflexivity.
  - unfold bq_pop_front. destruct (Z.leb_spec (Z.of_nat n) (bq_size q)); [lia|]. reflexivity.
  - unfold bq_pop_back. destruct (Z.leb_spec (Z.of_nat n) (bq_size q)); [lia|]. reflexivity.
Qed.

Lemma queue_pop_old_bad :
  exists ops outs l, queue_history 16 8 [] ops outs l /\
    exists got q, bq_run 16 8 little little bq_empty ops = Ok (got, q) /\ got <> outs.
Proof.
  exists [Push 0xAB 8; Push 0xCD 8; PopOld 8], [0xAB].
  exists (low_bits 8 0xCD). split.
  - apply (history_cons 16 8 [] _ [] (low_bits 8 0xAB)).
    { apply (step_push 16 8 [] 0xAB 8); simpl; lia. }
    apply (history_cons 16 8 _ _ [] (low_bits 8 0xAB ++ low_bits 8 0xCD)).
    { apply (step_push 16 8 (low_bits 8 0xAB) 0xCD 8); simpl; lia. }
    apply (history_cons 16 8 _ _ [0xAB] (low_bits 8 0xCD) [] []); [|constructor].
    apply (step_old 16 8 (low_bits 8 0xAB) (low_bits 8 0xCD)). simpl; lia.
  - vm_compute. do 2 eexists. split; [reflexivity|]. discriminate.
Qed.

Lemma queue_wide_bad w : w = 32 \/ w = 64 ->
  exists ops outs l, queue_history w w [] ops outs l /\
    bq_run w w little little bq_empty ops = UB.
Proof.
  intros Hw. exists [Push 1 (Z.to_nat w)], [], (low_bits (Z.to_nat w) 1). split.
  - apply (history_cons w w [] _ [] (low_bits (Z.to_nat w) 1)); [|constructor].
    apply (step_push w w [] 1 (Z.to_nat w)); destruct Hw; subst; simpl; lia.
  - destruct Hw; subst; reflexivity.
Qed.

(** * Bit streams *)
Definition src_bits (w : Z) (src : list Z) : list bool := flat_map (low_bits (Z.to_nat w)) src.

Definition st_inv (w : Z) (s : bstream) (bits : list bool) : Prop :=
  Forall (fun x => 0 <= x < 2 ^ w) (st_src s) /\
  exists l, holds w (st_left s) l /\ Z.of_nat (length l) < w /\ bits = l ++ src_bits w (st_src s).

Lemma app_split {A} (a b c d : list A) :
  a ++ b = c ++ d -> (length a <= length c)%nat -> exists x, c = a ++ x /\ b = x ++ d.
Proof.
  revert c. induction a as [|x a IH]; intros c E L; simpl in *.
  - exists c. auto.
  - destruct c as [|y c]; simpl in *; [lia|]. inv E.
    destruct (IH c H1) as (z & -> & ->); [lia|]. eauto.
Qed.

Lemma st_pop_ok w native source s g rest :
  w = 8 \/ w = 16 -> st_inv w s (g ++ rest) -> (0 < length g)%nat -> Z.of_nat (length g) <= w ->
  exists s', st_pop_bits w native source s (Z.of_nat (length g)) = Ok (val g, s') /\ st_inv w s' rest.
Proof.
  intros Hw (F & l & Hl & Ll & E) G1 G2. unfold st_pop_bits.
  destruct (Z.ltb_spec w (Z.of_nat (length g))); [lia|].
  destruct (Z.eqb_spec (Z.of_nat (length g)) 0); [lia|].
  assert (W : 0 < w <= 64) by lia.
  pose proof (val_range g) as Rg.
  assert (P : 2 ^ Z.of_nat (length g) <= 2 ^ w) by (apply Z.pow_le_mono_r; lia).
  assert (Sl : bq_size (st_left s) = Z.of_nat (length l)) by apply Hl.
  assert (Ql : bq_queue (st_left s) = val l) by apply Hl.
  destruct (Z.ltb_spec (bq_size (st_left s)) (Z.of_nat (length g))) as [C|C].
  - (* refill *)
    symmetry in E. destruct (app_split _ _ _ _ E ltac:(lia)) as (g2 & -> & E2).
    destruct (st_src s) as [|x src] eqn:ES.
    { simpl in E2. destruct g2; [|discriminate]. rewrite app_nil_r in C. lia. }
    inv F. simpl in E2. rewrite app_length in *.
    destruct (app_split g2 rest (low_bits (Z.to_nat w) x) (src_bits w src)) as (l' & EX & ER).
    { rewrite <- E2. reflexivity. }
    { rewrite low_bits_length. lia. }
    assert (N0 : Z.of_nat (length l + length g2) - Z.of_nat (length l) = Z.of_nat (length g2)) by lia.
    assert (R0 : forall lo,
      (if negb (bq_size (st_left s) =? 0)
       then let num_bits := Z.of_nat (length l + length g2) - bq_size (st_left s) in
            let (r, lo) := bq_pop_all w (st_left s) in
            if Z.max w 32 <=? num_bits then UB
            else Ok (wrap w (Z.shiftl r num_bits), num_bits, lo)
       else Ok (0, Z.of_nat (length l + length g2), st_left s)) = lo ->
      exists lo', lo = Ok (val l * 2 ^ Z.of_nat (length g2), Z.of_nat (length g2), lo') /\ holds w lo' []).
    { intros lo <-. rewrite Sl. destruct (Z.eqb_spec (Z.of_nat (length l)) 0).
      - destruct l; [|simpl in *; lia]. exists (st_left s). split; [|exact Hl].
        simpl. reflexivity.
      - simpl negb. cbv iota zeta. unfold bq_pop_all. rewrite N0.
        destruct (Z.leb_spec (Z.max w 32) (Z.of_nat (length g2))); [lia|].
        exists bq_empty. split; [|apply holds_empty; lia].
        rewrite Ql, Z.shiftl_mul_pow2 by lia.
        pose proof (val_range l). 
        assert (2 ^ Z.of_nat (length l) <= 2 ^ w) by (apply Z.pow_le_mono_r; lia).
        rewrite (wrap_id w (val l)) by lia.
        rewrite val_app in Rg. pose proof (val_range g2).
        pose proof (pow_pos (Z.of_nat (length g2)) ltac:(lia)).
        rewrite wrap_id by nia. reflexivity. }
    cbv zeta in R0. destruct (R0 _ eq_refl) as (lo' & -> & Hlo). clear R0. simpl bind at 2. cbv iota beta.
    destruct (push_back_ok w w native source lo' [] x (Z.to_nat w)) as (q1 & EQ & Hq1); auto; try lia.
    { simpl. lia. }
    rewrite Z2Nat.id in EQ by lia. rewrite EQ. simpl bind.
    simpl app in Hq1. rewrite EX in Hq1.
    destruct (pop_back_same w q1 g2 l') as (q2 & EP & Hq2); auto; try lia.
    { destruct Hq1 as (_ & _ & Hc). rewrite app_length in Hc. lia. }
    rewrite EP. simpl bind. pose proof (val_range g2).
    rewrite lor_disjoint by lia. rewrite <- val_app.
    assert (length g2 <> 0)%nat by lia.
    rewrite wrap_id by lia. eexists. split; [reflexivity|].
    split; [simpl; auto|]. exists l'. simpl. split; [exact Hq2|]. split; [|exact ER].
    assert (LL : length (low_bits (Z.to_nat w) x) = length (g2 ++ l')) by (rewrite EX; auto).
    rewrite low_bits_length, app_length in LL. lia.
  -
    destruct (app_split g rest l (src_bits w (st_src s)) E) as (l' & -> & ER); [lia|].
    destruct (pop_back_same w (st_left s) g l') as (q2 & EP & Hq2); auto; try lia.
    { destruct Hl as (_ & _ & Hc). rewrite app_length in Hc. lia. }
    unfold bind. rewrite EP. rewrite Z.lor_0_l, wrap_id by lia.
    eexists. split; [reflexivity|]. split; [simpl; auto|]. exists l'. simpl.
    rewrite app_length in Ll. repeat split; try apply Hq2; auto; lia.
Qed.

Lemma st_pop_past_end w native source s bits n :
  w = 8 \/ w = 16 -> st_inv w s bits -> (length bits < n)%nat -> Z.of_nat n <= w ->
  st_pop_bits w native source s (Z.of_nat n) = Throw.
Proof.
  intros Hw (F & l & Hl & Ll & E) L N. unfold st_pop_bits.
  destruct (Z.ltb_spec w (Z.of_nat n)); [lia|].
  destruct (Z.eqb_spec (Z.of_nat n) 0); [reflexivity|].
  assert (ES : st_src s = []).
  { destruct (st_src s) as [|x src]; auto. subst bits. simpl in L.
    rewrite !app_length, low_bits_length in L. lia. }
  assert (Sl : bq_size (st_left s) = Z.of_nat (length l)) by apply Hl.
  subst bits. rewrite ES in *. simpl in L. rewrite app_nil_r in L.
  destruct (Z.ltb_spec (bq_size (st_left s)) (Z.of_nat n)); [|lia].
  destruct (negb _); [|reflexivity]. cbv zeta. unfold bq_pop_all.
  destruct (Z.leb_spec (Z.max w 32) (Z.of_nat n - bq_size (st_left s))); [lia|reflexivity].
Qed.

Lemma st_run_ok w native source : w = 8 \/ w = 16 ->
  forall ns bits gs rest, groups ns bits gs rest -> Forall (fun n => (0 < n)%nat /\ Z.of_nat n <= w) ns ->
  forall s, st_inv w s bits ->
  exists s', st_run w native source s ns = Ok (map val gs, s') /\ st_inv w s' rest.
Proof.
  intros Hw ns bits gs rest H. induction H as [bits|g ns bits gs rest H IH]; intros F s I.
  - exists s. auto.
  - inv F. simpl. destruct (st_pop_ok w native source s g bits) as (s1 & E & I1); auto; try tauto; try lia.
    rewrite E. simpl. destruct (IH H3 s1 I1) as (s2 & E2 & I2). rewrite E2. simpl. eauto.
Qed.

Lemma st_run_new w native source src ns gs rest : w = 8 \/ w = 16 ->
  Forall (fun x => 0 <= x < 2 ^ w) src ->
  Forall (fun n => (0 < n)%nat /\ Z.of_nat n <= w) ns ->
  groups ns (flat_map (low_bits (Z.to_nat w)) src) gs rest ->
  exists s, st_run w native source (st_make src) ns = Ok (map val gs, s) /\
    (forall n, (length rest < n)%nat -> Z.of_nat n <= w ->
       st_pop_bits w native source s (Z.of_nat n) = Throw).
Proof.
  intros Hw F N G.
  destruct (st_run_ok w native source Hw _ _ _ _ G N (st_make src)) as (s & E & I).
  - split; auto. exists []. simpl. repeat split; auto; try apply holds_empty; lia.
  - exists s. split; auto. intros n L Ln. eapply st_pop_past_end; eauto.
Qed.

Lemma st_wide_bad w : w = 32 \/ w = 64 ->
  st_run w little little (st_make [1; 2]) [4%nat] = UB.
Proof. intros [-> | ->]; reflexivity. Qed.

(** skip_bits *)
Lemma skip_loop_ok w native source : w = 8 \/ w = 16 ->
  forall fuel s skipped rest n, st_inv w s (skipped ++ rest) ->
  Z.of_nat (length skipped) = n / w * w -> 0 <= n -> n < Z.of_nat fuel ->
  exists s', st_skip_loop w native source fuel s n = Ok s' /\ st_inv w s' rest.
Proof.
  intros Hw. induction fuel as [|fuel IH]; intros s skipped rest n I L N Fu; [lia|]. simpl.
  destruct (Z.leb_spec w n).
  - set (g := firstn (Z.to_nat w) skipped).
    assert (D : n / w = (n - w) / w + 1).
    { replace n with ((n - w) + 1 * w) at 1 by lia. apply Z.div_add. lia. }
    assert (0 <= (n - w) / w) by (apply Z.div_pos; lia).
    assert (Lg : length g = Z.to_nat w) by (unfold g; rewrite firstn_length; nia).
    rewrite <- (firstn_skipn (Z.to_nat w) skipped), <- app_assoc in I. fold g in I.
    destruct (st_pop_ok w native source s g _ Hw I) as (s1 & E & I1); try lia.
    rewrite Lg, Z2Nat.id in E by lia. rewrite E. simpl.
    apply (IH _ _ _ (n - w) I1); try lia. rewrite skipn_length. nia.
  - exists s. split; auto. rewrite Z.div_small in L by lia. destruct skipped; [auto|simpl in L; lia].
Qed.

Lemma skip_bits_ok w native source src skipped rest n : w = 8 \/ w = 16 ->
  Forall (fun x => 0 <= x < 2 ^ w) src -> 0 <= n ->
  flat_map (low_bits (Z.to_nat w)) src = skipped ++ rest ->
  Z.of_nat (length skipped) = n / w * w ->
  exists s, st_skip_bits w native source (st_make src) n = Ok s /\
    forall ns gs rest', Forall (fun n => (0 < n)%nat /\ Z.of_nat n <= w) ns ->
      groups ns rest gs rest' ->
      exists s', st_run w native source s ns = Ok (map val gs, s').
Proof.
  intros Hw F N E L.
  destruct (skip_loop_ok w native source Hw (S (Z.to_nat n)) (st_make src) skipped rest n) as (s & ES & I); auto; try lia.
  - split; auto. exists []. simpl. repeat split; auto; try apply holds_empty; try lia.
  - exists s. split; auto. intros ns gs rest' Fn G.
    destruct (st_run_ok w native source Hw _ _ _ _ G Fn s I) as (s' & E' & _). eauto.
Qed.

Lemma skip_bits_bad :
  exists src n s v s', st_skip_bits 8 little little (st_make src) n = Ok s /\
    n = 4 /\ st_pop_bits 8 little little s 4 = Ok (v, s') /\
    v <> val (firstn 4 (skipn 4 (flat_map (low_bits 8) src))).
Proof.
  exists [0x12], 4, (st_make [0x12]), 1, {| st_src := []; st_left := {| bq_size := 4; bq_queue := 2 |} |}.
  split; [reflexivity|]. split; [reflexivity|]. split; [reflexivity|]. vm_compute. discriminate.
Qed.
