From Verif Require Import Common CommonProofs Ints BitsModel SpecBits BitsProofs BitQueueProofs StringView SpecString StringViewProofs.
From Coq Require Import ZifyNat.
Open Scope Z_scope.
Local Arguments Z.mul : simpl never.
Local Arguments Z.add : simpl never.
Local Arguments Z.sub : simpl never.
Local Arguments Z.pow : simpl never.
Local Arguments Z.of_nat : simpl never.
Ltac Zify.zify_post_hook ::= Z.div_mod_to_equations.

Lemma wrap8_inj lo a b : lo <= a < lo + 256 -> lo <= b < lo + 256 -> wrap 8 a = wrap 8 b -> a = b.
Proof. unfold wrap. change (2 ^ 8) with 256. lia. Qed.
Lemma wrap8_eqb lo a b : lo <= a < lo + 256 -> lo <= b < lo + 256 -> (wrap 8 a =? wrap 8 b) = (a =? b).
Proof.
  intros A B. destruct (Z.eqb_spec a b) as [-> | N].
  - apply Z.eqb_refl.
  - apply Z.eqb_neq. intros E. apply N. eapply wrap8_inj; eauto.
Qed.
Lemma wrap8_range a : 0 <= wrap 8 a < 256.
Proof. unfold wrap. change (2 ^ 8) with 256. lia. Qed.

Lemma idx_ext f g s : (forall c, In c s -> f c = g c) -> idx f s = idx g s.
Proof.
  induction s as [|c s IH]; intros H; simpl; auto. rewrite (H c) by (simpl; auto).
  destruct (g c); auto. f_equal. apply IH. intros; apply H; simpl; auto.
Qed.

Lemma bytes_skipn lo n s : bytes lo s -> bytes lo (skipn n s).
Proof. unfold bytes. rewrite !Forall_forall. intros H c I. apply H. rewrite <- (firstn_skipn n s). apply in_or_app; auto. Qed.
Lemma bytes_in lo s c : bytes lo s -> In c s -> lo <= c < lo + 256.
Proof. unfold bytes. rewrite Forall_forall. auto. Qed.

(** * find( c ) *)
Definition eq8 (c x : Z) : bool := wrap 8 x =? wrap 8 c.
Definition eqc (c x : Z) : bool := x =? c.
Lemma memchr_ok m c s : forall p, hold m p s ->
  memchr_loop (length s) m p c =
    Ok (if (idx (eq8 c) s =? length s)%nat then None
        else Some (p + Z.of_nat (idx (eq8 c) s))).
Proof.
  induction s as [|x s IH]; intros p H; simpl; auto.
  apply hold_cons in H. destruct H as (E & H). rewrite E. cbn [bind].
  fold (eq8 c x). destruct (eq8 c x); [simpl; do 2 f_equal; lia|]. rewrite IH by auto. simpl.
  destruct (_ =? _)%nat; auto. do 2 f_equal. lia.
Qed.

Lemma find_char_loop_ok m c first s : forall n, hold m (first + n) s ->
  find_char_loop (length s) m first n c =
    Ok (if (idx (eqc c) s =? length s)%nat then npos else n + Z.of_nat (idx (eqc c) s)).
Proof.
  induction s as [|x s IH]; intros n H; simpl; auto.
  apply hold_cons in H. destruct H as (E & H). rewrite E. cbn [bind].
  fold (eqc c x). destruct (eqc c x); [simpl; f_equal; lia|].
  replace (first + n + 1) with (first + (n + 1)) in H by lia. rewrite IH by auto. simpl.
  destruct (_ =? _)%nat; auto. f_equal. lia.
Qed.

Lemma first_res_eq s lo c :
  (lo <= length s)%nat ->
  first_where (fun i => (lo <= i)%nat /\ char_is s (fun x => x = c) i) (first_res s lo (eqc c)).
Proof. intros L. apply first_res_spec; auto. intros x _. apply Z.eqb_eq. Qed.

(** What find( c ) computes, for every position. *)
Lemma find_char_runtime dbg lo v c pos : valid v -> 0 <= pos <= vsize v ->
  bytes lo (c :: chars v) ->
  exists r, sv_find_char dbg true v c pos = Ok r /\
    first_where (fun i => char_is (chars v) (fun x => x = c) (Z.to_nat pos + i)) r.
Proof.
  intros V Hp B. unfold sv_find_char, chk. pose proof (vsize_range v). pose proof (chars_length v V) as CL.
  destruct (Z.leb_spec pos (vsize v)); [|lia]. cbn [negb]. rewrite andb_false_r. cbn [bind].
  rewrite padd_ok by auto. cbn [bind]. rewrite vend_ok by auto. cbn [bind]. cbv zeta.
  replace (voff v + vsize v - (voff v + pos)) with (vsize v - pos) by lia. rewrite sz_small by lia.
  pose proof (hold_at v pos V Hp) as H'.
  rewrite (hold_padd _ _ _ _ H') by (rewrite skipn_length; lia). cbn [bind].
  replace (Z.to_nat (vsize v - pos)) with (length (skipn (Z.to_nat pos) (chars v))) by (rewrite skipn_length; lia).
  rewrite memchr_ok by auto. cbn [bind].
  inversion B as [|? ? Bc Bs]; subst.
  rewrite (idx_ext _ (eqc c)) by (intros x I; apply (wrap8_eqb lo); auto;
     apply (bytes_in lo (skipn (Z.to_nat pos) (chars v))); auto; apply bytes_skipn; auto).
  pose proof (first_res_spec (skipn (Z.to_nat pos) (chars v)) 0 (eqc c) (fun x => x = c)) as F.
  assert (Fs : first_where (fun i => (0 <= i)%nat /\ char_is (skipn (Z.to_nat pos) (chars v)) (fun x => x = c) i)
                (first_res (skipn (Z.to_nat pos) (chars v)) 0 (eqc c))).
  { apply F; [|lia]. intros x _. apply Z.eqb_eq. }
  unfold first_res in Fs. cbv zeta in Fs. simpl plus in Fs. simpl skipn in Fs.
  pose proof (idx_le (eqc c) (skipn (Z.to_nat pos) (chars v))) as IL. rewrite skipn_length in IL.
  eexists. split.
  2: { eapply first_where_ext; [|exact Fs]. intros i. unfold char_is. rewrite nth_error_skipn.
       split; [intros (_ & A); exact A|intros A; split; [lia|exact A]]. }
  destruct (_ =? _)%nat; auto. rewrite sz_small by lia. f_equal. lia.
Qed.

Lemma find_char_loop_path dbg v c pos : valid v -> 0 <= pos <= vsize v ->
  exists r, sv_find_char dbg false v c pos = Ok r /\
    first_where (fun i => pos <= Z.of_nat i /\ char_is (chars v) (fun x => x = c) (Z.to_nat pos + i)) r.
Proof.
  intros V Hp. unfold sv_find_char, chk. pose proof (vsize_range v). pose proof (chars_length v V) as CL.
  destruct (Z.leb_spec pos (vsize v)); [|lia]. cbn [negb]. rewrite andb_false_r. cbn [bind].
  rewrite padd_ok by auto. cbn [bind]. rewrite vend_ok by auto. cbn [bind]. cbv zeta.
  replace (voff v + vsize v - (voff v + pos)) with (vsize v - pos) by lia. rewrite sz_small by lia.
  destruct (Z.le_gt_cases (2 * pos) (vsize v)) as [L2|G2].
  - pose proof (hold_at v (pos + pos) V ltac:(lia)) as H'. rewrite Z.add_assoc in H'.
    replace (Z.to_nat (vsize v - pos - pos)) with (length (skipn (Z.to_nat (pos + pos)) (chars v))) by (rewrite skipn_length; lia).
    rewrite find_char_loop_ok by auto.
    eexists. split; [reflexivity|].
    pose proof (first_res_eq (chars v) (Z.to_nat (pos + pos)) c ltac:(lia)) as F. unfold first_res in F. cbv zeta in F.
    pose proof (idx_le (eqc c) (skipn (Z.to_nat (pos + pos)) (chars v))) as IL.
    rewrite skipn_length in *.
    destruct F as [(E & N)|(j & E & (Lj & Cj) & Nj)].
    + destruct (Nat.eqb_spec (Z.to_nat (pos + pos) + idx (eqc c) (skipn (Z.to_nat (pos + pos)) (chars v))) (length (chars v))) as [E1|E1].
      * destruct (Nat.eqb_spec (idx (eqc c) (skipn (Z.to_nat (pos + pos)) (chars v))) (length (chars v) - Z.to_nat (pos + pos))) as [E2|E2]; [|lia].
        left. split; auto. intros i (Hi & C). apply (N (Z.to_nat pos + i)%nat). split; auto. lia.
      * unfold npos in E. lia.
    + destruct (Nat.eqb_spec (Z.to_nat (pos + pos) + idx (eqc c) (skipn (Z.to_nat (pos + pos)) (chars v))) (length (chars v))) as [E1|E1].
      * pose proof Cj as (x & Ex & _). pose proof (nth_error_some_lt _ _ _ Ex). unfold npos in E. lia.
      * destruct (Nat.eqb_spec (idx (eqc c) (skipn (Z.to_nat (pos + pos)) (chars v))) (length (chars v) - Z.to_nat (pos + pos))) as [E2|E2]; [lia|].
        right. exists (j - Z.to_nat pos)%nat. split; [lia|]. split.
        -- split; [lia|]. replace (Z.to_nat pos + (j - Z.to_nat pos))%nat with j by lia. auto.
        -- intros i Hi (Li & Ci). apply (Nj (Z.to_nat pos + i)%nat); [lia|]. split; auto. lia.
  - replace (Z.to_nat (vsize v - pos - pos)) with O by lia. simpl. eexists. split; [reflexivity|].
    left. split; auto. intros i (Hi & x & Ex & _). pose proof (nth_error_some_lt _ _ _ Ex). lia.
Qed.

Lemma find_char_zero dbg runtime lo v c : valid v ->
  (runtime = true -> bytes lo (c :: chars v)) ->
  exists r, sv_find_char dbg runtime v c 0 = Ok r /\
    first_where (char_is (chars v) (fun x => x = c)) r.
Proof.
  intros V B. pose proof (vsize_range v). destruct runtime.
  - destruct (find_char_runtime dbg lo v c 0 V ltac:(lia) (B eq_refl)) as (r & E & F). exists r. split; auto.
  - destruct (find_char_loop_path dbg v c 0 V ltac:(lia)) as (r & E & F). exists r. split; auto.
    eapply first_where_ext; [|exact F]. intros i. simpl. split; [intros (_ & A); exact A|intros A; split; [lia|exact A]].
Qed.

(** * rfind *)
Lemma sv2_compare_ok m0 m1 t : forall s p0 p1, hold m0 p0 s -> hold m1 p1 t -> (length t <= length s)%nat ->
  exists r, sv2_compare (length t) m0 p0 m1 p1 = Ok r /\ (r = 0 <-> exists b, s = t ++ b).
Proof.
  induction t as [|d t IH]; intros s p0 p1 H0 H1 L; simpl.
  - exists 0. split; auto. split; eauto.
  - destruct s as [|c s]; [simpl in L; lia|].
    apply hold_cons in H0. apply hold_cons in H1. destruct H0 as (E0 & H0), H1 as (E1 & H1).
    rewrite E0, E1. cbn [bind]. cbv zeta.
    destruct (Z.ltb_spec (c - d) 0); [eexists; split; [reflexivity|]; split; [discriminate|]; intros (b & E); inv E; lia|].
    destruct (Z.ltb_spec 0 (c - d)); [eexists; split; [reflexivity|]; split; [discriminate|]; intros (b & E); inv E; lia|].
    destruct (IH s (p0 + 1) (p1 + 1) H0 H1) as (r & E & S); [simpl in L; lia|].
    exists r. split; auto. rewrite S. assert (c = d) by lia. subst.
    split; intros (b & Eb); exists b; congruence.
Qed.

Lemma rfind_loop_ok v w : valid v -> valid w -> forall pos,
  Z.of_nat pos + vsize w <= vsize v ->
  exists r, rfind_loop pos v w = Ok r /\
    last_where (fun i => (i <= pos)%nat /\ occurs (chars v) (chars w) i) r.
Proof.
  intros V W. pose proof (chars_length v V) as CL. pose proof (chars_length w W) as CW. pose proof (vsize_range w).
  assert (ST : forall pos, Z.of_nat pos + vsize w <= vsize v -> exists c,
     padd (vmem v) (voff v) (Z.of_nat pos) = Ok (voff v + Z.of_nat pos) /\
     sv2_compare (Z.to_nat (vsize w)) (vmem v) (voff v + Z.of_nat pos) (vmem w) (voff w) = Ok c /\
     (c = 0 <-> occurs (chars v) (chars w) pos)).
  { intros pos Hp. pose proof (hold_at v (Z.of_nat pos) V ltac:(lia)) as H'. rewrite Nat2Z.id in H'.
    destruct (sv2_compare_ok _ _ (chars w) _ _ _ H' (chars_hold w W)) as (c & E & S).
    { rewrite skipn_length. lia. }
    exists c. split; [apply padd_ok; auto; lia|]. rewrite (chars_len w W). split; auto.
    rewrite S. rewrite <- occurs_zero. rewrite occurs_skipn by lia. rewrite Nat.add_0_r. tauto. }
  induction pos as [|pos IH]; intros Hp; destruct (ST _ Hp) as (c & E1 & E2 & SS); cbn [rfind_loop];
    rewrite E1; cbn [bind]; rewrite E2; cbn [bind]; destruct (Z.eqb_spec c 0) as [C|C].
  - eexists. split; [reflexivity|]. right. exists O. split; auto. split; [split; auto; tauto|]. intros; lia.
  - eexists. split; [reflexivity|]. left. split; auto. intros i (Hi & Oc). assert (i = 0%nat) by lia. subst i. tauto.
  - eexists. split; [reflexivity|]. right. exists (S pos). split; auto. split; [split; auto; tauto|]. intros; lia.
  - destruct IH as (r & E & L); [lia|]. exists r. split; auto.
    eapply last_where_ext; [|exact L]. intros i. split; intros (A & B); split; auto.
    assert (i <> S pos) by (intros ->; tauto). lia.
Qed.

Lemma rfind_ok v w pos : valid v -> valid w -> 0 <= pos ->
  exists r, sv_rfind v w pos = Ok r /\
    last_where (fun i => Z.of_nat i <= pos /\ occurs (chars v) (chars w) i) r.
Proof.
  intros V W Hp. pose proof (chars_length v V) as CL. pose proof (chars_length w W) as CW. pose proof (vsize_range w).
  unfold sv_rfind. destruct (Z.ltb_spec (vsize v) (vsize w)).
  - eexists. split; [reflexivity|]. left. split; auto. intros i (_ & O). apply occurs_length in O. lia.
  - cbv zeta. rewrite vempty_spec by auto. destruct (chars w) as [|d t] eqn:E.
    + eexists. split; [reflexivity|]. simpl in CW. right. exists (Z.to_nat (Z.min pos (vsize v - vsize w))).
      split; [lia|]. split.
      * split; [lia|]. exists (firstn (Z.to_nat (Z.min pos (vsize v - vsize w))) (chars v)),
          (skipn (Z.to_nat (Z.min pos (vsize v - vsize w))) (chars v)).
        simpl app. rewrite firstn_skipn. split; auto. rewrite firstn_length. lia.
      * intros j Hj (A & O). apply occurs_length in O. simpl in O. lia.
    + rewrite <- E in *. destruct (rfind_loop_ok v w V W (Z.to_nat (Z.min pos (vsize v - vsize w)))) as (r & Er & L); [lia|].
      exists r. split; auto. eapply last_where_ext; [|exact L]. intros i. split; intros (A & O); split; auto; [lia|].
      apply occurs_length in O. lia.
Qed.

(** * find_first_of *)
Lemma fold_stuck (l : list Z) r : (forall m, r <> Ok m) ->
  fold_left (fun (r : res (list Z)) x => m <- r ;; bs_set m x) l r = r.
Proof.
  induction l as [|x l IH]; intros H; simpl; auto.
  destruct r; cbn [bind]; try (apply IH; congruence). exfalso. eapply H; eauto.
Qed.

Lemma needle_bits_ok m t : forall p bs, hold m p t ->
  needle_bits (length t) m p bs =
    fold_left (fun r x => m <- r ;; bs_set m x) (map (wrap 8) t) (Ok bs).
Proof.
  induction t as [|c t IH]; intros p bs H; simpl; auto.
  apply hold_cons in H. destruct H as (E & H). rewrite E. cbn [bind].
  destruct (bs_set bs (wrap 8 c)) eqn:B; cbn [bind]; [apply IH; auto| | |]; rewrite fold_stuck; auto; discriminate.
Qed.

Lemma needle_set m q t lo : hold m q t -> bytes lo t ->
  exists bs, needle_bits (length t) m q (bs_new 256) = Ok bs /\
    forall c, lo <= c < lo + 256 -> bs_test bs (wrap 8 c) = Ok (existsb (Z.eqb c) t).
Proof.
  intros H B. rewrite needle_bits_ok by auto.
  destruct (bs_set_many 256 (map (wrap 8) t)) as (bs & E & T).
  - lia.
  - intros x I. apply in_map_iff in I. destruct I as (y & <- & _). apply wrap8_range.
  - exists bs. split; [exact E|]. intros c Hc. destruct (T (wrap 8 c) (wrap8_range c)) as (b & Eb & S).
    rewrite Eb. f_equal. destruct (existsb (Z.eqb c) t) eqn:X.
    + apply existsb_exists in X. destruct X as (d & I & Q). apply Z.eqb_eq in Q. subst d.
      apply S. apply in_map; auto.
    + destruct b; auto. exfalso. destruct S as (S & _). specialize (S eq_refl). apply in_map_iff in S.
      destruct S as (d & Q & I). assert (d = c) by (apply (wrap8_inj lo); auto; eapply bytes_in; eauto). subst d.
      assert (existsb (Z.eqb c) t = true); [|congruence]. apply existsb_exists. exists c. split; auto. apply Z.eqb_refl.
Qed.

Lemma first_bit_loop_ok m bs f s : (forall c, In c s -> bs_test bs (wrap 8 c) = Ok (f c)) ->
  forall p, hold m p s -> first_bit_loop (length s) m p bs = Ok (p + Z.of_nat (idx f s)).
Proof.
  induction s as [|c s IH]; intros T p H; simpl; [f_equal; lia|].
  apply hold_cons in H. destruct H as (E & H). rewrite E. cbn [bind]. rewrite T by (simpl; auto). cbn [bind].
  destruct (f c); [f_equal; lia|]. rewrite IH; auto; [f_equal; lia|]. intros; apply T; simpl; auto.
Qed.

Lemma any_eq_ok m c t : forall q, hold m q t -> any_eq (length t) c m q = Ok (existsb (Z.eqb c) t).
Proof.
  induction t as [|d t IH]; intros q H; simpl; auto.
  apply hold_cons in H. destruct H as (E & H). rewrite E. cbn [bind].
  destruct (c =? d); auto.
Qed.

Lemma first_eq_loop_ok m nm q t s : hold nm q t -> forall p, hold m p s ->
  first_eq_loop (length s) m p nm q (length t) = Ok (p + Z.of_nat (idx (fun c => existsb (Z.eqb c) t) s)).
Proof.
  intros Ht. induction s as [|c s IH]; intros p H; simpl; [f_equal; lia|].
  apply hold_cons in H. destruct H as (E & H). rewrite E. cbn [bind]. rewrite any_eq_ok by auto. cbn [bind].
  destruct (existsb (Z.eqb c) t); [f_equal; lia|]. rewrite IH; auto; f_equal; lia.
Qed.

Lemma first_not_loop_ok m nm q t s : hold nm q t -> forall p, hold m p s ->
  first_not_loop (length s) m p nm q (length t) = Ok (p + Z.of_nat (idx (fun c => negb (existsb (Z.eqb c) t)) s)).
Proof.
  intros Ht. induction s as [|c s IH]; intros p H; simpl; [f_equal; lia|].
  apply hold_cons in H. destruct H as (E & H). rewrite E. cbn [bind]. rewrite any_eq_ok by auto. cbn [bind].
  destruct (existsb (Z.eqb c) t); cbn [negb]; [|f_equal; lia]. rewrite IH; auto; f_equal; lia.
Qed.

Lemma existsb_in c t : existsb (Z.eqb c) t = true <-> In c t.
Proof.
  rewrite existsb_exists. split.
  - intros (d & I & Q). apply Z.eqb_eq in Q. subst; auto.
  - intros I. exists c. split; auto. apply Z.eqb_refl.
Qed.

Lemma first_of_ptr_ok one_byte lo m nm p q s t : hold m p s -> hold nm q t ->
  (one_byte = true -> bytes lo (s ++ t)) ->
  first_of_ptr one_byte m p (length s) nm q (length t) = Ok (p + Z.of_nat (idx (fun c => existsb (Z.eqb c) t) s)).
Proof.
  intros Hs Ht B. unfold first_of_ptr. destruct one_byte.
  - specialize (B eq_refl). unfold bytes in B. apply Forall_app in B. destruct B as (Bs & Bt).
    destruct (needle_set nm q t lo Ht Bt) as (bs & E & T). rewrite E. cbn [bind].
    apply first_bit_loop_ok; auto. intros c I. apply T. exact (bytes_in lo s c Bs I).
  - apply first_eq_loop_ok; auto.
Qed.

Lemma find_first_of_ok one_byte lo v w pos : valid v -> valid w -> 0 <= pos ->
  (one_byte = true -> bytes lo (chars v ++ chars w)) ->
  exists r, find_first_of one_byte v w pos = Ok r /\
    first_where (fun i => pos <= Z.of_nat i /\ char_is (chars v) (fun c => In c (chars w)) i) r.
Proof.
  intros V W Hp B. pose proof (chars_length v V) as CL. unfold find_first_of.
  destruct (Z.leb_spec (vsize v) pos); cbn [orb].
  - eexists. split; [reflexivity|]. left. split; auto. intros i (Hi & x & Ex & _).
    pose proof (nth_error_some_lt _ _ _ Ex). lia.
  - rewrite vempty_spec by auto. destruct (chars w) as [|d t] eqn:Ew.
    + eexists. split; [reflexivity|]. left. split; auto. intros i (Hi & x & Ex & []).
    + rewrite <- Ew in *. rewrite padd_ok by (auto; lia). cbn [bind].
      replace (Z.to_nat (vsize v - pos)) with (length (skipn (Z.to_nat pos) (chars v))) by (rewrite skipn_length; lia).
      rewrite (chars_len w W). pose proof (vsize_range v).
      rewrite (first_of_ptr_ok one_byte lo _ _ _ _ (skipn (Z.to_nat pos) (chars v)) (chars w)).
      2: apply hold_at; auto; lia.
      2: apply chars_hold; auto.
      2: { intros O. specialize (B O). unfold bytes in *. apply Forall_app in B. destruct B.
           apply Forall_app. split; auto. apply bytes_skipn; auto. }
      cbn [bind]. rewrite vend_ok by auto. cbn [bind].
      pose proof (idx_le (fun c => existsb (Z.eqb c) (chars w)) (skipn (Z.to_nat pos) (chars v))) as IL.
      rewrite skipn_length in IL. rewrite pos_result by (auto; lia). rewrite Nat2Z.id.
      exists (first_res (chars v) (Z.to_nat pos) (fun c => existsb (Z.eqb c) (chars w))). split.
      * unfold first_res. cbv zeta. destruct (_ =? _)%nat; auto.
      * eapply first_where_ext; [|apply (first_res_spec (chars v) (Z.to_nat pos) _ (fun c => In c (chars w)))].
        -- intros i. split; intros (A & C); split; auto; lia.
        -- intros c _. apply existsb_in.
        -- lia.
Qed.

Lemma find_first_not_of_ok dbg v w pos : valid v -> valid w -> 0 <= pos ->
  exists r, find_first_not_of dbg v w pos = Ok r /\
    first_where (fun i => pos <= Z.of_nat i /\ char_is (chars v) (fun c => ~ In c (chars w)) i) r.
Proof.
  intros V W Hp. pose proof (chars_length v V) as CL. unfold find_first_not_of.
  destruct (Z.leb_spec (vsize v) pos); cbn [orb].
  - eexists. split; [reflexivity|]. left. split; auto. intros i (Hi & x & Ex & _).
    pose proof (nth_error_some_lt _ _ _ Ex). lia.
  - pose proof (vsize_range v). rewrite vempty_spec by auto. destruct (chars w) as [|d t] eqn:Ew.
    + eexists. split; [reflexivity|]. right. exists (Z.to_nat pos). split; [lia|]. split.
      * split; [lia|]. destruct (nth_error (chars v) (Z.to_nat pos)) as [c|] eqn:Ec.
        -- exists c. split; auto.
        -- apply nth_error_None in Ec. lia.
      * intros j Hj (A & _). lia.
    + rewrite <- Ew in *. unfold substr_from.
      destruct (substr_ok dbg v pos npos V) as (hay & Eh & Vh & Ch & Mh & Oh & _ & Sh); [lia|unfold npos; lia|].
      rewrite Eh. cbn [bind]. rewrite (chars_len w W), (chars_len hay Vh).
      assert (Ch' : chars hay = skipn (Z.to_nat pos) (chars v)).
      { rewrite Ch. apply firstn_all2. rewrite skipn_length. unfold npos. lia. }
      rewrite first_not_loop_ok by (try apply chars_hold; auto).
      cbn [bind]. rewrite vend_ok by auto. cbn [bind]. rewrite Ch', Oh.
      pose proof (idx_le (fun c => negb (existsb (Z.eqb c) (chars w))) (skipn (Z.to_nat pos) (chars v))) as IL.
      rewrite skipn_length in IL. rewrite pos_result by (auto; lia). rewrite Nat2Z.id.
      exists (first_res (chars v) (Z.to_nat pos) (fun c => negb (existsb (Z.eqb c) (chars w)))). split.
      * unfold first_res. cbv zeta. destruct (_ =? _)%nat; auto.
      * eapply first_where_ext; [|apply (first_res_spec (chars v) (Z.to_nat pos) _ (fun c => ~ In c (chars w)))].
        -- intros i. split; intros (A & C); split; auto; lia.
        -- intros c _. rewrite <- existsb_in, negb_true_iff. destruct (existsb (Z.eqb c) (chars w)); split; congruence.
        -- lia.
Qed.
