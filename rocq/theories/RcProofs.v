(** Proofs about RcPtr.v. *)
From Verif Require Import Common CommonProofs Ints BitsProofs RcPtr SpecRc.
From Coq Require Import ZifyBool.
Open Scope Z_scope.
Local Arguments Z.of_nat : simpl never.

Definition hits (k : nat) (v : option rc) : bool :=
  match v with Some p => match m_pointer p with Some j => (j =? k)%nat | None => false end | None => false end.
Definition b2n (b : bool) : nat := if b then 1%nat else 0%nat.
Definition cnt (k : nat) (l : list (option rc)) : nat := length (filter (hits k) l).

Lemma owners_cnt w k : owners w k = cnt k (vars w).
Proof. reflexivity. Qed.

Lemma cnt_upd k l : forall i v v', nth_error l i = Some v -> (cnt k (upd l i v') + b2n (hits k v) = cnt k l + b2n (hits k v'))%nat.
Proof.
  induction l as [|x l IH]; intros i v v' H; [destruct i; discriminate|].
  destruct i as [|i]; cbn [nth_error upd] in *; unfold cnt in *; cbn [filter].
  - inversion H; subst. destruct (hits k v), (hits k v'); cbn; lia.
  - specialize (IH i v v' H). destruct (hits k x); cbn [length]; lia.
Qed.

Lemma cnt_app k l v : cnt k (l ++ [v]) = (cnt k l + b2n (hits k v))%nat.
Proof. unfold cnt. rewrite filter_app, app_length. cbn. destruct (hits k v); reflexivity. Qed.

Lemma cnt_pos k l : (0 < cnt k l)%nat <-> exists i v, nth_error l i = Some v /\ hits k v = true.
Proof.
  unfold cnt. split.
  - intros L. destruct (filter (hits k) l) as [|v f] eqn:E; [cbn in L; lia|].
    assert (I : In v (filter (hits k) l)) by (rewrite E; left; auto). apply filter_In in I. destruct I as [I J].
    apply In_nth_error in I. destruct I as [i I]. exists i, v. auto.
  - intros (i & v & N & J). apply nth_error_In in N. assert (I : In v (filter (hits k) l)) by (apply filter_In; auto).
    destruct (filter (hits k) l); [contradiction I | cbn; lia].
Qed.

Lemma cnt_le k l : (cnt k l <= length l)%nat.
Proof. unfold cnt. induction l as [|x l IH]; cbn; [lia|]. destruct (hits k x); cbn; lia. Qed.

Lemma upd_same_len {A} (l : list A) i x : length (upd l i x) = length l.
Proof. revert i. induction l as [|y l IH]; intros [|i]; cbn; auto. Qed.
Lemma upd_at {A} (l : list A) i x : (i < length l)%nat -> nth_error (upd l i x) i = Some x.
Proof. revert i. induction l as [|y l IH]; intros [|i] H; cbn in *; try lia; auto. apply IH. lia. Qed.
Lemma upd_else {A} (l : list A) i j x : i <> j -> nth_error (upd l i x) j = nth_error l j.
Proof. revert i j. induction l as [|y l IH]; intros [|i] [|j] H; cbn; auto; try congruence. Qed.
Lemma upd_upd {A} (l : list A) i x y : upd (upd l i x) i y = upd l i y.
Proof. revert i. induction l as [|z l IH]; intros [|i]; cbn; auto. f_equal. auto. Qed.
Lemma upd_self {A} (l : list A) i x : nth_error l i = Some x -> upd l i x = l.
Proof. revert i. induction l as [|z l IH]; intros [|i] H; cbn in *; auto; [inversion H; auto | f_equal; auto]. Qed.
Lemma nth_lt {A} (l : list A) i x : nth_error l i = Some x -> (i < length l)%nat.
Proof. intros H. apply nth_error_Some. congruence. Qed.

(** ** The invariant *)
Definition heap_ok (o : nat -> nat) (objs : list bool) (cts : list (option Z)) : Prop :=
  length objs = length cts /\ forall k, (k < length objs)%nat ->
    nth_error objs k = Some (negb (o k =? 0)%nat) /\
    nth_error cts k = Some (if (o k =? 0)%nat then None else Some (Z.of_nat (o k))).
Definition var_ok (n : nat) (v : option rc) : Prop :=
  match v with None => True | Some p => m_pointer p = m_ref_count p /\ forall k, m_pointer p = Some k -> (k < n)%nat end.
Definition Inv (w : world) : Prop :=
  heap_ok (fun k => cnt k (vars w)) (objects w) (counts w) /\ Forall (var_ok (length (objects w))) (vars w).

Lemma heap_ext o o' objs cts : (forall k, (k < length objs)%nat -> o k = o' k) -> heap_ok o objs cts -> heap_ok o' objs cts.
Proof.
  intros E [L H]. split; [auto|]. intros k K. rewrite <- E by auto. auto.
Qed.

Lemma get_ok w i p : nth_error (vars w) i = Some (Some p) -> get_var w i = Ok p.
Proof. intros E. unfold get_var. rewrite E. reflexivity. Qed.

Lemma inc_ok o w p k : heap_ok o (objects w) (counts w) -> m_ref_count p = Some k -> (k < length (objects w))%nat ->
  (0 < o k)%nat -> Z.of_nat (o k) + 1 < 2 ^ 64 ->
  exists w', inc w p = Ok w' /\ vars w' = vars w /\ objects w' = objects w /\
    heap_ok (fun j => o j + b2n (j =? k)%nat)%nat (objects w') (counts w').
Proof.
  intros [L H] R K P B. destruct (H k K) as [HO HC]. unfold inc, ref_count. rewrite R, HC.
  replace (o k =? 0)%nat with false by (symmetry; apply Nat.eqb_neq; lia). cbn [bind].
  eexists. split; [reflexivity|]. split; [reflexivity|]. split; [reflexivity|]. cbn [put_count objects counts].
  split; [rewrite upd_same_len; auto|]. intros j J. destruct (Nat.eq_dec j k) as [E | NE].
  - subst j. rewrite Nat.eqb_refl. cbn [b2n]. rewrite upd_at by lia. destruct (H k K) as [HO' _]. rewrite HO'.
    replace (o k =? 0)%nat with false by (symmetry; apply Nat.eqb_neq; lia).
    replace (o k + 1 =? 0)%nat with false by (symmetry; apply Nat.eqb_neq; lia). split; [reflexivity|].
    do 2 f_equal. unfold sz. rewrite Z.mod_small by lia. lia.
  - replace (j =? k)%nat with false by (symmetry; apply Nat.eqb_neq; auto). cbn [b2n]. rewrite Nat.add_0_r.
    rewrite upd_else by auto. apply H. auto.
Qed.

Lemma reset_ok o w i p : heap_ok o (objects w) (counts w) -> nth_error (vars w) i = Some (Some p) ->
  m_pointer p = m_ref_count p -> (forall k, m_pointer p = Some k -> (k < length (objects w))%nat /\ (0 < o k)%nat /\ Z.of_nat (o k) < 2 ^ 64) ->
  exists w' p', reset w i = Ok w' /\ vars w' = upd (vars w) i (Some p') /\ length (objects w') = length (objects w) /\
    heap_ok (fun j => o j - b2n (hits j (Some p)))%nat (objects w') (counts w') /\
    p' = match m_pointer p with Some k => if (o k =? 1)%nat then rc_null else p | None => p end.
Proof.
  intros [L H] V E B. unfold reset. rewrite (get_ok _ _ _ V). cbn [bind]. unfold reset_value.
  cbn [hits]. destruct (m_pointer p) as [k|] eqn:M.
  - destruct (B k eq_refl) as (K & P & B'). destruct (H k K) as [HO HC]. unfold ref_count. rewrite <- E, HC.
    replace (o k =? 0)%nat with false in * by (symmetry; apply Nat.eqb_neq; lia). cbn [bind negb] in *.
    unfold sz. rewrite Z.mod_small by lia.
    destruct (Nat.eqb_spec (o k) 1) as [O1 | O1].
    + replace (Z.of_nat (o k) - 1 =? 0) with true by lia. unfold delete_object. cbn [put_count objects]. rewrite HO. cbn [bind].
      eexists _, _. split; [reflexivity|]. cbn [set_var vars objects counts put_count].
      split; [reflexivity|]. split; [apply upd_same_len|]. split; [|reflexivity].
      split; [rewrite !upd_same_len; auto|]. intros j J. rewrite upd_same_len in J. destruct (Nat.eq_dec k j) as [EQ | NE].
      * subst j. rewrite Nat.eqb_refl. cbn [b2n]. rewrite !upd_at by lia. rewrite O1. split; reflexivity.
      * replace (k =? j)%nat with false by (symmetry; apply Nat.eqb_neq; auto). cbn [b2n]. rewrite Nat.sub_0_r.
        rewrite !upd_else by auto. apply H. auto.
    + replace (Z.of_nat (o k) - 1 =? 0) with false by lia. cbn [bind].
      eexists _, _. split; [reflexivity|]. cbn [set_var vars objects counts put_count].
      split; [reflexivity|]. split; [reflexivity|]. split; [|reflexivity].
      split; [rewrite !upd_same_len; auto|]. intros j J. destruct (Nat.eq_dec k j) as [EQ | NE].
      * subst j. rewrite Nat.eqb_refl. cbn [b2n]. rewrite !upd_at by lia.
        replace (o k - 1 =? 0)%nat with false by (symmetry; apply Nat.eqb_neq; lia).
        rewrite HO. split; [reflexivity|]. do 2 f_equal. lia.
      * replace (k =? j)%nat with false by (symmetry; apply Nat.eqb_neq; auto). cbn [b2n]. rewrite Nat.sub_0_r.
        rewrite !upd_else by auto. apply H. auto.
  - eexists _, _. split; [reflexivity|]. cbn [set_var vars objects counts]. split; [reflexivity|]. split; [reflexivity|].
    split; [|reflexivity]. cbn [b2n]. eapply heap_ext; [|split; [exact L | exact H]]. intros. lia.
Qed.

Lemma Forall_upd {A} (P : A -> Prop) l i x : Forall P l -> P x -> Forall P (upd l i x).
Proof. intros F. revert i. induction F as [|y l Y F IH]; intros [|i] X; cbn; constructor; auto. Qed.

Lemma inv_var w i v : Inv w -> nth_error (vars w) i = Some v -> var_ok (length (objects w)) v.
Proof. intros [_ F] E. rewrite Forall_forall in F. apply F. eapply nth_error_In. eauto. Qed.

Lemma inv_owned w i p k : Inv w -> nth_error (vars w) i = Some (Some p) -> m_pointer p = Some k ->
  (k < length (objects w))%nat /\ (0 < cnt k (vars w))%nat.
Proof.
  intros I E M. destruct (inv_var w i _ I E) as [_ B]. split; [auto|]. apply cnt_pos. exists i, (Some p). split; [auto|].
  cbn. rewrite M. apply Nat.eqb_refl.
Qed.

Lemma hits_self p k : m_pointer p = Some k -> hits k (Some p) = true.
Proof. intros M. cbn. rewrite M. apply Nat.eqb_refl. Qed.

Lemma owned_twice w i j p q k : i <> j -> nth_error (vars w) i = Some (Some p) -> nth_error (vars w) j = Some (Some q) ->
  m_pointer p = Some k -> m_pointer q = Some k -> (2 <= cnt k (vars w))%nat.
Proof.
  intros N EI EJ MP MQ. pose proof (cnt_upd k (vars w) i (Some p) None EI) as C. rewrite (hits_self p k MP) in C.
  assert (0 < cnt k (upd (vars w) i None))%nat.
  { apply cnt_pos. exists j, (Some q). split; [rewrite upd_else; auto | apply hits_self; auto]. }
  cbn [hits b2n] in C. lia.
Qed.

Lemma shared_owned w i p k : nth_error (vars w) i = Some (Some p) -> m_pointer p = Some k ->
  (2 <= cnt k (vars w))%nat -> shared w i.
Proof.
  intros EI MP C2. pose proof (cnt_upd k (vars w) i (Some p) None EI) as C. rewrite (hits_self p k MP) in C.
  assert (P : (0 < cnt k (upd (vars w) i None))%nat) by (cbn [hits b2n] in C; lia).
  apply cnt_pos in P. destruct P as (j & v & E & H). destruct (Nat.eq_dec i j) as [EQ | NE].
  - subst j. rewrite upd_at in E by (eapply nth_lt; eauto). inversion E; subst. discriminate.
  - rewrite upd_else in E by auto. destruct v as [q|]; [|discriminate]. cbn in H.
    destruct (m_pointer q) as [k'|] eqn:MQ; [|discriminate]. apply Nat.eqb_eq in H. subst k'.
    exists j, k. split; [auto|]. split; [exists p | exists q]; auto.
Qed.

Lemma unshared_one w i p k : Inv w -> nth_error (vars w) i = Some (Some p) -> m_pointer p = Some k -> ~ shared w i ->
  cnt k (vars w) = 1%nat.
Proof.
  intros I E M N. destruct (inv_owned w i p k I E M) as [_ P].
  destruct (Nat.le_gt_cases 2 (cnt k (vars w))) as [C | C]; [|lia]. exfalso. apply N. eapply shared_owned; eauto.
Qed.

(** reset, from a state with the invariant. *)
Lemma reset_inv w i p : Inv w -> (Z.of_nat (length (vars w)) < 2 ^ 64) -> nth_error (vars w) i = Some (Some p) ->
  exists w' p', reset w i = Ok w' /\ vars w' = upd (vars w) i (Some p') /\ length (objects w') = length (objects w) /\
    heap_ok (fun j => cnt j (upd (vars w) i None)) (objects w') (counts w') /\
    p' = match m_pointer p with Some k => if (cnt k (vars w) =? 1)%nat then rc_null else p | None => p end.
Proof.
  intros I B E. pose proof I as [HH _]. destruct (inv_var w i _ I E) as [EQ _].
  destruct (reset_ok (fun k => cnt k (vars w)) w i p HH E EQ) as (w' & p' & R & V & L & H & P).
  - intros k M. destruct (inv_owned w i p k I E M). split; [auto|]. split; [auto|]. pose proof (cnt_le k (vars w)). lia.
  - exists w', p'. split; [auto|]. split; [auto|]. split; [auto|]. split; [|auto].
    eapply heap_ext; [|exact H]. intros k _. cbn beta. pose proof (cnt_upd k (vars w) i (Some p) None E) as C. cbn [hits b2n] in *. lia.
Qed.

Lemma heap_inv w o : heap_ok o (objects w) (counts w) -> (forall k, o k = cnt k (vars w)) ->
  Forall (var_ok (length (objects w))) (vars w) -> Inv w.
Proof. intros H E F. split; [|auto]. eapply heap_ext; [|exact H]. intros k _. apply E. Qed.

Lemma step_inv arr w op : Inv w -> Z.of_nat (length (vars w)) + 1 < 2 ^ 64 -> well_used w op -> harmless arr w op ->
  exists w', rc_step arr w op = Ok w' /\ Inv w' /\ (length (vars w') <= S (length (vars w)))%nat.
Proof.
  intros I B U HL. pose proof I as [HH F]. pose proof HH as [HL1 HC].
  destruct op as [| |j|j|i j|i j|i j|i|i]; cbn [rc_step well_used harmless] in *.
  - (* make *)
    eexists. split; [reflexivity|]. cbn [add_var objects counts vars]. split; [|rewrite app_length; cbn; lia].
    assert (Z0 : cnt (length (objects w)) (vars w) = 0%nat).
    { destruct (Nat.eq_dec (cnt (length (objects w)) (vars w)) 0) as [|N]; [auto|]. exfalso.
      assert (P : (0 < cnt (length (objects w)) (vars w))%nat) by lia. apply cnt_pos in P. destruct P as (i & v & E & H).
      destruct v as [p|]; [|discriminate]. cbn in H. destruct (m_pointer p) as [k|] eqn:M; [|discriminate].
      apply Nat.eqb_eq in H. subst k. destruct (inv_owned w i p _ I E M). lia. }
    split.
    + cbn [objects counts vars add_var]. split; [rewrite !app_length; cbn; lia|]. intros k K. rewrite app_length in K. cbn [length] in K.
      rewrite cnt_app. cbn [hits m_pointer]. destruct (Nat.eqb_spec (length (objects w)) k) as [EQ | NE].
      * subst k. rewrite Z0. cbn [b2n Nat.add Nat.eqb negb].
        rewrite nth_error_app2, Nat.sub_diag by lia. split; [reflexivity|].
        rewrite nth_error_app2 by lia. rewrite HL1, Nat.sub_diag. reflexivity.
      * cbn [b2n]. rewrite Nat.add_0_r. rewrite !nth_error_app1 by lia. apply HC. lia.
    + cbn [objects counts vars add_var]. apply Forall_app. split.
      * eapply Forall_impl; [|exact F]. intros [p|] V; cbn in *; [|auto]. destruct V as [V1 V2]. split; [auto|].
        intros k M. specialize (V2 k M). rewrite app_length. lia.
      * constructor; [|constructor]. cbn. split; [rewrite HL1; reflexivity|]. intros k M. inversion M; subst. rewrite app_length. cbn. lia.
  - (* null *)
    eexists. split; [reflexivity|]. cbn [add_var objects counts vars]. split; [|rewrite app_length; cbn; lia].
    apply (heap_inv _ (fun k => cnt k (vars w))); cbn [add_var objects counts vars]; auto.
    + intros k. rewrite cnt_app. cbn. lia.
    + apply Forall_app. split; [auto|]. constructor; [|constructor]. cbn. split; [reflexivity | discriminate].
  - (* copy *)
    destruct U as [p E]. rewrite (get_ok _ _ _ E). cbn [bind]. destruct (inv_var w j _ I E) as [EQ BD].
    destruct (m_ref_count p) as [k|] eqn:R.
    + destruct (inv_owned w j p k I E EQ) as [K P]. pose proof (cnt_le k (vars w)).
      destruct (inc_ok _ w p k HH R K P ltac:(lia)) as (w' & S0 & V' & O' & H'). rewrite S0. cbn [bind].
      eexists. split; [reflexivity|]. cbn [add_var vars]. split; [|rewrite V', app_length; cbn; lia].
      eapply heap_inv; [exact H' | |]; cbn [add_var objects counts vars].
      * intros j'. rewrite V', cnt_app. cbn [hits]. rewrite EQ, (Nat.eqb_sym k j'). reflexivity.
      * rewrite V', O'. apply Forall_app. split; [auto|]. constructor; [|constructor]. cbn. split; [congruence | exact BD].
    + cbn [bind]. eexists. split; [reflexivity|]. cbn [add_var objects counts vars]. split; [|rewrite app_length; cbn; lia].
      apply (heap_inv _ (fun k => cnt k (vars w))); cbn [add_var objects counts vars]; auto.
      * intros k. rewrite cnt_app. cbn. rewrite EQ. cbn. lia.
      * apply Forall_app. split; [auto|]. constructor; [|constructor]. cbn. split; [congruence | exact BD].
  - (* move *)
    destruct U as [p E]. rewrite (get_ok _ _ _ E). cbn [bind]. pose proof (inv_var w j _ I E) as VO.
    eexists. split; [reflexivity|]. cbn [add_var set_var vars objects]. split; [|rewrite app_length, upd_same_len; cbn; lia].
    apply (heap_inv _ (fun k => cnt k (vars w))); cbn [add_var set_var objects counts vars]; auto.
    + intros k. rewrite cnt_app. pose proof (cnt_upd k (vars w) j (Some p) (Some rc_null) E) as C. cbn [hits rc_null m_pointer b2n] in *. lia.
    + apply Forall_app. split; [apply Forall_upd; [auto|]; cbn; split; [reflexivity | discriminate]|]. constructor; [exact VO | constructor].
  - (* assign *)
    destruct U as [[p EI] [q EJ]]. rewrite (get_ok _ _ _ EI), (get_ok _ _ _ EJ). cbn [bind].
    destruct (Nat.eqb_spec i j) as [EQ | NE]; [eexists; split; [reflexivity|]; split; [auto | lia]|].
    destruct (reset_inv w i p I ltac:(lia) EI) as (w' & p' & R & V' & L' & H' & P'). rewrite R. cbn [bind].
    pose proof (inv_var w j _ I EJ) as VQ. pose proof VQ as [EQ BD].
    assert (IL : (i < length (vars w))%nat) by (eapply nth_lt; eauto).
    assert (CQ : forall k, cnt k (upd (vars w) i (Some q)) = (cnt k (upd (vars w) i None) + b2n (hits k (Some q)))%nat).
    { intros k. pose proof (cnt_upd k (upd (vars w) i None) i None (Some q) (upd_at _ _ _ IL)) as C.
      rewrite upd_upd in C. cbn [hits b2n] in C. cbn [hits]. lia. }
    destruct (m_pointer q) as [k|] eqn:MQ.
    + assert (K : (k < length (objects w'))%nat) by (rewrite L'; auto).
      assert (PK : (0 < cnt k (upd (vars w) i None))%nat).
      { apply cnt_pos. exists j, (Some q). split; [rewrite upd_else; auto | apply hits_self; auto]. }
      assert (BK : Z.of_nat (cnt k (upd (vars w) i None)) + 1 < 2 ^ 64).
      { pose proof (cnt_le k (upd (vars w) i None)). rewrite upd_same_len in *. lia. }
      assert (GOAL : exists w'', inc (set_var w' i (Some q)) q = Ok w'' /\ Inv w'' /\ (length (vars w'') <= S (length (vars w)))%nat).
      { destruct (inc_ok _ (set_var w' i (Some q)) q k H' (eq_sym EQ) K PK BK) as (w'' & S0 & V2 & O2 & H2).
        exists w''. split; [auto|]. cbn [set_var vars objects] in V2, O2. rewrite V' in V2. rewrite upd_upd in V2.
        split; [|rewrite V2, upd_same_len; lia].
        eapply heap_inv; [exact H2 | |].
        - intros k'. rewrite V2, CQ. cbn [hits]. rewrite MQ, (Nat.eqb_sym k' k). reflexivity.
        - rewrite V2, O2, L'. apply Forall_upd; [auto|]. cbn. rewrite MQ. split; [exact EQ | exact BD]. }
      destruct arr; exact GOAL.
    + destruct arr.
      * eexists. split; [reflexivity|]. cbn [set_var vars objects]. rewrite V', upd_upd. split; [|rewrite upd_same_len; lia].
        eapply heap_inv; [exact H' | |]; cbn [set_var vars objects]; rewrite V', upd_upd.
        -- intros k. rewrite CQ. cbn [hits]. rewrite MQ. cbn. lia.
        -- rewrite L'. apply Forall_upd; [auto|]. cbn. rewrite MQ. split; [exact EQ | exact BD].
      * eexists. split; [reflexivity|].
        assert (NP : m_pointer p' = None /\ p' = (match m_pointer p with Some _ => rc_null | None => p end)).
        { destruct (m_pointer p) as [k|] eqn:MP; [|subst p'; auto].
          destruct HL as [HL | [HL | [HL | HL]]]; [discriminate | contradiction | exfalso; apply HL; exists q; auto |].
          rewrite (unshared_one w i p k I EI MP HL) in P'. cbn in P'. subst p'. auto. }
        destruct NP as [NP1 NP2]. split; [|rewrite V', upd_same_len; lia].
        eapply heap_inv; [exact H' | |]; rewrite V'.
        -- intros k. pose proof (cnt_upd k (upd (vars w) i None) i None (Some p') (upd_at _ _ _ IL)) as C.
           rewrite upd_upd in C. cbn [hits] in C. rewrite NP1 in C. cbn [b2n] in C. lia.
        -- rewrite L'. apply Forall_upd; [auto|]. rewrite NP2. destruct (m_pointer p) eqn:MP.
           ++ cbn. split; [reflexivity | discriminate].
           ++ exact (inv_var w i _ I EI).
  - (* move assign *)
    destruct U as [[p EI] [q EJ]]. rewrite (get_ok _ _ _ EI), (get_ok _ _ _ EJ). cbn [bind].
    destruct (Nat.eqb_spec i j) as [EQ | NE]; [eexists; split; [reflexivity|]; split; [auto | lia]|].
    destruct (reset_inv w i p I ltac:(lia) EI) as (w' & p' & R & V' & L' & H' & P'). rewrite R. cbn [bind].
    pose proof (inv_var w j _ I EJ) as VQ. assert (IL : (i < length (vars w))%nat) by (eapply nth_lt; eauto).
    assert (JL : (j < length (vars w))%nat) by (eapply nth_lt; eauto).
    eexists. split; [reflexivity|]. cbn [set_var vars objects]. rewrite V'. split; [|rewrite !upd_same_len; lia].
    eapply heap_inv; [exact H' | |]; cbn [set_var vars objects]; rewrite V'.
    + intros k.
      assert (E1 : nth_error (upd (upd (vars w) i (Some p')) j (Some rc_null)) i = Some (Some p')).
      { rewrite upd_else by auto. apply upd_at. auto. }
      pose proof (cnt_upd k _ i _ (Some q) E1) as C1.
      assert (E2 : nth_error (upd (vars w) i (Some p')) j = Some (Some q)) by (rewrite upd_else by auto; auto).
      pose proof (cnt_upd k _ j _ (Some rc_null) E2) as C2.
      pose proof (cnt_upd k (vars w) i _ (Some p') EI) as C3. pose proof (cnt_upd k (vars w) i _ None EI) as C4.
      cbn [hits rc_null m_pointer b2n] in *. lia.
    + rewrite L'. apply Forall_upd; [apply Forall_upd; [apply Forall_upd; [auto|]|]|auto].
      * subst p'. pose proof (inv_var w i _ I EI) as VP. destruct (m_pointer p); [destruct (_ =? _)%nat|]; auto.
        cbn. split; [reflexivity | discriminate].
      * cbn. split; [reflexivity | discriminate].
  - (* swap *)
    destruct U as [[p EI] [q EJ]]. rewrite (get_ok _ _ _ EI), (get_ok _ _ _ EJ). cbn [bind].
    eexists. split; [reflexivity|]. cbn [set_var vars objects]. split; [|rewrite !upd_same_len; lia].
    pose proof (inv_var w i _ I EI) as VP. pose proof (inv_var w j _ I EJ) as VQ.
    apply (heap_inv _ (fun k => cnt k (vars w))); cbn [set_var objects counts vars]; auto.
    + intros k. destruct (Nat.eq_dec i j) as [EQ | NE].
      * subst j. assert (Q : p = q) by congruence. subst q. rewrite upd_upd, upd_self; auto.
      * assert (E1 : nth_error (upd (vars w) j (Some p)) i = Some (Some p)) by (rewrite upd_else by auto; auto).
        pose proof (cnt_upd k _ i _ (Some q) E1). pose proof (cnt_upd k (vars w) j _ (Some p) EJ). lia.
    + apply Forall_upd; [apply Forall_upd|]; auto.
  - (* reset *)
    destruct U as [p E]. destruct (reset_inv w i p I ltac:(lia) E) as (w' & p' & R & V' & L' & H' & P').
    exists w'. split; [auto|]. assert (IL : (i < length (vars w))%nat) by (eapply nth_lt; eauto).
    assert (NP : m_pointer p' = None /\ p' = (match m_pointer p with Some _ => rc_null | None => p end)).
    { destruct (m_pointer p) as [k|] eqn:MP; [|subst p'; auto].
      rewrite (unshared_one w i p k I E MP HL) in P'. cbn in P'. subst p'. auto. }
    destruct NP as [NP1 NP2]. split; [|rewrite V', upd_same_len; lia].
    eapply heap_inv; [exact H' | |]; rewrite V'.
    + intros k. pose proof (cnt_upd k (upd (vars w) i None) i None (Some p') (upd_at _ _ _ IL)) as C.
      rewrite upd_upd in C. cbn [hits] in C. rewrite NP1 in C. cbn [b2n] in C. lia.
    + rewrite L'. apply Forall_upd; [auto|]. rewrite NP2. destruct (m_pointer p) eqn:MP.
      * cbn. split; [reflexivity | discriminate].
      * exact (inv_var w i _ I E).
  - (* destroy *)
    destruct U as [p E]. destruct (reset_inv w i p I ltac:(lia) E) as (w' & p' & R & V' & L' & H' & P'). rewrite R. cbn [bind].
    eexists. split; [reflexivity|]. cbn [set_var vars objects]. rewrite V', upd_upd. split; [|rewrite upd_same_len; lia].
    eapply heap_inv; [exact H' | |]; cbn [set_var vars objects]; rewrite V', upd_upd.
    + reflexivity.
    + rewrite L'. apply Forall_upd; [auto|]. exact Logic.I.
Qed.

Lemma run_inv arr : forall ops w, Inv w -> Z.of_nat (length (vars w) + length ops) < 2 ^ 64 -> good_program arr w ops ->
  exists w', rc_run arr w ops = Ok w' /\ Inv w'.
Proof.
  induction ops as [|op ops IH]; intros w I B G; cbn [rc_run good_program length] in *.
  - exists w. auto.
  - destruct G as (U & H & G). destruct (step_inv arr w op I ltac:(lia) U H) as (w1 & S0 & I1 & L1). rewrite S0. cbn [bind].
    apply IH; auto. lia.
Qed.

Lemma inv_start : Inv rc_start.
Proof. split; [|constructor]. split; [reflexivity|]. cbn. intros k K. lia. Qed.

Lemma inv_alive w k : Inv w -> (k < length (objects w))%nat -> (alive w k <-> exists i, points w i k).
Proof.
  intros [[L H] F] K. destruct (H k K) as [HO HC]. unfold alive. rewrite HO. split.
  - intros E. assert (P : (0 < cnt k (vars w))%nat) by (inversion E; lia). apply cnt_pos in P. destruct P as (i & v & N & J).
    destruct v as [p|]; [|discriminate]. cbn in J. destruct (m_pointer p) as [k'|] eqn:M; [|discriminate]. apply Nat.eqb_eq in J. subst k'.
    exists i, p. auto.
  - intros (i & p & N & M). assert (P : (0 < cnt k (vars w))%nat) by (apply cnt_pos; exists i, (Some p); split; [auto | apply hits_self; auto]).
    f_equal. lia.
Qed.

Lemma inv_points_lt w i k : Inv w -> points w i k -> (k < length (objects w))%nat.
Proof. intros I (p & E & M). destruct (inv_var w i _ I E) as [_ B]. auto. Qed.

(** What a history of harmless statements leads to. *)
Lemma rc_sound arr ops : Z.of_nat (length ops) < 2 ^ 64 -> good_program arr rc_start ops ->
  exists w, rc_run arr rc_start ops = Ok w /\
    (forall k, (k < length (objects w))%nat -> (alive w k <-> exists i, points w i k)) /\
    (forall i k, points w i k -> rc_deref w i = Ok k) /\
    (forall i k p, nth_error (vars w) i = Some (Some p) -> m_pointer p = Some k ->
       exists r, ref_count w p = Ok (r, Z.of_nat (owners w k))).
Proof.
  intros B G. destruct (run_inv arr ops rc_start inv_start B G) as (w & R & I). exists w. split; [auto|].
  split; [intros k K; apply inv_alive; auto|]. split.
  - intros i k P. pose proof (inv_points_lt _ _ _ I P) as K. assert (A : alive w k) by (apply inv_alive; eauto).
    destruct P as (p & E & M). unfold rc_deref. rewrite (get_ok _ _ _ E). cbn [bind]. rewrite M. unfold alive in A. rewrite A. reflexivity.
  - intros i k p E M. destruct (inv_var w i _ I E) as [EQ _]. destruct (inv_owned w i p k I E M) as [K P]. destruct I as [[L H] _].
    destruct (H k K) as [_ HC]. unfold ref_count. rewrite <- EQ, M, HC. change (cnt k (vars w)) with (owners w k) in *.
    destruct (Nat.eqb_spec (owners w k) 0); [lia|]. eexists. reflexivity.
Qed.

(** reset of a shared pointer leaves it pointing. *)
Lemma reset_shared arr ops w i k : Z.of_nat (length ops) < 2 ^ 64 -> good_program arr rc_start ops ->
  rc_run arr rc_start ops = Ok w -> points w i k -> shared w i ->
  exists w', rc_step arr w (RcReset i) = Ok w' /\ points w' i k.
Proof.
  intros B G R (p & E & M) SH. destruct (run_inv arr ops rc_start inv_start B G) as (w1 & R1 & I).
  assert (w1 = w) by congruence. subst w1.
  assert (LB : Z.of_nat (length (vars w)) < 2 ^ 64).
  { assert (LEN : forall ops w w', Inv w -> Z.of_nat (length (vars w) + length ops) < 2 ^ 64 -> good_program arr w ops ->
      rc_run arr w ops = Ok w' -> (length (vars w') <= length (vars w) + length ops)%nat).
    { clear. induction ops as [|op ops IH]; intros w w' I B G R; cbn [rc_run good_program length] in *; [inversion R; lia|].
      destruct G as (U & H & G). destruct (step_inv arr w op I ltac:(lia) U H) as (w1 & S0 & I1 & L1). rewrite S0 in R. cbn [bind] in R.
      specialize (IH w1 w' I1 ltac:(lia) (G _ S0) R). lia. }
    specialize (LEN ops rc_start w inv_start B G R). cbn in LEN. lia. }
  destruct (reset_inv w i p I LB E) as (w' & p' & RS & V' & L' & H' & P'). exists w'. split; [exact RS|].
  assert (C2 : (2 <= cnt k (vars w))%nat).
  { destruct SH as (j & k' & NE & (p1 & E1 & M1) & (q & EJ & MQ)). assert (p1 = p) by congruence. subst p1.
    assert (k' = k) by congruence. subst k'. eapply owned_twice; eauto. }
  rewrite M in P'. replace (cnt k (vars w) =? 1)%nat with false in P' by (symmetry; apply Nat.eqb_neq; lia). subst p'.
  exists p. split; [rewrite V'; apply upd_at; eapply nth_lt; eauto | auto].
Qed.

Lemma reset_dangles arr : exists w, rc_run arr rc_start [RcMake; RcCopy 0; RcReset 0; RcDestroy 0] = Ok w /\
  points w 1 0 /\ ~ alive w 0 /\ rc_deref w 1 = UB /\ rc_step arr w (RcDestroy 1) = UB.
Proof.
  destruct arr; (eexists; split; [vm_compute; reflexivity|]; split; [eexists; split; reflexivity|]; split; [discriminate|]; split; reflexivity).
Qed.
Lemma assign_null_dangles : exists w, rc_run false rc_start [RcMake; RcCopy 0; RcNull; RcAssign 0 2; RcDestroy 0] = Ok w /\
  points w 1 0 /\ ~ alive w 0 /\ rc_deref w 1 = UB /\ rc_step false w (RcDestroy 1) = UB.
Proof.
  eexists; split; [vm_compute; reflexivity|]; split; [eexists; split; reflexivity|]; split; [discriminate|]; split; reflexivity.
Qed.
