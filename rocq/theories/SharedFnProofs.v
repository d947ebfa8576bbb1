(** Proofs about SharedFn.v. *)
From Verif Require Import Common CommonProofs Ints SharedFn SpecSharedFn.
Open Scope Z_scope.

Definition b2n (b : bool) : nat := if b then 1 else 0.
Definition hS (k : nat) (h : handle) : nat := match h with Strong (Some x) => b2n (x =? k)%nat | _ => 0 end.
Definition hW (k : nat) (h : handle) : nat :=
  match h with Strong (Some x) | Weak (Some x) => b2n (x =? k)%nat | _ => 0 end.
Definition oS (k : nat) (o : option handle) : nat := match o with Some h => hS k h | None => 0 end.
Definition oW (k : nat) (o : option handle) : nat := match o with Some h => hW k h | None => 0 end.
Definition pS (k : nat) (p : pc) : nat :=
  match p with
  | IncStrong _ _ _ old => hS k old
  | IncWeak _ _ _ h old => (hS k h + hS k old)%nat
  | DecStrong x => b2n (x =? k)%nat
  | _ => 0
  end.
Definition pW (k : nat) (p : pc) : nat :=
  match p with
  | IncStrong _ _ _ old | IncWeak _ _ _ _ old => hW k old
  | DecStrong x | Reset x | DecWeak x => b2n (x =? k)%nat
  | _ => 0
  end.
Definition pR (k : nat) (p : pc) : nat := match p with Reset x => b2n (x =? k)%nat | _ => 0 end.
Definition pD (k : nat) (p : pc) : nat := match p with Delete x => b2n (x =? k)%nat | _ => 0 end.

Fixpoint cnt {A} (f : A -> nat) (l : list A) : nat := match l with [] => 0 | a :: l => f a + cnt f l end.

Lemma cnt_upd {A} (f : A -> nat) l i x y : nth_error l i = Some x ->
  (cnt f (upd l i y) + f x = cnt f l + f y)%nat.
Proof.
  revert i. induction l as [|a l IH]; intros [|i] H; cbn in *; try discriminate.
  - inversion H. subst. lia.
  - specialize (IH i H). lia.
Qed.
Lemma cnt_ge {A} (f : A -> nat) l i x : nth_error l i = Some x -> (f x <= cnt f l)%nat.
Proof.
  revert i. induction l as [|a l IH]; intros [|i] H; cbn in *; try discriminate.
  - inversion H. subst. lia.
  - specialize (IH i H). lia.
Qed.
Lemma cnt_two {A} (f : A -> nat) l i j x y : i <> j -> nth_error l i = Some x -> nth_error l j = Some y -> (f x + f y <= cnt f l)%nat.
Proof.
  revert i j. induction l as [|a l IH]; intros [|i] [|j] N H H'; cbn in *; try discriminate; try congruence.
  - inversion H. subst. pose proof (cnt_ge f l j y H'). lia.
  - inversion H'. subst. pose proof (cnt_ge f l i x H). lia.
  - specialize (IH i j ltac:(congruence) H H'). lia.
Qed.
Lemma cnt_le {A} (f g : A -> nat) l : (forall x, (f x <= g x)%nat) -> (cnt f l <= cnt g l)%nat.
Proof. intros H. induction l as [|a l IH]; cbn; auto. specialize (H a). lia. Qed.
Lemma cnt_bound {A} (f : A -> nat) c l : (forall x, (f x <= c)%nat) -> (cnt f l <= c * length l)%nat.
Proof. intros H. induction l as [|a l IH]; cbn; [lia|]. specialize (H a). lia. Qed.
Lemma cnt_pos {A} (f : A -> nat) l : (0 < cnt f l)%nat -> exists i x, nth_error l i = Some x /\ (0 < f x)%nat.
Proof.
  induction l as [|a l IH]; cbn; [lia|]. intros H. destruct (f a) eqn:E.
  - destruct IH as (i & x & I); [lia|]. exists (S i), x. exact I.
  - exists 0%nat, a. cbn. split; [auto|lia].
Qed.
Lemma cnt_zero {A} (f : A -> nat) l : (forall x, In x l -> f x = 0%nat) -> cnt f l = 0%nat.
Proof. induction l as [|a l IH]; cbn; auto. intros H. rewrite (H a), IH; auto. Qed.

(** One storage with [a] strong and [b] weak tokens, [r] pending resets and [d]
    pending deletes. *)
Definition good (s : store) (a b r d : nat) : Prop :=
  m_strong s = Z.of_nat a /\ m_weak s = Z.of_nat b /\
  (has_fn s = true <-> (0 < a \/ 0 < r)%nat) /\ (r = 0 \/ r = 1 /\ a = 0)%nat /\
  (freed s = true <-> (b = 0 /\ d = 0)%nat) /\ (d = 0 \/ d = 1 /\ b = 0)%nat /\
  (has_fn s = true -> destroyed s = 0%nat) /\ (has_fn s = false -> destroyed s = 1%nat).

Definition sumS (w : world) k := (cnt (oS k) (slots w) + cnt (pS k) (pcs w))%nat.
Definition sumW (w : world) k := (cnt (oW k) (slots w) + cnt (pW k) (pcs w))%nat.
Definition sumR (w : world) k := cnt (pR k) (pcs w).
Definition sumD (w : world) k := cnt (pD k) (pcs w).

Definition pc_ok (w : world) (p : pc) : Prop :=
  match p with
  | IncStrong i j k old => nth_error (slots w) i = Some None /\ nth_error (slots w) j = Some (Some (Strong (Some k)))
  | IncWeak i j k h old => nth_error (slots w) i = Some None /\
      (nth_error (slots w) j = Some (Some (Strong (Some k))) \/ nth_error (slots w) j = Some (Some (Weak (Some k)))) /\
      (h = Strong (Some k) \/ h = Weak (Some k))
  | Load i j k => nth_error (slots w) i = Some None /\ nth_error (slots w) j = Some (Some (Weak (Some k)))
  | Cas i j k n => nth_error (slots w) i = Some None /\ nth_error (slots w) j = Some (Some (Weak (Some k))) /\ 0 < n
  | InCall j k => nth_error (slots w) j = Some (Some (Strong (Some k)))
  | _ => True
  end.

Record inv (n m : nat) (w : world) : Prop := {
  i_n : length (slots w) = n;
  i_m : length (pcs w) = m;
  i_pc : forall t p, nth_error (pcs w) t = Some p -> pc_ok w p;
  i_wr : forall t t' p p' i, t <> t' -> nth_error (pcs w) t = Some p -> nth_error (pcs w) t' = Some p' ->
           In i (writes p) -> ~ In i (writes p');
  i_st : forall k, match nth_error (stores w) k with
                   | Some s => good s (sumS w k) (sumW w k) (sumR w k) (sumD w k)
                   | None => sumS w k = 0%nat /\ sumW w k = 0%nat /\ sumR w k = 0%nat /\ sumD w k = 0%nat
                   end
}.

Lemma good_eq s a b r d a' b' r' d' : good s a b r d -> a' = a -> b' = b -> r' = r -> d' = d -> good s a' b' r' d'.
Proof. intros H -> -> -> ->. exact H. Qed.

Lemma upd_length {A} (l : list A) i x : length (upd l i x) = length l.
Proof. revert i. induction l as [|a l IH]; intros [|i]; cbn; auto. Qed.
Lemma nth_upd {A} (l : list A) i j x : nth_error (upd l i x) j = if (i =? j)%nat then (match nth_error l j with Some _ => Some x | None => None end) else nth_error l j.
Proof.
  revert i j. induction l as [|a l IH]; intros [|i] [|j]; cbn; auto.
  now destruct (i =? j)%nat.
Qed.

Section Step.
  Variables (n m : nat) (w : world) (t : nat) (p : pc).
  Hypothesis I : inv n m w.
  Hypothesis T : nth_error (pcs w) t = Some p.

  (** Nobody else looks at variable [c]. *)
  Definition mine (c : nat) : Prop :=
    forall t' p', t' <> t -> nth_error (pcs w) t' = Some p' -> ~ In c (reads p') /\ ~ In c (writes p').

  Lemma reads_some t' p' c : nth_error (pcs w) t' = Some p' -> In c (reads p') -> exists h, nth_error (slots w) c = Some (Some h).
  Proof.
    intros E H. pose proof (i_pc _ _ _ I _ _ E) as P. destruct p'; cbn in *; try contradiction; destruct H as [<-|[]]; intuition eauto.
  Qed.
  Lemma writes_none t' p' c : nth_error (pcs w) t' = Some p' -> In c (writes p') -> nth_error (slots w) c = Some None.
  Proof.
    intros E H. pose proof (i_pc _ _ _ I _ _ E) as P. destruct p'; cbn in *; try contradiction; destruct H as [<-|[]]; intuition eauto.
  Qed.
  Lemma mine_write c : In c (writes p) -> mine c.
  Proof.
    intros H t' p' N E. split.
    - intros R. destruct (reads_some _ _ _ E R) as (h & Eh). rewrite (writes_none _ _ _ T H) in Eh. discriminate.
    - exact (i_wr _ _ _ I t t' p p' c ltac:(congruence) T E H).
  Qed.
  Lemma mem_in c l : mem c l = true <-> In c l.
  Proof.
    unfold mem. rewrite existsb_exists. split.
    - intros (x & H & E). apply Nat.eqb_eq in E. now subst.
    - intros H. exists c. split; auto. apply Nat.eqb_refl.
  Qed.
  Lemma unused_mine c : unused w c = Ok tt -> nth_error (slots w) c = Some None /\ mine c.
  Proof.
    unfold unused. destruct (nth_error (slots w) c) as [[h|]|] eqn:E; try discriminate.
    destruct (existsb _ _) eqn:X; try discriminate. intros _. split; auto. intros t' p' N E'. split.
    - intros R. destruct (reads_some _ _ _ E' R) as (h & Eh). congruence.
    - intros W. assert (existsb (fun p => mem c (writes p)) (pcs w) = true); [|congruence].
      apply existsb_exists. exists p'. split; [eapply nth_error_In; eauto|]. now apply mem_in.
  Qed.
  Lemma value_some c h : value w c = Ok h -> nth_error (slots w) c = Some (Some h).
  Proof. unfold value. destruct (nth_error (slots w) c) as [[h'|]|]; congruence. Qed.
  Lemma take_mine c h : take w c = Ok h -> nth_error (slots w) c = Some (Some h) /\ mine c.
  Proof.
    unfold take. destruct (existsb _ _) eqn:X; try discriminate. intros E. apply value_some in E. split; auto.
    intros t' p' N E'. split.
    - intros R. assert (existsb (fun p => mem c (reads p)) (pcs w) = true); [|congruence].
      apply existsb_exists. exists p'. split; [eapply nth_error_In; eauto|]. now apply mem_in.
    - intros W. rewrite (writes_none _ _ _ E' W) in E. discriminate.
  Qed.

  Lemma pc_ok_keep sl st ps p' : pc_ok w p' -> (forall c, In c (reads p') \/ In c (writes p') -> nth_error sl c = nth_error (slots w) c) ->
    pc_ok (World sl st ps) p'.
  Proof.
    intros P H. destruct p'; cbn [pc_ok slots reads writes] in *; auto;
      try (rewrite !H by (cbn; auto); exact P).
  Qed.

  Lemma inv_step sl st q : length sl = length (slots w) ->
    (forall c, nth_error sl c <> nth_error (slots w) c -> mine c) ->
    pc_ok (World sl st (upd (pcs w) t q)) q -> (forall c, In c (writes q) -> mine c) ->
    (forall k, match nth_error st k with
               | Some s => good s (cnt (oS k) sl + cnt (pS k) (upd (pcs w) t q)) (cnt (oW k) sl + cnt (pW k) (upd (pcs w) t q))
                                  (cnt (pR k) (upd (pcs w) t q)) (cnt (pD k) (upd (pcs w) t q))
               | None => (cnt (oS k) sl + cnt (pS k) (upd (pcs w) t q) = 0)%nat /\ (cnt (oW k) sl + cnt (pW k) (upd (pcs w) t q) = 0)%nat /\
                         cnt (pR k) (upd (pcs w) t q) = 0%nat /\ cnt (pD k) (upd (pcs w) t q) = 0%nat
               end) ->
    inv n m (World sl st (upd (pcs w) t q)).
  Proof.
    intros L M Q W G. constructor; cbn [slots stores pcs].
    - rewrite L. apply (i_n _ _ _ I).
    - rewrite upd_length. apply (i_m _ _ _ I).
    - intros t' p' E. rewrite nth_upd in E. destruct (Nat.eqb_spec t t') as [<-|D].
      + rewrite T in E. inversion E. subst. exact Q.
      + apply pc_ok_keep; [exact (i_pc _ _ _ I _ _ E)|]. intros c H.
        destruct (nth_error sl c) as [x|] eqn:E1; destruct (nth_error (slots w) c) as [y|] eqn:E2; auto.
        * destruct x as [x|], y as [y|]; auto;
            try (assert (X : mine c) by (apply M; congruence); destruct (X t' p' ltac:(congruence) E); tauto).
          destruct x as [[a|]|[a|]], y as [[b|]|[b|]]; auto;
            try (assert (X : mine c) by (apply M; congruence); destruct (X t' p' ltac:(congruence) E); tauto).
          all: destruct (Nat.eq_dec a b) as [->|]; auto; assert (X : mine c) by (apply M; congruence); destruct (X t' p' ltac:(congruence) E); tauto.
        * assert (X : mine c) by (apply M; congruence). destruct (X t' p' ltac:(congruence) E). tauto.
        * assert (X : mine c) by (apply M; congruence). destruct (X t' p' ltac:(congruence) E). tauto.
    - intros t1 t2 p1 p2 i N E1 E2 H1 H2. rewrite nth_upd in E1, E2.
      destruct (Nat.eqb_spec t t1) as [<-|D1]; destruct (Nat.eqb_spec t t2) as [<-|D2]; try congruence.
      + rewrite T in E1. inversion E1. subst. destruct (W i H1 t2 p2 ltac:(congruence) E2). tauto.
      + rewrite T in E2. inversion E2. subst. destruct (W i H2 t1 p1 ltac:(congruence) E1). tauto.
      + exact (i_wr _ _ _ I t1 t2 p1 p2 i N E1 E2 H1 H2).
    - exact G.
  Qed.
End Step.

From Coq Require Import ZifyBool.

Lemma rel_S k old : pS k (release old) = hS k old.
Proof. destruct old as [[x|]|[x|]]; reflexivity. Qed.
Lemma rel_W k old : pW k (release old) = hW k old.
Proof. destruct old as [[x|]|[x|]]; reflexivity. Qed.
Lemma rel_R k old : pR k (release old) = 0%nat.
Proof. destruct old as [[x|]|[x|]]; reflexivity. Qed.
Lemma rel_D k old : pD k (release old) = 0%nat.
Proof. destruct old as [[x|]|[x|]]; reflexivity. Qed.
Lemma rel_ok w old : pc_ok w (release old).
Proof. destruct old as [[x|]|[x|]]; exact Logic.I. Qed.
Lemma rel_writes old : writes (release old) = [].
Proof. destruct old as [[x|]|[x|]]; reflexivity. Qed.

Lemma hS_le k h : (hS k h <= hW k h)%nat.
Proof. destruct h as [[x|]|[x|]]; cbn; lia. Qed.
Lemma hW_one k h : (hW k h <= 1)%nat.
Proof. destruct h as [[x|]|[x|]]; cbn; unfold b2n; try destruct (_ =? _)%nat; lia. Qed.
Lemma hS_one k h : (hS k h <= 1)%nat.
Proof. pose proof (hS_le k h). pose proof (hW_one k h). lia. Qed.
Lemma b2n_one b : (b2n b <= 1)%nat.
Proof. destruct b; cbn; lia. Qed.

Lemma pS_two k p : (pS k p <= 2)%nat.
Proof.
  destruct p; cbn; try lia; try (pose proof (b2n_one (k0 =? k)%nat); lia).
  - pose proof (hS_one k old). lia.
  - pose proof (hS_one k old). pose proof (hS_one k h). lia.
Qed.
Lemma pW_two k p : (pW k p <= 2)%nat.
Proof.
  destruct p; cbn; try lia; try (pose proof (b2n_one (k0 =? k)%nat); lia); pose proof (hW_one k old); lia.
Qed.

Lemma sum_bound n m w k : inv n m w -> room n m -> Z.of_nat (sumS w k) + 1 < 2 ^ 31 /\ Z.of_nat (sumW w k) + 1 < 2 ^ 31.
Proof.
  intros Iv R. unfold room in R. unfold sumS, sumW.
  pose proof (cnt_bound (oS k) 1 (slots w) ltac:(intros [h|]; cbn; [apply hS_one|lia])).
  pose proof (cnt_bound (oW k) 1 (slots w) ltac:(intros [h|]; cbn; [apply hW_one|lia])).
  pose proof (cnt_bound (pS k) 2 (pcs w) (pS_two k)). pose proof (cnt_bound (pW k) 2 (pcs w) (pW_two k)).
  rewrite (i_n _ _ _ Iv), (i_m _ _ _ Iv) in *. lia.
Qed.

Lemma int_add_id a d : 0 <= a + d < 2 ^ 31 -> int_add a d = a + d.
Proof.
  intros H. unfold int_add, swrap. rewrite Z.mod_small by lia.
  replace (a + d <? 2 ^ (32 - 1)) with true; auto. symmetry. apply Z.ltb_lt. exact (proj2 H).
Qed.

Lemma store_there n m w k : inv n m w -> (0 < sumW w k + sumD w k)%nat ->
  exists s, get_store w k = Ok s /\ nth_error (stores w) k = Some s /\ good s (sumS w k) (sumW w k) (sumR w k) (sumD w k).
Proof.
  intros Iv H. pose proof (i_st _ _ _ Iv k) as G. unfold get_store. destruct (nth_error (stores w) k) as [s|]; [|lia].
  exists s. destruct (freed s) eqn:F; auto. exfalso. destruct G as (_ & _ & _ & _ & G & _). apply G in F. lia.
Qed.

Ltac sums T q k :=
  pose proof (cnt_upd (pS k) _ _ _ q T); pose proof (cnt_upd (pW k) _ _ _ q T);
  pose proof (cnt_upd (pR k) _ _ _ q T); pose proof (cnt_upd (pD k) _ _ _ q T).
Ltac ssums E h k := pose proof (cnt_upd (oS k) _ _ _ h E); pose proof (cnt_upd (oW k) _ _ _ h E).

Lemma eqb_neq_b a b : a <> b -> b2n (a =? b)%nat = 0%nat.
Proof. intros H. apply Nat.eqb_neq in H. now rewrite H. Qed.
Lemma eqb_refl_b a : b2n (a =? a)%nat = 1%nat.
Proof. now rewrite Nat.eqb_refl. Qed.

(** The counts of a storage after a step that changes only its pending work. *)
Section Go.
  Variables (n m : nat) (w : world) (t : nat) (p : pc) (b : bool).
  Hypothesis I : inv n m w.
  Hypothesis T : nth_error (pcs w) t = Some p.
  Hypothesis R : room n m.

  Lemma same_slots c : nth_error (slots w) c <> nth_error (slots w) c -> mine w t c.
  Proof. congruence. Qed.
  Lemma one_slot i h : mine w t i -> forall c, nth_error (upd (slots w) i h) c <> nth_error (slots w) c -> mine w t c.
  Proof. intros M c H. rewrite nth_upd in H. destruct (Nat.eqb_spec i c) as [->|D]; [exact M|congruence]. Qed.

  Ltac simp := cbn [pS pW pR pD hS hW oS oW] in *; rewrite ?rel_S, ?rel_W, ?rel_R, ?rel_D, ?eqb_refl_b in *.
  Ltac other D := rewrite ?(eqb_neq_b _ _ D) in *.
  Ltac fin := repeat match goal with H : _ /\ _ |- _ => destruct H end; repeat apply conj; lia.
  Ltac rest := unfold good, sumS, sumW, sumR, sumD in *; cbn [m_strong m_weak has_fn freed destroyed] in *.

  Lemma ref_pos j h k : nth_error (slots w) j = Some (Some h) -> hW k h = 1%nat -> (0 < sumW w k)%nat.
  Proof. intros E H. unfold sumW. pose proof (cnt_ge (oW k) _ _ _ E) as G. cbn [oW] in G. lia. Qed.
  Lemma own_pos j k : nth_error (slots w) j = Some (Some (Strong (Some k))) -> (0 < sumS w k)%nat.
  Proof. intros E. unfold sumS. pose proof (cnt_ge (oS k) _ _ _ E) as G. simp. lia. Qed.

  (** Only the counter of storage [k] changes. *)
  Lemma go_inc_strong i j k old : p = IncStrong i j k old -> exists w', go_on w t p b = Ok w' /\ inv n m w'.
  Proof.
    intros ->. pose proof (i_pc _ _ _ I _ _ T) as (P1 & P2).
    pose proof (ref_pos _ _ k P2 ltac:(simp; auto)) as PW. pose proof (own_pos _ _ P2) as PS.
    destruct (store_there n m w k I) as (s & Es & E & G); [lia|].
    destruct (sum_bound n m w k I R) as (B1 & B2).
    cbn [go_on]. rewrite Es. cbn [bind]. eexists. split; [reflexivity|]. unfold set_pc, set_store. cbn [slots stores pcs].
    apply (inv_step n m w t (IncStrong i j k old) I T); auto using same_slots.
    - cbn. auto.
    - intros c H. apply (mine_write n m w t _ I T). exact H.
    - intros x. pose proof (i_st _ _ _ I x) as Gx. sums T (IncWeak i j k (Strong (Some k)) old) x. rewrite nth_upd.
      destruct (Nat.eqb_spec k x) as [->|D].
      + rewrite E. clear Gx. simp. unfold add_strong. rest. rewrite int_add_id by lia. fin.
      + simp. other D. destruct (nth_error (stores w) x); [eapply good_eq; [exact Gx| | | |]|]; unfold sumS, sumW, sumR, sumD in *; lia.
  Qed.
  Ltac same Gx x := destruct (nth_error (stores w) x); [eapply good_eq; [exact Gx| | | |]|]; unfold sumS, sumW, sumR, sumD in *; lia.
  Ltac goal q := eexists; split; [reflexivity|]; unfold set_pc, set_store, set_slot; cbn [slots stores pcs];
    apply (inv_step n m w t p I T); auto using same_slots.

  Lemma go_inc_weak i j k h old : p = IncWeak i j k h old -> exists w', go_on w t p b = Ok w' /\ inv n m w'.
  Proof.
    intros EP. pose proof (i_pc _ _ _ I _ _ T) as P. rewrite EP in P. destruct P as (P1 & P2 & P3).
    assert (PW : (0 < sumW w k)%nat) by (destruct P2 as [P2|P2]; eapply ref_pos; try exact P2; simp; auto).
    destruct (store_there n m w k I) as (s & Es & E & G); [lia|].
    destruct (sum_bound n m w k I R) as (B1 & B2). pose proof T as T'. rewrite EP in T'.
    rewrite EP. cbn [go_on]. rewrite Es. cbn [bind]. goal (release old).
    - apply upd_length.
    - apply one_slot. apply (mine_write n m w t p I T). rewrite EP. now left.
    - apply rel_ok.
    - rewrite rel_writes. intros c [].
    - intros x. pose proof (i_st _ _ _ I x) as Gx. sums T' (release old) x. ssums P1 (Some h) x. rewrite nth_upd.
      pose proof (hS_one x h). pose proof (cnt_ge (pS x) _ _ _ T').
      destruct (Nat.eqb_spec k x) as [->|D].
      + rewrite E. clear Gx. simp. unfold add_weak. destruct P3 as [-> | ->]; simp; rest; rewrite int_add_id by lia; fin.
      + simp. assert (HW : hW x h = 0%nat) by (destruct P3 as [-> | ->]; simp; now other D). pose proof (hS_le x h).
        same Gx x.
  Qed.

  Lemma lock_round_ok i j k s : (p = Load i j k \/ exists c, p = Cas i j k c) -> get_store w k = Ok s -> nth_error (stores w) k = Some s ->
    good s (sumS w k) (sumW w k) (sumR w k) (sumD w k) ->
    inv n m (lock_round w t i j k (m_strong s)).
  Proof.
    intros EP Es E G.
    assert (P : nth_error (slots w) i = Some None /\ nth_error (slots w) j = Some (Some (Weak (Some k)))).
    { pose proof (i_pc _ _ _ I _ _ T) as P. destruct EP as [EP|(c & EP)]; rewrite EP in P; cbn in P; intuition. }
    assert (W : In i (writes p)) by (destruct EP as [-> |(c & ->)]; now left).
    destruct P as (P1 & P2). unfold lock_round. destruct (Z.ltb_spec 0 (m_strong s)) as [L|L];
      unfold set_pc, set_store, set_slot; cbn [slots stores pcs]; apply (inv_step n m w t p I T); auto using same_slots.
    - cbn. auto.
    - intros c [<-|[]]. apply (mine_write n m w t p I T). exact W.
    - intros x. pose proof (i_st _ _ _ I x) as Gx. sums T (Cas i j k (m_strong s)) x.
      destruct EP as [-> |(c & ->)]; simp; same Gx x.
    - apply upd_length.
    - apply one_slot. apply (mine_write n m w t p I T). exact W.
    - exact Logic.I.
    - intros x. pose proof (i_st _ _ _ I x) as Gx. sums T Idle x. ssums P1 (Some (Strong None)) x.
      destruct EP as [-> |(c & ->)]; simp; same Gx x.
  Qed.

  Lemma go_load i j k : p = Load i j k -> exists w', go_on w t p b = Ok w' /\ inv n m w'.
  Proof.
    intros EP. pose proof (i_pc _ _ _ I _ _ T) as P. rewrite EP in P. destruct P as (P1 & P2).
    pose proof (ref_pos _ _ k P2 ltac:(simp; auto)) as PW.
    destruct (store_there n m w k I) as (s & Es & E & G); [lia|].
    rewrite EP. cbn [go_on]. rewrite Es. cbn [bind]. eexists. split; [reflexivity|]. apply lock_round_ok; auto.
  Qed.

  Lemma go_cas i j k c : p = Cas i j k c -> exists w', go_on w t p b = Ok w' /\ inv n m w'.
  Proof.
    intros EP. pose proof (i_pc _ _ _ I _ _ T) as P. rewrite EP in P. destruct P as (P1 & P2 & P3).
    pose proof (ref_pos _ _ k P2 ltac:(simp; auto)) as PW.
    destruct (store_there n m w k I) as (s & Es & E & G); [lia|].
    destruct (sum_bound n m w k I R) as (B1 & B2). pose proof T as T'. rewrite EP in T'.
    rewrite EP. cbn [go_on]. rewrite Es. cbn [bind]. destruct ((m_strong s =? c) && negb b) eqn:C.
    2:{ eexists. split; [reflexivity|]. apply lock_round_ok; eauto. }
    apply andb_true_iff in C. destruct C as (C & _). apply Z.eqb_eq in C.
    goal (IncWeak i j k (Strong (Some k)) (Strong None)).
    - cbn. auto.
    - intros c' H. apply (mine_write n m w t p I T). rewrite EP. exact H.
    - intros x. pose proof (i_st _ _ _ I x) as Gx. sums T' (IncWeak i j k (Strong (Some k)) (Strong None)) x. rewrite nth_upd.
      destruct (Nat.eqb_spec k x) as [->|D].
      + rewrite E. clear Gx. simp. unfold add_strong. rest. rewrite int_add_id by lia. fin.
      + simp. other D. same Gx x.
  Qed.

  Lemma go_dec_strong k : p = DecStrong k -> exists w', go_on w t p b = Ok w' /\ inv n m w'.
  Proof.
    intros EP. pose proof T as T'. rewrite EP in T'.
    pose proof (cnt_ge (pW k) _ _ _ T') as PW. pose proof (cnt_ge (pS k) _ _ _ T') as PS. simp.
    destruct (store_there n m w k I) as (s & Es & E & G); [unfold sumW; lia|].
    destruct (sum_bound n m w k I R) as (B1 & B2).
    rewrite EP. cbn [go_on]. rewrite Es. cbn [bind].
    assert (A : m_strong (add_strong s (-1)) = Z.of_nat (sumS w k) - 1).
    { destruct G as (G & _). unfold add_strong. cbn [m_strong]. rewrite G. rewrite int_add_id by (unfold sumS in *; lia). lia. }
    set (q := if m_strong (add_strong s (-1)) =? 0 then Reset k else DecWeak k).
    goal q.
    - subst q. destruct (_ =? 0); exact Logic.I.
    - subst q. intros c H. destruct (_ =? 0) in H; destruct H.
    - intros x. pose proof (i_st _ _ _ I x) as Gx. sums T' q x. rewrite nth_upd.
      destruct (Nat.eqb_spec k x) as [->|D].
      + rewrite E. clear Gx. subst q. rewrite A in *. unfold add_strong in *. cbn [m_strong] in A.
        destruct (Z.eqb_spec (Z.of_nat (sumS w x) - 1) 0) as [Z0|Z0]; simp; rest; rewrite A; fin.
      + subst q. destruct (_ =? 0); simp; other D; same Gx x.
  Qed.

  Lemma go_reset k : p = Reset k -> exists w', go_on w t p b = Ok w' /\ inv n m w'.
  Proof.
    intros EP. pose proof T as T'. rewrite EP in T'.
    pose proof (cnt_ge (pW k) _ _ _ T') as PW. pose proof (cnt_ge (pR k) _ _ _ T') as PR. simp.
    destruct (store_there n m w k I) as (s & Es & E & G); [unfold sumW; lia|].
    rewrite EP. cbn [go_on]. rewrite Es. cbn [bind]. goal (DecWeak k).
    - exact Logic.I.
    - intros x. pose proof (i_st _ _ _ I x) as Gx. sums T' (DecWeak k) x. rewrite nth_upd.
      destruct (Nat.eqb_spec k x) as [->|D].
      + rewrite E. clear Gx. simp. unfold destroy_fn. rest.
        assert (F : has_fn s = true) by (apply (proj1 (proj2 (proj2 G))); lia). rewrite F. fin.
      + simp; other D; same Gx x.
  Qed.

  Lemma go_dec_weak k : p = DecWeak k -> exists w', go_on w t p b = Ok w' /\ inv n m w'.
  Proof.
    intros EP. pose proof T as T'. rewrite EP in T'.
    pose proof (cnt_ge (pW k) _ _ _ T') as PW. simp.
    destruct (store_there n m w k I) as (s & Es & E & G); [unfold sumW; lia|].
    destruct (sum_bound n m w k I R) as (B1 & B2).
    rewrite EP. cbn [go_on]. rewrite Es. cbn [bind].
    assert (A : m_weak (add_weak s (-1)) = Z.of_nat (sumW w k) - 1).
    { destruct G as (_ & G & _). unfold add_weak. cbn [m_weak]. rewrite G. rewrite int_add_id by (unfold sumW in *; lia). lia. }
    set (q := if m_weak (add_weak s (-1)) =? 0 then Delete k else Idle).
    goal q.
    - subst q. destruct (_ =? 0); exact Logic.I.
    - subst q. intros c H. destruct (_ =? 0) in H; destruct H.
    - intros x. pose proof (i_st _ _ _ I x) as Gx. sums T' q x. rewrite nth_upd.
      destruct (Nat.eqb_spec k x) as [->|D].
      + rewrite E. clear Gx. subst q. rewrite A in *. unfold add_weak in *. cbn [m_weak] in A.
        destruct (Z.eqb_spec (Z.of_nat (sumW w x) - 1) 0) as [Z0|Z0]; simp; rest; rewrite A; fin.
      + subst q. destruct (_ =? 0); simp; other D; same Gx x.
  Qed.
End Go.

Lemma no_weak n m w k : inv n m w -> sumW w k = 0%nat -> sumS w k = 0%nat /\ sumR w k = 0%nat.
Proof.
  intros Iv Z. unfold sumS, sumW, sumR in *. split.
  - assert (A : (cnt (oS k) (slots w) <= cnt (oW k) (slots w))%nat) by (apply cnt_le; intros [h|]; cbn; [apply hS_le|lia]).
    destruct (Nat.eq_dec (cnt (pS k) (pcs w)) 0) as [E|E]; [lia|]. exfalso.
    destruct (cnt_pos (pS k) (pcs w)) as (t & p & T & P); [lia|]. pose proof (cnt_ge (pW k) _ _ _ T) as W.
    pose proof (i_pc _ _ _ Iv _ _ T) as Q. destruct p; cbn [pS pW] in *; try lia.
    + pose proof (hS_le k old). lia.
    + destruct Q as (_ & Q & H). pose proof (hS_le k old). assert (X : hW k0 h = 1%nat /\ (hS k h > 0)%nat).
      { split; [destruct H as [-> | ->]; cbn; apply eqb_refl_b|lia]. }
      assert (k0 = k) as ->.
      { destruct X as (_ & X). destruct H as [-> | ->]; cbn in X; [|lia]. destruct (Nat.eqb_spec k0 k); auto. cbn in X. lia. }
      destruct Q as [Q|Q]; pose proof (cnt_ge (oW k) _ _ _ Q) as V; cbn in V; rewrite eqb_refl_b in V; lia.
  - assert (A : (cnt (pR k) (pcs w) <= cnt (pW k) (pcs w))%nat) by (apply cnt_le; intros []; cbn; lia). lia.
Qed.

Section Go2.
  Variables (n m : nat) (w : world) (t : nat) (p : pc) (b : bool).
  Hypothesis I : inv n m w.
  Hypothesis T : nth_error (pcs w) t = Some p.
  Hypothesis R : room n m.

  Ltac simp := cbn [pS pW pR pD hS hW oS oW] in *; rewrite ?rel_S, ?rel_W, ?rel_R, ?rel_D, ?eqb_refl_b in *.
  Ltac other D := rewrite ?(eqb_neq_b _ _ D) in *.
  Ltac fin := repeat match goal with H : _ /\ _ |- _ => destruct H end; repeat apply conj; lia.
  Ltac rest := unfold good, sumS, sumW, sumR, sumD in *; cbn [m_strong m_weak has_fn freed destroyed] in *.
  Ltac same Gx x := destruct (nth_error (stores w) x); [eapply good_eq; [exact Gx| | | |]|]; unfold sumS, sumW, sumR, sumD in *; lia.
  Ltac shape := unfold set_pc, set_store, set_slot; cbn [slots stores pcs].

  Lemma go_delete k : p = Delete k -> exists w', go_on w t p b = Ok w' /\ inv n m w'.
  Proof.
    intros EP. pose proof T as T'. rewrite EP in T'. pose proof (cnt_ge (pD k) _ _ _ T') as PD. simp.
    destruct (store_there n m w k I) as (s & Es & E & G); [unfold sumD; lia|].
    assert (W0 : sumW w k = 0%nat) by (destruct G as (_ & _ & _ & _ & _ & G & _); unfold sumD in G; lia).
    destruct (no_weak n m w k I W0) as (S0 & R0).
    rewrite EP. cbn [go_on]. rewrite Es. cbn [bind]. eexists. split; [reflexivity|]. shape.
    apply (inv_step n m w t p I T); auto.
    - intros c H. congruence.
    - exact Logic.I.
    - intros c [].
    - intros x. pose proof (i_st _ _ _ I x) as Gx. sums T' Idle x. rewrite nth_upd.
      destruct (Nat.eqb_spec k x) as [->|D].
      + rewrite E. clear Gx. simp. unfold destroy_fn, free_store. rest.
        assert (F : has_fn s = false) by (destruct (has_fn s); auto; destruct G as (_ & _ & G & _); lia). rewrite F. fin.
      + simp; other D; same Gx x.
  Qed.

  Lemma owned_there j k : nth_error (slots w) j = Some (Some (Strong (Some k))) ->
    exists s, get_store w k = Ok s /\ nth_error (stores w) k = Some s /\ has_fn s = true /\ freed s = false /\ destroyed s = 0%nat.
  Proof.
    intros P. pose proof (ref_pos w _ _ k P ltac:(simp; auto)) as PW. pose proof (own_pos w _ _ P) as PS.
    destruct (store_there n m w k I) as (s & Es & E & G); [lia|]. exists s.
    assert (F : has_fn s = true) by (unfold good in G; lia). split; auto. split; auto. split; auto. unfold good in G.
    split; [|lia]. destruct (freed s); auto. lia.
  Qed.

  Lemma go_call j k : p = InCall j k -> exists w', go_on w t p b = Ok w' /\ inv n m w'.
  Proof.
    intros EP. pose proof (i_pc _ _ _ I _ _ T) as P. rewrite EP in P. cbn in P. pose proof T as T'. rewrite EP in T'.
    destruct (owned_there j k P) as (s & Es & E & F & _). rewrite EP. cbn [go_on]. rewrite Es. cbn [bind]. rewrite F.
    eexists. split; [reflexivity|]. shape. apply (inv_step n m w t p I T); auto.
    - intros c H. congruence.
    - exact Logic.I.
    - intros c [].
    - intros x. pose proof (i_st _ _ _ I x) as Gx. sums T' Idle x. simp. same Gx x.
  Qed.
End Go2.

Lemma go_ok n m w t p b : inv n m w -> nth_error (pcs w) t = Some p -> room n m -> exists w', go_on w t p b = Ok w' /\ inv n m w'.
Proof.
  intros Iv T R. destruct p.
  - exists w. auto.
  - eapply go_inc_strong; eauto.
  - eapply go_inc_weak; eauto.
  - eapply go_load; eauto.
  - eapply go_cas; eauto.
  - eapply go_dec_strong; eauto.
  - eapply go_reset; eauto.
  - eapply go_dec_weak; eauto.
  - eapply go_delete; eauto.
  - eapply go_call; eauto.
Qed.

Lemma upd_same {A} (l : list A) i x : nth_error l i = Some x -> upd l i x = l.
Proof. revert i. induction l as [|a l IH]; intros [|i] H; cbn in *; try discriminate; [congruence|]. f_equal. now apply IH. Qed.

Section Start.
  Variables (n m : nat) (w : world) (t : nat).
  Hypothesis I : inv n m w.
  Hypothesis T : nth_error (pcs w) t = Some Idle.

  Ltac simp := cbn [pS pW pR pD hS hW oS oW] in *; rewrite ?rel_S, ?rel_W, ?rel_R, ?rel_D, ?eqb_refl_b in *.
  Ltac same Gx x := destruct (nth_error (stores w) x); [eapply good_eq; [exact Gx| | | |]|]; unfold sumS, sumW, sumR, sumD in *; lia.
  Ltac shape := unfold set_pc, set_store, set_slot; cbn [slots stores pcs].

  (** The thread stays idle. *)
  Lemma idle_step sl st : length sl = length (slots w) ->
    (forall c, nth_error sl c <> nth_error (slots w) c -> mine w t c) ->
    (forall k, match nth_error st k with
               | Some s => good s (cnt (oS k) sl + cnt (pS k) (pcs w)) (cnt (oW k) sl + cnt (pW k) (pcs w)) (sumR w k) (sumD w k)
               | None => (cnt (oS k) sl + cnt (pS k) (pcs w) = 0)%nat /\ (cnt (oW k) sl + cnt (pW k) (pcs w) = 0)%nat /\
                         sumR w k = 0%nat /\ sumD w k = 0%nat
               end) ->
    inv n m (World sl st (pcs w)).
  Proof.
    intros L M G. rewrite <- (upd_same _ _ _ T). apply (inv_step n m w t Idle I T); auto; rewrite ?(upd_same _ _ _ T); auto.
    exact Logic.I.
  Qed.

  Lemma start_slot i h : nth_error (slots w) i = Some None -> mine w t i -> (forall x, hW x h = 0%nat) -> inv n m (set_slot w i (Some h)).
  Proof.
    intros E M Z. shape. apply idle_step; [apply upd_length|now apply one_slot|].
    intros x. pose proof (i_st _ _ _ I x) as Gx. ssums E (Some h) x. simp. specialize (Z x). pose proof (hS_le x h). same Gx x.
  Qed.

  (** [q] has no tokens. *)
  Lemma start_pc q : pc_ok w q -> (forall c, In c (writes q) -> mine w t c) ->
    (forall x, pS x q = 0%nat /\ pW x q = 0%nat /\ pR x q = 0%nat /\ pD x q = 0%nat) -> inv n m (set_pc w t q).
  Proof.
    intros Q W Z. shape. apply (inv_step n m w t Idle I T); auto.
    - congruence.
    - intros x. pose proof (i_st _ _ _ I x) as Gx. sums T q x. simp. specialize (Z x). same Gx x.
  Qed.

  Lemma two_slots i j h h' : mine w t i -> mine w t j -> forall c, nth_error (upd (upd (slots w) j h') i h) c <> nth_error (slots w) c -> mine w t c.
  Proof.
    intros M M' c H. rewrite !nth_upd in H. destruct (Nat.eqb_spec i c) as [->|D]; [exact M|].
    destruct (Nat.eqb_spec j c) as [->|D']; [exact M'|congruence].
  Qed.

  Lemma emptied_none x h : hS x (emptied h) = 0%nat /\ hW x (emptied h) = 0%nat.
  Proof. destruct h as [[y|]|[y|]]; auto. Qed.

  (** A value is moved from [j] to [i]. *)
  Lemma move_slots i j h o q : nth_error (slots w) i = Some o -> nth_error (slots w) j = Some (Some h) -> i <> j ->
    mine w t i -> mine w t j -> writes q = [] -> (forall w', pc_ok w' q) ->
    (forall x, pS x q = oS x o /\ pW x q = oW x o /\ pR x q = 0%nat /\ pD x q = 0%nat) ->
    inv n m (set_pc (set_slot (set_slot w j (Some (emptied h))) i (Some h)) t q).
  Proof.
    intros Ei Ej N Mi Mj W Q Z. shape. apply (inv_step n m w t Idle I T); auto.
    - now rewrite !upd_length.
    - now apply two_slots.
    - rewrite W. intros c [].
    - intros x. pose proof (i_st _ _ _ I x) as Gx. sums T q x. ssums Ej (Some (emptied h)) x.
      assert (Ei' : nth_error (upd (slots w) j (Some (emptied h))) i = Some o).
      { rewrite nth_upd. destruct (Nat.eqb_spec j i); [congruence|exact Ei]. }
      ssums Ei' (Some h) x. simp. specialize (Z x). destruct (emptied_none x h). same Gx x.
  Qed.

  (** The old value of [i] is taken out. *)
  Lemma take_slot i o old q : nth_error (slots w) i = Some (Some old) -> mine w t i ->
    (forall c, In c (writes q) -> mine w t c) -> pc_ok (World (upd (slots w) i o) (stores w) (upd (pcs w) t q)) q ->
    (forall x, oS x o = 0%nat /\ oW x o = 0%nat) ->
    (forall x, pS x q = hS x old /\ pW x q = hW x old /\ pR x q = 0%nat /\ pD x q = 0%nat) ->
    inv n m (set_pc (set_slot w i o) t q).
  Proof.
    intros E M W Q Zo Z. shape. apply (inv_step n m w t Idle I T); auto.
    - apply upd_length.
    - now apply one_slot.
    - intros x. pose proof (i_st _ _ _ I x) as Gx. sums T q x. ssums E o x. simp. specialize (Z x). specialize (Zo x). same Gx x.
  Qed.

  Lemma start_make i : nth_error (slots w) i = Some None -> mine w t i ->
    inv n m (World (upd (slots w) i (Some (Strong (Some (length (stores w)))))) (stores w ++ [Store 1 1 true false 0]) (pcs w)).
  Proof.
    intros E M. apply idle_step; [apply upd_length|now apply one_slot|].
    intros x. pose proof (i_st _ _ _ I x) as Gx. ssums E (Some (Strong (Some (length (stores w))))) x. simp.
    destruct (Nat.eqb_spec (length (stores w)) x) as [<-|D].
    - rewrite nth_error_app2, Nat.sub_diag by lia. cbn [nth_error].
      replace (nth_error (stores w) (length (stores w))) with (@None store) in Gx by (symmetry; now apply nth_error_None).
      unfold good, sumS, sumW, sumR, sumD, b2n in *. cbn [m_strong m_weak has_fn freed destroyed]. repeat apply conj; lia.
    - cbn [b2n] in *. destruct (Nat.lt_ge_cases x (length (stores w))) as [L|L].
      + rewrite nth_error_app1 by lia. same Gx x.
      + replace (nth_error (stores w ++ _) x) with (@None store); [|symmetry; apply nth_error_None; rewrite app_length; cbn [length]; lia].
        replace (nth_error (stores w) x) with (@None store) in Gx by (symmetry; apply nth_error_None; lia).
        unfold sumS, sumW, sumR, sumD in *. lia.
  Qed.

  Definition fine (r : res world) : Prop := match r with Ok w' => inv n m w' | Throw => True | _ => False end.

  Lemma start_ok op : fine (start w t op).
  Proof.
    assert (U : forall i, unused w i = Throw \/ unused w i = Ok tt).
    { intros i. unfold unused. destruct (nth_error (slots w) i) as [[h|]|]; auto. destruct (existsb _ _); auto. }
    assert (V : forall i, value w i = Throw \/ exists h, value w i = Ok h).
    { intros i. unfold value. destruct (nth_error (slots w) i) as [[h|]|]; eauto. }
    assert (K : forall i, take w i = Throw \/ exists h, take w i = Ok h).
    { intros i. unfold take. destruct (existsb _ _); auto. }
    destruct op as [i|i|i j|i j|i j|i j|i|i j|i j|j]; cbn [start].
    - destruct (U i) as [-> |E]; [exact Logic.I|]. rewrite E. cbn [bind fine]. destruct (unused_mine n m w t I i E). now apply start_make.
    - destruct (U i) as [-> |E]; [exact Logic.I|]. rewrite E. cbn [bind fine]. destruct (unused_mine n m w t I i E). now apply start_slot.
    - destruct (U i) as [-> |E]; [exact Logic.I|]. rewrite E. cbn [bind fine]. destruct (unused_mine n m w t I i E) as (Ei & Mi).
      destruct (V j) as [-> |(h & Eh)]; [exact Logic.I|]. rewrite Eh. cbn [bind fine]. apply value_some in Eh.
      destruct h as [[k|]|[k|]]; cbn [fine].
      + apply start_pc; [cbn; auto|intros c [<-|[]]; auto|intros x; cbn; auto].
      + now apply start_slot.
      + apply start_pc; [cbn; auto|intros c [<-|[]]; auto|intros x; cbn; auto].
      + now apply start_slot.
    - destruct (U i) as [-> |E]; [exact Logic.I|]. rewrite E. cbn [bind fine]. destruct (unused_mine n m w t I i E) as (Ei & Mi).
      destruct (K j) as [-> |(h & Eh)]; [exact Logic.I|]. rewrite Eh. cbn [bind fine]. destruct (take_mine n m w t I j h Eh) as (Ej & Mj).
      replace (set_slot (set_slot w j (Some (emptied h))) i (Some h)) with (set_pc (set_slot (set_slot w j (Some (emptied h))) i (Some h)) t Idle).
      2:{ unfold set_pc, set_slot. cbn [slots stores pcs]. now rewrite (upd_same _ _ _ T). }
      apply (move_slots i j h None Idle); auto; [congruence|]. intros; exact Logic.I.
    - destruct (Nat.eqb_spec i j) as [->|N].
      { destruct (V j) as [-> |(h & ->)]; [exact Logic.I|exact I]. }
      destruct (K i) as [-> |(old & Eo)]; [exact Logic.I|]. rewrite Eo. cbn [bind fine]. destruct (take_mine n m w t I i old Eo) as (Ei & Mi).
      destruct (V j) as [-> |(h & Eh)]; [exact Logic.I|]. rewrite Eh. cbn [bind fine]. apply value_some in Eh.
      destruct (negb (same_kind old h)); [exact Logic.I|].
      assert (EI : nth_error (upd (slots w) i None) i = Some None) by (rewrite nth_upd, Nat.eqb_refl, Ei; reflexivity).
      assert (EJ : nth_error (upd (slots w) i None) j = Some (Some h)).
      { rewrite nth_upd. destruct (Nat.eqb_spec i j); [congruence|exact Eh]. }
      destruct h as [[k|]|[k|]]; cbn [fine]; apply (take_slot i _ old); auto.
      + intros c [<-|[]]; auto.
      + cbn. auto.
      + rewrite rel_writes. intros c [].
      + apply rel_ok.
      + intros x. now rewrite rel_S, rel_W, rel_R, rel_D.
      + intros c [<-|[]]; auto.
      + cbn. auto.
      + rewrite rel_writes. intros c [].
      + apply rel_ok.
      + intros x. now rewrite rel_S, rel_W, rel_R, rel_D.
    - destruct (Nat.eqb_spec i j) as [->|N].
      { destruct (V j) as [-> |(h & ->)]; [exact Logic.I|exact I]. }
      destruct (K i) as [-> |(old & Eo)]; [exact Logic.I|]. rewrite Eo. cbn [bind fine]. destruct (take_mine n m w t I i old Eo) as (Ei & Mi).
      destruct (K j) as [-> |(h & Eh)]; [exact Logic.I|]. rewrite Eh. cbn [bind fine]. destruct (take_mine n m w t I j h Eh) as (Ej & Mj).
      destruct (negb (same_kind old h)); [exact Logic.I|]. cbn [fine].
      apply (move_slots i j h (Some old)); auto; [apply rel_writes|intros; apply rel_ok|].
      intros x. now rewrite rel_S, rel_W, rel_R, rel_D.
    - destruct (K i) as [-> |(old & Eo)]; [exact Logic.I|]. rewrite Eo. cbn [bind fine]. destruct (take_mine n m w t I i old Eo) as (Ei & Mi).
      apply (take_slot i _ old); auto; [rewrite rel_writes; intros c []|apply rel_ok|]. intros x. now rewrite rel_S, rel_W, rel_R, rel_D.
    - destruct (U i) as [-> |E]; [exact Logic.I|]. rewrite E. cbn [bind fine]. destruct (unused_mine n m w t I i E) as (Ei & Mi).
      destruct (V j) as [-> |(h & Eh)]; [exact Logic.I|]. rewrite Eh. cbn [bind fine]. apply value_some in Eh.
      destruct h as [[k|]|h]; cbn [fine]; auto.
      + apply start_pc; [cbn; auto|intros c [<-|[]]; auto|intros x; cbn; auto].
      + now apply start_slot.
    - destruct (U i) as [-> |E]; [exact Logic.I|]. rewrite E. cbn [bind fine]. destruct (unused_mine n m w t I i E) as (Ei & Mi).
      destruct (V j) as [-> |(h & Eh)]; [exact Logic.I|]. rewrite Eh. cbn [bind fine]. apply value_some in Eh.
      destruct h as [h|[k|]]; cbn [fine]; auto.
      + apply start_pc; [cbn; auto|intros c [<-|[]]; auto|intros x; cbn; auto].
      + now apply start_slot.
    - destruct (V j) as [-> |(h & Eh)]; [exact Logic.I|]. rewrite Eh. cbn [bind fine]. apply value_some in Eh.
      destruct h as [[k|]|h]; cbn [fine]; auto.
      destruct (owned_there n m w I j k Eh) as (s & -> & _ & F & _). cbn [bind]. rewrite F. cbn [fine].
      apply start_pc; [exact Eh|intros c []|intros x; cbn; auto].
  Qed.
End Start.

Lemma step_ok n m w e : inv n m w -> room n m -> match step w e with Ok w' => inv n m w' | Throw => True | _ => False end.
Proof.
  intros Iv R. destruct e as ((t, op), b). unfold step. destruct (nth_error (pcs w) t) as [p|] eqn:T; [|exact Iv].
  assert (D : p = Idle \/ p <> Idle) by (destruct p; auto; right; discriminate). destruct D as [-> |D].
  - exact (start_ok n m w t Iv T op).
  - replace (match p with Idle => start w t op | _ => go_on w t p b end) with (go_on w t p b) by (destruct p; congruence).
    destruct (go_ok n m w t p b Iv T R) as (w' & -> & H). exact H.
Qed.

Lemma run_ok n m es : room n m -> forall w, inv n m w -> match run w es with Ok w' => inv n m w' | Throw => True | _ => False end.
Proof.
  intros R. induction es as [|e es IH]; intros w Iv; cbn [run]; auto.
  pose proof (step_ok n m w e Iv R) as H. destruct (step w e) as [w'| | |]; try contradiction; auto. cbn [bind]. now apply IH.
Qed.

Lemma initial_inv n m : inv n m (initial n m).
Proof.
  constructor; cbn [initial slots stores pcs].
  - apply repeat_length.
  - apply repeat_length.
  - intros t p H. apply nth_error_In, repeat_spec in H. subst. exact Logic.I.
  - intros t t' p p' i _ H _ W. apply nth_error_In, repeat_spec in H. subst. destruct W.
  - intros k. replace (nth_error [] k) with (@None store) by (destruct k; reflexivity).
    unfold sumS, sumW, sumR, sumD. cbn [initial slots pcs].
    rewrite !cnt_zero; auto; intros x H; apply repeat_spec in H; now subst.
Qed.
Lemma reach_inv n m w : room n m -> reachable n m w -> inv n m w.
Proof. intros R (es & E). pose proof (run_ok n m es R _ (initial_inv n m)) as H. now rewrite E in H. Qed.

(** * What follows *)
Lemma safe n m es : room n m -> (exists w, run (initial n m) es = Ok w) \/ run (initial n m) es = Throw.
Proof.
  intros R. pose proof (run_ok n m es R _ (initial_inv n m)) as H. destruct (run (initial n m) es); try contradiction; eauto.
Qed.

Lemma owner_lives n m w k i : room n m -> reachable n m w -> owner w k i -> fn_lives w k.
Proof.
  intros R H E. pose proof (reach_inv n m w R H) as Iv. destruct (owned_there n m w Iv i k E) as (s & _ & A). exists s. exact A.
Qed.
Lemma call_lives n m w t j k : room n m -> reachable n m w -> nth_error (pcs w) t = Some (InCall j k) -> fn_lives w k.
Proof.
  intros R H E. pose proof (reach_inv n m w R H) as Iv. pose proof (i_pc _ _ _ Iv _ _ E) as P. exact (owner_lives n m w k j R H P).
Qed.
Lemma refers_memory n m w k i : room n m -> reachable n m w -> refers w k i -> memory_allocated w k.
Proof.
  intros R H E. pose proof (reach_inv n m w R H) as Iv.
  assert (P : (0 < sumW w k)%nat) by (destruct E as [E|E]; eapply ref_pos; try exact E; cbn; apply eqb_refl_b).
  destruct (store_there n m w k Iv) as (s & Es & E' & G); [lia|]. exists s. split; auto. unfold get_store in Es. rewrite E' in Es.
  destruct (freed s); congruence.
Qed.
Lemma lives_or_gone n m w k : room n m -> reachable n m w -> made w k -> fn_lives w k \/ fn_gone w k.
Proof.
  intros R H M. pose proof (reach_inv n m w R H) as Iv. pose proof (i_st _ _ _ Iv k) as G. pose proof (no_weak n m w k Iv) as Z.
  unfold made in M. destruct (nth_error (stores w) k) as [s|] eqn:E; [|apply nth_error_None in E; lia].
  destruct (has_fn s) eqn:F; [left|right]; exists s; unfold good in G; repeat apply conj; auto; try lia.
Qed.

Lemma idle_zero w f : all_idle w -> f Idle = 0%nat -> cnt f (pcs w) = 0%nat.
Proof. intros H E. apply cnt_zero. intros x X. unfold all_idle in H. rewrite Forall_forall in H. rewrite (H x X). exact E. Qed.

Lemma b2n_pos x k : (0 < b2n (x =? k))%nat -> x = k.
Proof. destruct (Nat.eqb_spec x k); cbn; auto; lia. Qed.

Lemma own_iff w k : (0 < cnt (oS k) (slots w))%nat <-> exists i, owner w k i.
Proof.
  split.
  - intros H. destruct (cnt_pos _ _ H) as (i & o & E & P). exists i. unfold owner. rewrite E.
    destruct o as [[[x|]|[x|]]|]; cbn in P; try lia. apply b2n_pos in P. now subst.
  - intros (i & E). pose proof (cnt_ge (oS k) _ _ _ E) as G. cbn in G. rewrite eqb_refl_b in G. lia.
Qed.
Lemma ref_iff w k : (0 < cnt (oW k) (slots w))%nat <-> exists i, refers w k i.
Proof.
  split.
  - intros H. destruct (cnt_pos _ _ H) as (i & o & E & P). exists i. unfold refers, owner. rewrite E.
    destruct o as [[[x|]|[x|]]|]; cbn in P; try lia; apply b2n_pos in P; subst; auto.
  - intros (i & [E|E]); pose proof (cnt_ge (oW k) _ _ _ E) as G; cbn in G; rewrite eqb_refl_b in G; lia.
Qed.

Lemma idle_exact n m w k : room n m -> reachable n m w -> all_idle w -> made w k ->
  (fn_lives w k <-> exists i, owner w k i) /\ (memory_allocated w k <-> exists i, refers w k i).
Proof.
  intros R H A M. pose proof (reach_inv n m w R H) as Iv. pose proof (i_st _ _ _ Iv k) as G.
  unfold made in M. destruct (nth_error (stores w) k) as [s|] eqn:E; [|apply nth_error_None in E; lia].
  unfold sumS, sumW, sumR, sumD in G. rewrite !idle_zero in G by auto. rewrite !Nat.add_0_r in G.
  rewrite <- own_iff, <- ref_iff. unfold fn_lives, memory_allocated. rewrite E. unfold good in G. split; split.
  - intros (s' & X & F & _). assert (s' = s) by congruence. subst. lia.
  - intros P. exists s. repeat apply conj; auto; try lia.
    assert (cnt (oS k) (slots w) <= cnt (oW k) (slots w))%nat by (apply cnt_le; intros [h|]; cbn; [apply hS_le|lia]).
    destruct (freed s); auto. lia.
  - intros (s' & X & F). assert (s' = s) by congruence. subst. lia.
  - intros P. exists s. split; auto. destruct (freed s); auto. lia.
Qed.

(** A function that lost its owners never has one again. *)
Definition expired (w : world) (k : nat) : Prop := exists s, nth_error (stores w) k = Some s /\ m_strong s = 0.

Lemma expired_sum n m w k : inv n m w -> expired w k -> sumS w k = 0%nat.
Proof. intros Iv (s & E & Z). pose proof (i_st _ _ _ Iv k) as G. rewrite E in G. unfold good in G. lia. Qed.

Lemma expired_store w k0 s s' k : nth_error (stores w) k0 = Some s' -> expired w k ->
  (k0 = k -> m_strong s = m_strong s') -> forall sl ps, expired (World sl (upd (stores w) k0 s) ps) k.
Proof.
  intros E (x & Ex & Z) H sl ps. unfold expired. cbn [stores]. rewrite nth_upd. destruct (Nat.eqb_spec k0 k) as [->|D]; [|eauto].
  rewrite Ex. exists s. split; auto. rewrite (H eq_refl). congruence.
Qed.
Lemma get_store_nth w k s : get_store w k = Ok s -> nth_error (stores w) k = Some s.
Proof. unfold get_store. destruct (nth_error (stores w) k) as [x|]; [|discriminate]. destruct (freed x); congruence. Qed.

Lemma go_expired n m w t p b w' k : inv n m w -> nth_error (pcs w) t = Some p -> room n m -> go_on w t p b = Ok w' ->
  expired w k -> expired w' k.
Proof.
  intros Iv T R E X. pose proof (expired_sum n m w k Iv X) as S0. pose proof (i_pc _ _ _ Iv _ _ T) as P.
  pose proof (cnt_ge (pS k) _ _ _ T) as PS. unfold sumS in S0.
  destruct p; cbn [go_on] in E; try (inversion E; subst; exact X);
    destruct (get_store w k0) as [s| | |] eqn:Es; try discriminate; cbn [bind] in E; apply get_store_nth in Es.
  - inversion E. apply (expired_store w k0 _ s); auto. intros ->. exfalso. destruct P as (_ & P).
    pose proof (own_pos w _ _ P) as Q. unfold sumS in Q. lia.
  - inversion E. apply (expired_store w k0 _ s); auto.
  - inversion E. unfold lock_round. destruct (0 <? m_strong s); exact X.
  - destruct ((m_strong s =? count) && negb b) eqn:C; inversion E.
    + apply (expired_store w k0 _ s); auto. intros ->. exfalso. destruct X as (x & Ex & Z). destruct P as (_ & _ & P).
      assert (x = s) by congruence. subst. lia.
    + unfold lock_round. destruct (0 <? m_strong s); exact X.
  - inversion E. apply (expired_store w k0 _ s); auto. intros ->. cbn [pS] in PS. rewrite eqb_refl_b in PS. lia.
  - inversion E. apply (expired_store w k0 _ s); auto.
  - inversion E. apply (expired_store w k0 _ s); auto.
  - inversion E. apply (expired_store w k0 _ s); auto.
  - destruct (has_fn s); inversion E. exact X.
Qed.

Lemma start_expired w t op w' k : start w t op = Ok w' -> expired w k -> expired w' k.
Proof.
  intros E X. assert (SS : forall w', stores w' = stores w -> expired w' k) by (intros v Ev; unfold expired; now rewrite Ev).
  destruct op; cbn [start] in E;
    repeat match type of E with
    | bind ?x _ = Ok _ => destruct x; cbn [bind] in E; try discriminate
    | (if ?x then _ else _) = Ok _ => destruct x; try discriminate
    | match ?x with _ => _ end = Ok _ => destruct x; try discriminate
    end; inversion E; subst; try (apply SS; reflexivity); auto.
  destruct X as (s & Es & Z). exists s. cbn [stores]. split; auto. rewrite nth_error_app1; auto. apply nth_error_Some. congruence.
Qed.

Lemma step_expired n m w e w' k : inv n m w -> room n m -> step w e = Ok w' -> expired w k -> expired w' k.
Proof.
  intros Iv R E X. destruct e as ((t, op), b). unfold step in E. destruct (nth_error (pcs w) t) as [p|] eqn:T; [|inversion E; now subst].
  assert (D : p = Idle \/ p <> Idle) by (destruct p; auto; right; discriminate). destruct D as [-> |D].
  - exact (start_expired _ _ _ _ _ E X).
  - replace (match p with Idle => start w t op | _ => go_on w t p b end) with (go_on w t p b) in E by (destruct p; congruence).
    exact (go_expired n m w t p b w' k Iv T R E X).
Qed.
Lemma run_expired n m es : room n m -> forall w w' k, inv n m w -> run w es = Ok w' -> expired w k -> expired w' k /\ inv n m w'.
Proof.
  intros R. induction es as [|e es IH]; intros w w' k Iv E X; cbn [run] in E; [inversion E; now subst|].
  pose proof (step_ok n m w e Iv R) as H. destruct (step w e) as [v| | |] eqn:Ev; try discriminate. cbn [bind] in E.
  exact (IH v w' k H E (step_expired n m w e v k Iv R Ev X)).
Qed.

Lemma expired_no_owner n m w k : inv n m w -> expired w k -> forall i, ~ owner w k i.
Proof. intros Iv X i E. pose proof (expired_sum n m w k Iv X). pose proof (own_pos w _ _ E). lia. Qed.

Lemma lock_empty n m w t op b w' i k : room n m -> reachable n m w -> locking w t i k -> step w (t, op, b) = Ok w' ->
  nth_error (slots w') i = Some (Some (Strong None)) ->
  (forall o, ~ owner w k o) /\ (forall w'' o, later w' w'' -> ~ owner w'' k o).
Proof.
  intros R H (j & L) E EI. pose proof (reach_inv n m w R H) as Iv.
  assert (T : exists p, nth_error (pcs w) t = Some p /\ (p = Load i j k \/ exists c, p = Cas i j k c)).
  { destruct L as [L|(c & L)]; eauto. }
  destruct T as (p & T & EP). pose proof (i_pc _ _ _ Iv _ _ T) as P.
  assert (N : nth_error (slots w) i = Some None) by (destruct EP as [-> |(c & ->)]; cbn in P; tauto).
  assert (X : expired w k).
  { unfold step in E. rewrite T in E.
    assert (Y : forall s, get_store w k = Ok s -> slots (lock_round w t i j k (m_strong s)) <> slots w -> m_strong s <= 0).
    { intros s _ Hs. unfold lock_round in Hs. destruct (Z.ltb_spec 0 (m_strong s)); auto. exfalso. apply Hs. reflexivity. }
    destruct (get_store w k) as [s| | |] eqn:Es.
    - pose proof (get_store_nth _ _ _ Es) as En. exists s. split; auto.
      pose proof (i_st _ _ _ Iv k) as G. rewrite En in G. unfold good in G.
      assert (m_strong s <= 0); [|lia].
      destruct EP as [-> |(c & ->)]; cbn [go_on] in E; rewrite Es in E; cbn [bind] in E.
      + apply (Y s eq_refl). inversion E. intros Q. rewrite H1 in Q. rewrite Q in EI. congruence.
      + destruct ((m_strong s =? c) && negb b).
        * inversion E. subst w'. cbn [set_pc set_store slots] in EI. congruence.
        * apply (Y s eq_refl). inversion E. intros Q. rewrite H1 in Q. rewrite Q in EI. congruence.
    - destruct EP as [-> |(c & ->)]; cbn [go_on] in E; rewrite Es in E; discriminate.
    - destruct EP as [-> |(c & ->)]; cbn [go_on] in E; rewrite Es in E; discriminate.
    - destruct EP as [-> |(c & ->)]; cbn [go_on] in E; rewrite Es in E; discriminate. }
  split; [exact (expired_no_owner n m w k Iv X)|]. intros w'' o (es & Er).
  pose proof (step_ok n m w (t, op, b) Iv R) as I'. rewrite E in I'.
  destruct (run_expired n m es R w' w'' k I' Er (step_expired n m w _ w' k Iv R E X)) as (X' & I'').
  exact (expired_no_owner n m w'' k I'' X' o).
Qed.

Lemma gone_no_owner n m w k : room n m -> reachable n m w -> fn_gone w k ->
  forall w', later w w' -> fn_gone w' k /\ (forall o, ~ owner w' k o).
Proof.
  intros R H (s & E & F & D) w' (es & Er). pose proof (reach_inv n m w R H) as Iv.
  assert (X : expired w k).
  { exists s. split; auto. pose proof (i_st _ _ _ Iv k) as G. rewrite E in G. unfold good in G. lia. }
  destruct (run_expired n m es R w w' k Iv Er X) as (X' & I'). split; [|exact (expired_no_owner n m w' k I' X')].
  assert (H' : reachable n m w').
  { destruct H as (es0 & H). exists (es0 ++ es). revert H. generalize (initial n m). induction es0 as [|e es0 IH]; intros v H; cbn [run app] in *.
    - inversion H. subst. exact Er.
    - destruct (step v e); try discriminate. cbn [bind] in *. now apply IH. }
  assert (M : made w' k).
  { destruct X' as (s' & E' & _). unfold made. apply nth_error_Some. congruence. }
  destruct (lives_or_gone n m w' k R H' M) as [(s' & E' & F' & _)|G]; auto. exfalso.
  (* a function that is gone does not come back *)
  assert (K : forall es w w', run w es = Ok w' -> (exists s, nth_error (stores w) k = Some s /\ has_fn s = false) ->
    exists s, nth_error (stores w') k = Some s /\ has_fn s = false).
  { clear. intros es. induction es as [|e es IH]; intros w w' E X; cbn [run] in E; [inversion E; now subst|].
    destruct (step w e) as [v| | |] eqn:Ev; try discriminate. cbn [bind] in E. apply (IH v w' E). clear IH E es.
    destruct e as ((t, op), b). unfold step in Ev. destruct (nth_error (pcs w) t) as [p|] eqn:T; [|inversion Ev; now subst].
    assert (U : forall k0 s s' sl ps, nth_error (stores w) k0 = Some s' -> (has_fn s' = false -> has_fn s = false) ->
      exists x, nth_error (stores (World sl (upd (stores w) k0 s) ps)) k = Some x /\ has_fn x = false).
    { intros k0 s s' sl ps E1 E2. destruct X as (x & Ex & Fx). cbn [stores]. rewrite nth_upd. destruct (Nat.eqb_spec k0 k) as [->|]; [|eauto].
      rewrite Ex. exists s. split; auto. apply E2. congruence. }
    assert (D : p = Idle \/ p <> Idle) by (destruct p; auto; right; discriminate). destruct D as [-> |D].
    - assert (SS : forall w', stores w' = stores w -> exists s, nth_error (stores w') k = Some s /\ has_fn s = false) by (intros q Eq; now rewrite Eq).
      destruct op; cbn [start] in Ev;
        repeat match type of Ev with
        | bind ?x _ = Ok _ => destruct x; cbn [bind] in Ev; try discriminate
        | (if ?x then _ else _) = Ok _ => destruct x; try discriminate
        | match ?x with _ => _ end = Ok _ => destruct x; try discriminate
        end; inversion Ev; subst; try (apply SS; reflexivity); auto.
      destruct X as (s & Es & Z). exists s. cbn [stores]. split; auto. rewrite nth_error_app1; auto. apply nth_error_Some. congruence.
    - replace (match p with Idle => start w t op | _ => go_on w t p b end) with (go_on w t p b) in Ev by (destruct p; congruence).
      destruct p; cbn [go_on] in Ev; try (inversion Ev; subst; exact X);
        destruct (get_store w k0) as [s| | |] eqn:Es; try discriminate; cbn [bind] in Ev; apply get_store_nth in Es;
        try (inversion Ev; apply (U k0 _ s); auto; fail).
      + inversion Ev. unfold lock_round. destruct (0 <? m_strong s); exact X.
      + destruct ((m_strong s =? count) && negb b) eqn:C; inversion Ev; [apply (U k0 _ s); auto|].
        unfold lock_round. destruct (0 <? m_strong s); exact X.
      + destruct (has_fn s); inversion Ev. exact X. }
  destruct (K es w w' Er ltac:(eauto)) as (y & Ey & Fy). congruence.
Qed.

(** * A statement ends *)
Definition rank (w : world) (p : pc) : nat :=
  match p with
  | Idle => 0
  | IncStrong _ _ _ _ => 6
  | IncWeak _ _ _ _ _ => 5
  | Load _ _ _ => 7
  | Cas _ _ k count =>
      match nth_error (stores w) k with
      | Some s => if (m_strong s =? count)%Z then 6 else 7
      | None => 7
      end
  | DecStrong _ => 4
  | Reset _ => 3
  | DecWeak _ => 2
  | Delete _ => 1
  | InCall _ _ => 1
  end%nat.
Lemma rank_le w p : (rank w p <= 7)%nat.
Proof. destruct p; cbn [rank]; try lia. destruct (nth_error (stores w) k); [destruct (m_strong s =? count)|]; lia. Qed.
Lemma rank_release w h : (rank w (release h) < 5)%nat.
Proof. destruct h as [[k|]|[k|]]; cbn; lia. Qed.
Lemma set_pc_there w t q : (t < length (pcs w))%nat -> nth_error (pcs (set_pc w t q)) t = Some q.
Proof.
  intros H. cbn [set_pc pcs]. rewrite nth_upd, Nat.eqb_refl. destruct (nth_error (pcs w) t) eqn:E; auto. apply nth_error_None in E. lia.
Qed.

Lemma go_rank w t p w' : nth_error (pcs w) t = Some p -> p <> Idle -> go_on w t p false = Ok w' ->
  exists q, nth_error (pcs w') t = Some q /\ (rank w' q < rank w p)%nat.
Proof.
  intros T NI E. assert (L : (t < length (pcs w))%nat) by (apply nth_error_Some; congruence).
  destruct p; cbn [go_on] in E; try congruence;
    destruct (get_store w k) as [s| | |] eqn:Es; try discriminate; cbn [bind] in E; apply get_store_nth in Es.
  - inversion E. eexists. split; [apply set_pc_there; exact L|]. cbn [rank]. lia.
  - inversion E. eexists. split; [apply set_pc_there; exact L|]. cbn [rank]. apply rank_release.
  - inversion E. unfold lock_round. destruct (0 <? m_strong s).
    + eexists. split; [apply set_pc_there; exact L|]. cbn [rank set_pc stores]. rewrite Es, Z.eqb_refl. lia.
    + eexists. split; [apply set_pc_there; exact L|]. cbn [rank]. lia.
  - cbn [rank]. rewrite Es. rewrite andb_true_r in E. destruct (m_strong s =? count) eqn:C; inversion E.
    + eexists. split; [apply set_pc_there; exact L|]. cbn [rank]. lia.
    + unfold lock_round. destruct (0 <? m_strong s).
      * eexists. split; [apply set_pc_there; exact L|]. cbn [rank set_pc stores]. rewrite Es, Z.eqb_refl. lia.
      * eexists. split; [apply set_pc_there; exact L|]. cbn [rank]. lia.
  - inversion E. eexists. split; [apply set_pc_there; exact L|]. destruct (_ =? 0); cbn [rank]; lia.
  - inversion E. eexists. split; [apply set_pc_there; exact L|]. cbn [rank]. lia.
  - inversion E. eexists. split; [apply set_pc_there; exact L|]. destruct (_ =? 0); cbn [rank]; lia.
  - inversion E. eexists. split; [apply set_pc_there; exact L|]. cbn [rank]. lia.
  - destruct (has_fn s); inversion E. eexists. split; [apply set_pc_there; exact L|]. cbn [rank]. lia.
Qed.

Lemma go_no_throw w t p b : go_on w t p b <> Throw.
Proof.
  destruct p; cbn [go_on]; try discriminate; unfold get_store; destruct (nth_error (stores w) k) as [s|]; try discriminate;
    destruct (freed s); try discriminate; cbn [bind].
  - destruct (_ && _); discriminate.
  - destruct (has_fn s); discriminate.
Qed.

Lemma step_busy w t op b p : nth_error (pcs w) t = Some p -> p <> Idle -> step w (t, op, b) = go_on w t p b.
Proof. intros T D. unfold step. rewrite T. destruct p; congruence. Qed.

Lemma busy_ok n m w t op b : room n m -> reachable n m w -> (t < length (pcs w))%nat -> ~ idle w t ->
  exists w', step w (t, op, b) = Ok w'.
Proof.
  intros R H L D. pose proof (reach_inv n m w R H) as Iv. destruct (nth_error (pcs w) t) as [p|] eqn:T; [|apply nth_error_None in T; lia].
  unfold idle in D. pose proof (step_ok n m w (t, op, b) Iv R) as K.
  rewrite (step_busy w t op b p T) in * by congruence. pose proof (go_no_throw w t p b). destruct (go_on w t p b); try contradiction; eauto.
Qed.

Lemma finishes_rank n m op t : room n m -> forall r w p, inv n m w -> nth_error (pcs w) t = Some p -> (rank w p <= r)%nat ->
  exists c w', (c <= r)%nat /\ run w (repeat (t, op, false) c) = Ok w' /\ idle w' t.
Proof.
  intros R. induction r as [|r IH]; intros w p Iv T K; (assert (D : p = Idle \/ p <> Idle) by (destruct p; auto; right; discriminate)); destruct D as [-> |D].
  - exists 0%nat, w. repeat split; auto.
  - exfalso. destruct p; cbn [rank] in K; try lia; try congruence. destruct (nth_error (stores w) k); [destruct (_ =? _)|]; lia.
  - exists 0%nat, w. repeat split; auto; lia.
  - pose proof (step_ok n m w (t, op, false) Iv R) as Q. pose proof (go_no_throw w t p false) as NT.
    pose proof (step_busy w t op false p T D) as Es. rewrite Es in Q. destruct (go_on w t p false) as [v| | |] eqn:Ev; try contradiction.
    destruct (go_rank w t p v T D Ev) as (q & Tq & Lq).
    destruct (IH v q Q Tq ltac:(lia)) as (c & w' & C & Er & F). exists (S c), w'. split; [lia|]. split; auto. cbn [repeat run]. rewrite Es. exact Er.
Qed.
Lemma finishes n m w t op : room n m -> reachable n m w -> (t < length (pcs w))%nat ->
  exists c w', (c <= 7)%nat /\ run w (repeat (t, op, false) c) = Ok w' /\ idle w' t.
Proof.
  intros R H L. pose proof (reach_inv n m w R H) as Iv. destruct (nth_error (pcs w) t) as [p|] eqn:T; [|apply nth_error_None in T; lia].
  exact (finishes_rank n m op t R 7 w p Iv T (rank_le w p)).
Qed.

Lemma start_threads w t op w' : start w t op = Ok w' -> length (pcs w') = length (pcs w).
Proof.
  intros E. destruct op; cbn [start] in E;
    repeat match type of E with
    | bind ?x _ = Ok _ => destruct x; cbn [bind] in E; try discriminate
    | (if ?x then _ else _) = Ok _ => destruct x; try discriminate
    | match ?x with _ => _ end = Ok _ => destruct x; try discriminate
    end; inversion E; subst; cbn [set_pc set_slot pcs]; rewrite ?upd_length; auto.
Qed.

(** * A statement alone *)
Definition final (w : world) (p : pc) : list (option handle) :=
  match p with
  | IncStrong i j k old => upd (slots w) i (Some (Strong (Some k)))
  | IncWeak i j k h old => upd (slots w) i (Some h)
  | Load i j k | Cas i j k _ =>
      match nth_error (stores w) k with
      | Some s => upd (slots w) i (Some (Strong (if 0 <? m_strong s then Some k else None)))
      | None => slots w
      end
  | _ => slots w
  end.
Lemma final_release w h : final w (release h) = slots w.
Proof. destruct h as [[k|]|[k|]]; reflexivity. Qed.

Lemma go_final n m w t p b w' : inv n m w -> nth_error (pcs w) t = Some p -> p <> Idle -> go_on w t p b = Ok w' ->
  exists q, pcs w' = upd (pcs w) t q /\ final w' q = final w p.
Proof.
  intros Iv T NI E. pose proof (i_pc _ _ _ Iv _ _ T) as P.
  destruct p; cbn [go_on] in E; try congruence;
  destruct (get_store w k) as [s| | |] eqn:Es; try discriminate; cbn [bind] in E; apply get_store_nth in Es.
  - inversion E. eexists. split; [reflexivity|]. reflexivity.
  - inversion E. eexists. split; [reflexivity|]. apply final_release.
  - inversion E. unfold lock_round. cbn [final]. rewrite Es. destruct (0 <? m_strong s) eqn:Z0.
    + eexists. split; [reflexivity|]. cbn [final set_pc stores slots]. now rewrite Es, Z0.
    + eexists. split; [reflexivity|]. reflexivity.
  - cbn [final]. rewrite Es. destruct ((m_strong s =? count) && negb b) eqn:C; inversion E.
    + eexists. split; [reflexivity|]. cbn [final set_pc set_store slots]. destruct P as (_ & _ & P).
      replace (0 <? m_strong s) with true by lia. reflexivity.
    + unfold lock_round. destruct (0 <? m_strong s) eqn:Z0.
      * eexists. split; [reflexivity|]. cbn [final set_pc stores slots]. now rewrite Es, Z0.
      * eexists. split; [reflexivity|]. reflexivity.
  - inversion E. eexists. split; [reflexivity|]. destruct (_ =? 0); reflexivity.
  - inversion E. eexists. split; [reflexivity|]. reflexivity.
  - inversion E. eexists. split; [reflexivity|]. destruct (_ =? 0); reflexivity.
  - inversion E. eexists. split; [reflexivity|]. reflexivity.
  - destruct (has_fn s); inversion E. eexists. split; [reflexivity|]. reflexivity.
Qed.

Lemma upd_upd {A} (l : list A) i x y : upd (upd l i x) i y = upd l i y.
Proof. revert i. induction l as [|a l IH]; intros [|i]; cbn; auto. now rewrite IH. Qed.
Lemma upd_back {A} (l : list A) i x : nth_error l i = Some x -> upd l i x = l.
Proof. revert i. induction l as [|a l IH]; intros [|i] E; cbn in *; try discriminate; try congruence. now rewrite IH. Qed.

Lemma alone_rank n m op t : room n m -> forall r w p, inv n m w -> nth_error (pcs w) t = Some p -> (rank w p <= r)%nat ->
  exists c w', (c <= r)%nat /\ run w (repeat (t, op, false) c) = Ok w' /\ pcs w' = upd (pcs w) t Idle /\ slots w' = final w p.
Proof.
  intros R. induction r as [|r IH]; intros w p Iv T K; (assert (D : p = Idle \/ p <> Idle) by (destruct p; auto; right; discriminate)); destruct D as [-> |D].
  - exists 0%nat, w. repeat split; auto. symmetry. now apply upd_back.
  - exfalso. destruct p; cbn [rank] in K; try lia; try congruence. destruct (nth_error (stores w) k); [destruct (_ =? _)|]; lia.
  - exists 0%nat, w. repeat split; auto; try lia. symmetry. now apply upd_back.
  - pose proof (step_ok n m w (t, op, false) Iv R) as Q. pose proof (go_no_throw w t p false) as NT.
    pose proof (step_busy w t op false p T D) as Es. rewrite Es in Q. destruct (go_on w t p false) as [v| | |] eqn:Ev; try contradiction.
    destruct (go_rank w t p v T D Ev) as (q & Tq & Lq). destruct (go_final n m w t p false v Iv T D Ev) as (q' & Pq & Fq).
    assert (q' = q).
    { rewrite Pq, nth_error_upd_eq in Tq by (apply nth_error_Some; congruence). congruence. }
    subst q'.
    destruct (IH v q Q Tq ltac:(lia)) as (c & w' & C & Er & Ep & Ef). exists (S c), w'. split; [lia|]. repeat apply conj.
    + cbn [repeat run]. rewrite Es. exact Er.
    + rewrite Ep, Pq. apply upd_upd.
    + congruence.
Qed.

Lemma unused_ok w i x : unused w i = Ok x -> nth_error (slots w) i = Some None.
Proof. unfold unused. destruct (nth_error (slots w) i) as [[h|]|]; try discriminate. reflexivity. Qed.
Lemma value_ok w i h : value w i = Ok h -> nth_error (slots w) i = Some (Some h) /\ variable w i = Some h.
Proof.
  unfold value, variable. intros E. destruct (nth_error (slots w) i) as [[x|]|] eqn:N; try discriminate. assert (x = h) by congruence. subst.
  split; auto. now apply nth_error_nth.
Qed.
Lemma take_ok w i h : take w i = Ok h -> nth_error (slots w) i = Some (Some h) /\ variable w i = Some h.
Proof. unfold take. destruct (existsb _ _); [discriminate|]. apply value_ok. Qed.

Lemma owned_iff w k : owned w k = true <-> (0 < cnt (oS k) (slots w))%nat.
Proof.
  rewrite own_iff. unfold owned, owner. rewrite existsb_exists. split.
  - intros (o & H & E). destruct o as [[[x|]|]|]; try discriminate. apply Nat.eqb_eq in E. subst. apply In_nth_error in H. exact H.
  - intros (i & E). exists (Some (Strong (Some k))). split; [eapply nth_error_In; eauto|]. apply Nat.eqb_refl.
Qed.
Lemma idle_count n m w k s : inv n m w -> all_idle w -> nth_error (stores w) k = Some s -> (0 <? m_strong s) = owned w k.
Proof.
  intros Iv A E. pose proof (i_st _ _ _ Iv k) as G. rewrite E in G. unfold sumS in G. rewrite idle_zero in G by auto. unfold good in G.
  pose proof (owned_iff w k). destruct (owned w k), (Z.ltb_spec 0 (m_strong s)); auto; lia.
Qed.

Lemma start_final n m w t op w' : room n m -> inv n m w -> all_idle w -> (t < length (pcs w))%nat -> start w t op = Ok w' ->
  exists q, pcs w' = upd (pcs w) t q /\ final w' q = meant w op.
Proof.
  intros R Iv A L E.
  assert (TI : nth_error (pcs w) t = Some Idle).
  { destruct (nth_error (pcs w) t) eqn:T; [|apply nth_error_None in T; lia]. unfold all_idle in A. rewrite Forall_forall in A.
    f_equal. apply A. eapply nth_error_In; eauto. }
  assert (SP : pcs w = upd (pcs w) t Idle) by (symmetry; now apply upd_back).
  destruct op; cbn [start] in E; cbn [meant].
  - destruct (unused w i); try discriminate. inversion E. exists Idle. split; auto.
  - destruct (unused w i); try discriminate. inversion E. exists Idle. split; auto.
  - destruct (unused w i); try discriminate. cbn [bind] in E. destruct (value w j) as [h| | |] eqn:V; try discriminate. cbn [bind] in E.
    destruct (value_ok _ _ _ V) as (V1 & ->).
    destruct h as [[k|]|[k|]]; inversion E; (eexists; split; [try reflexivity; exact SP|reflexivity]).
  - destruct (unused w i) as [u| | |] eqn:U; try discriminate. cbn [bind] in E. destruct (take w j) as [h| | |] eqn:V; try discriminate. cbn [bind] in E.
    destruct (take_ok _ _ _ V) as (V1 & ->). apply unused_ok in U. destruct (Nat.eqb_spec i j) as [->|]; [congruence|].
    inversion E. exists Idle. split; auto.
  - destruct (Nat.eqb_spec i j) as [->|D].
    + destruct (value w j) as [h| | |] eqn:V; try discriminate. destruct (value_ok _ _ _ V) as (V1 & ->). inversion E. subst w'.
      exists Idle. split; auto. symmetry. now apply upd_back.
    + destruct (take w i) as [o| | |] eqn:TK; try discriminate. cbn [bind] in E. destruct (value w j) as [h| | |] eqn:V; try discriminate. cbn [bind] in E.
      destruct (value_ok _ _ _ V) as (V1 & ->). destruct (negb _); try discriminate.
      destruct h as [[k|]|[k|]]; inversion E; eexists; (split; [reflexivity|]); cbn [final set_pc set_slot slots];
        rewrite ?upd_upd, ?final_release; reflexivity.
  - destruct (Nat.eqb_spec i j) as [->|D].
    + destruct (value w j) as [h| | |] eqn:V; try discriminate. inversion E. subst w'. exists Idle. split; auto.
    + destruct (take w i) as [o| | |] eqn:TK; try discriminate. cbn [bind] in E. destruct (take w j) as [h| | |] eqn:V; try discriminate. cbn [bind] in E.
      destruct (take_ok _ _ _ V) as (V1 & ->). destruct (negb _); try discriminate.
      inversion E; eexists; (split; [reflexivity|]). now rewrite final_release.
  - destruct (take w i) as [o| | |] eqn:TK; try discriminate. cbn [bind] in E. inversion E; eexists; (split; [reflexivity|]). now rewrite final_release.
  - destruct (unused w i); try discriminate. cbn [bind] in E. destruct (value w j) as [h| | |] eqn:V; try discriminate. cbn [bind] in E.
    destruct (value_ok _ _ _ V) as (V1 & ->).
    destruct h as [[k|]|[k|]]; inversion E; (eexists; split; [try reflexivity; exact SP|reflexivity]).
  - destruct (unused w i); try discriminate. cbn [bind] in E. destruct (value w j) as [h| | |] eqn:V; try discriminate. cbn [bind] in E.
    destruct (value_ok _ _ _ V) as (V1 & ->).
    destruct h as [[k|]|[k|]]; inversion E; [|eexists; split; [exact SP|reflexivity]].
    eexists; split; [reflexivity|]. cbn [final set_pc stores slots].
    assert (P : (0 < sumW w k)%nat) by (eapply ref_pos; try exact V1; cbn; apply eqb_refl_b).
    destruct (store_there n m w k Iv) as (s & Es & E' & G); [lia|]. rewrite E'. now rewrite (idle_count n m w k s Iv A E').
  - destruct (value w j) as [h| | |] eqn:V; try discriminate. cbn [bind] in E. destruct h as [[k|]|[k|]]; try discriminate.
    destruct (get_store w k) as [s| | |]; try discriminate. cbn [bind] in E. destruct (has_fn s); inversion E. eexists; split; reflexivity.
Qed.

Lemma alone n m w t op w1 : room n m -> reachable n m w -> all_idle w -> (t < length (pcs w))%nat -> step w (t, op, false) = Ok w1 ->
  exists c w', (c <= 7)%nat /\ run w1 (repeat (t, op, false) c) = Ok w' /\ all_idle w' /\ slots w' = meant w op.
Proof.
  intros R H A L E. pose proof (reach_inv n m w R H) as Iv. pose proof (step_ok n m w (t, op, false) Iv R) as I1. rewrite E in I1.
  assert (TI : nth_error (pcs w) t = Some Idle).
  { destruct (nth_error (pcs w) t) eqn:T; [|apply nth_error_None in T; lia]. unfold all_idle in A. rewrite Forall_forall in A.
    f_equal. apply A. eapply nth_error_In; eauto. }
  unfold step in E. rewrite TI in E. destruct (start_final n m w t op w1 R Iv A L E) as (q & Pq & Fq).
  assert (T1 : nth_error (pcs w1) t = Some q) by (rewrite Pq; now apply nth_error_upd_eq).
  destruct (alone_rank n m op t R 7 w1 q I1 T1 (rank_le _ _)) as (c & w' & C & Er & Ep & Es).
  exists c, w'. repeat apply conj; auto; [|congruence]. unfold all_idle. rewrite Ep, Pq, upd_upd, (upd_back _ _ _ TI). exact A.
Qed.

(** * The statements of the properties *)

Lemma c242_safe :
  forall n m es, room n m -> (exists w, run (initial n m) es = Ok w) \/ run (initial n m) es = Throw.
Proof.
  exact safe.
Qed.

Lemma c242_inside :
  forall n m w t op b, room n m -> reachable n m w -> (t < length (pcs w))%nat -> ~ idle w t ->
  exists w', step w (t, op, b) = Ok w'.
Proof.
  exact busy_ok.
Qed.

Lemma c242_finishes :
  forall n m w t op, room n m -> reachable n m w -> (t < length (pcs w))%nat ->
  exists c w', (c <= 7)%nat /\ run w (repeat (t, op, false) c) = Ok w' /\ idle w' t.
Proof.
  exact finishes.
Qed.

Lemma c242_alone :
  forall n m w t op w1, room n m -> reachable n m w -> all_idle w -> (t < length (pcs w))%nat -> step w (t, op, false) = Ok w1 ->
  exists c w', (c <= 7)%nat /\ run w1 (repeat (t, op, false) c) = Ok w' /\ all_idle w' /\ slots w' = meant w op.
Proof.
  exact alone.
Qed.

Lemma c243_owner :
  forall n m w k i, room n m -> reachable n m w -> owner w k i -> fn_lives w k.
Proof.
  exact owner_lives.
Qed.

Lemma c243_call :
  forall n m w t j k, room n m -> reachable n m w -> nth_error (pcs w) t = Some (InCall j k) -> fn_lives w k.
Proof.
  exact call_lives.
Qed.

Lemma c243_memory :
  forall n m w k i, room n m -> reachable n m w -> refers w k i -> memory_allocated w k.
Proof.
  exact refers_memory.
Qed.

Lemma c243_once :
  forall n m w k, room n m -> reachable n m w -> made w k -> fn_lives w k \/ fn_gone w k.
Proof.
  exact lives_or_gone.
Qed.

Lemma c243_no_leak :
  forall n m w k, room n m -> reachable n m w -> all_idle w -> made w k ->
  (fn_lives w k <-> exists i, owner w k i) /\ (memory_allocated w k <-> exists i, refers w k i).
Proof.
  exact idle_exact.
Qed.

Lemma c244_empty :
  forall n m w t op b w' i k, room n m -> reachable n m w -> locking w t i k -> step w (t, op, b) = Ok w' ->
  nth_error (slots w') i = Some (Some (Strong None)) ->
  (forall o, ~ owner w k o) /\ (forall w'' o, later w' w'' -> ~ owner w'' k o).
Proof.
  exact lock_empty.
Qed.

Lemma c244_gone :
  forall n m w k, room n m -> reachable n m w -> fn_gone w k ->
  forall w', later w w' -> fn_gone w' k /\ (forall o, ~ owner w' k o).
Proof.
  exact gone_no_owner.
Qed.

Lemma c244_lock :
  forall n m w t op i j k w1, room n m -> reachable n m w -> all_idle w -> (t < length (pcs w))%nat ->
  op = Lock i j -> variable w j = Some (Weak (Some k)) -> (exists o, owner w k o) -> step w (t, op, false) = Ok w1 ->
  exists c w', (c <= 7)%nat /\ run w1 (repeat (t, op, false) c) = Ok w' /\ owner w' k i.
Proof.
  intros n m w t op i j k w1 R H A L -> V O E. destruct (alone n m w t _ w1 R H A L E) as (c & w' & C & Er & _ & Es).
  exists c, w'. repeat apply conj; auto. unfold owner. rewrite Es. cbn [meant]. rewrite V.
  assert (Ow : owned w k = true) by (apply owned_iff, own_iff; exact O). rewrite Ow. apply nth_error_upd_eq.
  apply nth_error_Some. unfold step in E. destruct (nth_error (pcs w) t) as [p|] eqn:T; [|apply nth_error_None in T; lia].
  assert (p = Idle) by (unfold all_idle in A; rewrite Forall_forall in A; apply A; eapply nth_error_In; eauto). subst p. cbn [start] in E.
  destruct (unused w i) as [u| | |] eqn:U; try discriminate. apply unused_ok in U. congruence.
Qed.
