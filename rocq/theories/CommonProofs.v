(** Lemmas about the shared array vocabulary. *)
From Verif Require Import Common.

Ltac inv H := inversion H; subst; clear H.

Section Arr.
  Context {A : Type}.
  Implicit Types (l : list A) (i j k : nat) (x y : A).

  Lemma upd_length l i x : length (upd l i x) = length l.
  Proof. revert i; induction l as [|h t IH]; intros [|i]; simpl; auto. Qed.

  Lemma nth_error_upd l i x k :
    nth_error (upd l i x) k =
    if (k =? i) && (i <? length l) then Some x else nth_error l k.
  Proof.
    revert i k; induction l as [|h t IH]; intros [|i] [|k]; cbn [upd nth_error]; auto;
      try (rewrite andb_false_r; reflexivity).
    rewrite IH. reflexivity.
  Qed.

  Lemma nth_error_upd_eq l i x : i < length l -> nth_error (upd l i x) i = Some x.
  Proof.
    intros H. rewrite nth_error_upd, Nat.eqb_refl.
    apply Nat.ltb_lt in H. rewrite H. reflexivity.
  Qed.

  Lemma nth_error_upd_ne l i x k : k <> i -> nth_error (upd l i x) k = nth_error l k.
  Proof.
    intros H. rewrite nth_error_upd.
    apply Nat.eqb_neq in H. rewrite H. reflexivity.
  Qed.

  Lemma nth_error_some_lt l i x : nth_error l i = Some x -> i < length l.
  Proof. intros H. apply nth_error_Some. congruence. Qed.

  Lemma nth_error_ex l i : i < length l -> exists x, nth_error l i = Some x.
  Proof.
    intros H. destruct (nth_error l i) as [x|] eqn:E; eauto.
    apply nth_error_None in E. lia.
  Qed.

  Lemma rd_ok l i : i < length l -> exists x, rd l i = Ok x /\ nth_error l i = Some x.
  Proof.
    intros H. destruct (nth_error_ex l i H) as [x E]. exists x.
    unfold rd. rewrite E. auto.
  Qed.

  Lemma rd_some l i x : nth_error l i = Some x -> rd l i = Ok x.
  Proof. intros H. unfold rd. rewrite H. reflexivity. Qed.

  Lemma rd_inv l i x : rd l i = Ok x -> nth_error l i = Some x.
  Proof. unfold rd. destruct (nth_error l i); congruence. Qed.

  Lemma wr_ok l i x : i < length l -> wr l i x = Ok (upd l i x).
  Proof. intros H. unfold wr. apply Nat.ltb_lt in H. rewrite H. reflexivity. Qed.

  Lemma upd_split l i x :
    i < length l -> upd l i x = firstn i l ++ x :: skipn (S i) l.
  Proof.
    revert i; induction l as [|h t IH]; intros [|i] H; simpl in *; try lia; auto.
    rewrite IH by lia. reflexivity.
  Qed.

  Lemma nth_split_eq l i x :
    nth_error l i = Some x -> l = firstn i l ++ x :: skipn (S i) l.
  Proof.
    revert i; induction l as [|h t IH]; intros [|i] H; simpl in *; try congruence.
    f_equal. apply IH, H.
  Qed.

  (** Replacing position [i] by [x] trades the old element for [x]. *)
  Lemma upd_perm l i x y :
    nth_error l i = Some y -> Permutation (y :: upd l i x) (x :: l).
  Proof.
    intros H. pose proof (nth_error_some_lt _ _ _ H) as Hl.
    rewrite (upd_split l i x Hl).
    rewrite (nth_split_eq l i y H) at 3.
    rewrite <- !Permutation_middle. apply perm_swap.
  Qed.

  Definition tr i j k : nat := if k =? i then j else if k =? j then i else k.

  Lemma tr_inv i j k : tr i j (tr i j k) = k.
  Proof.
    unfold tr.
    destruct (Nat.eqb_spec k i) as [->|]; [|destruct (Nat.eqb_spec k j) as [->|]].
    - destruct (Nat.eqb_spec j i); subst; auto. rewrite Nat.eqb_refl. auto.
    - rewrite Nat.eqb_refl. auto.
    - destruct (Nat.eqb_spec k i); try lia. destruct (Nat.eqb_spec k j); try lia.
  Qed.

  Lemma swap_at_ok l i j :
    i < length l -> j < length l ->
    exists l', swap_at l i j = Ok l' /\
      length l' = length l /\ Permutation l l' /\
      (forall k, nth_error l' k = nth_error l (tr i j k)).
  Proof.
    intros Hi Hj.
    destruct (nth_error_ex l i Hi) as [x Ex].
    destruct (nth_error_ex l j Hj) as [y Ey].
    exists (upd (upd l i y) j x). unfold swap_at. rewrite Ex, Ey.
    split; [reflexivity|]. split; [rewrite !upd_length; reflexivity|]. split.
    - destruct (Nat.eq_dec i j) as [->|Hne].
      + assert (x = y) by congruence. subst y.
        assert (H1 := upd_perm l j x x Ex).
        assert (E2 : nth_error (upd l j x) j = Some x) by (apply nth_error_upd_eq; auto).
        assert (H2 := upd_perm (upd l j x) j x x E2).
        apply Permutation_cons_inv in H1, H2.
        symmetry. eapply perm_trans; eauto.
      + assert (H1 := upd_perm l i y x Ex).
        assert (E2 : nth_error (upd l i y) j = Some y)
          by (rewrite nth_error_upd_ne; auto).
        assert (H2 := upd_perm (upd l i y) j x y E2).
        (* y :: res ~ x :: upd l i y ~ y :: l *)
        assert (H3 : Permutation (y :: upd (upd l i y) j x) (y :: l))
          by (eapply perm_trans; eauto).
        apply Permutation_cons_inv in H3. symmetry. exact H3.
    - intros k. unfold tr. rewrite !nth_error_upd, upd_length.
      apply Nat.ltb_lt in Hi, Hj. rewrite Hi, Hj, !andb_true_r.
      destruct (Nat.eqb_spec k j) as [Hkj|Hkj]; destruct (Nat.eqb_spec k i) as [Hki|Hki];
        subst; congruence.
  Qed.

  Lemma swap_at_eq l i j x y :
    nth_error l i = Some x -> nth_error l j = Some y ->
    swap_at l i j = Ok (upd (upd l i y) j x).
  Proof. intros H1 H2. unfold swap_at. rewrite H1, H2. reflexivity. Qed.

  (** [l'] differs from [l] only inside the window [f,t). *)
  Definition same_outside (f t : nat) l l' : Prop :=
    forall k, k < f \/ t <= k -> nth_error l' k = nth_error l k.

  Lemma same_outside_refl f t l : same_outside f t l l.
  Proof. intros k _. reflexivity. Qed.

  Lemma same_outside_trans f t l1 l2 l3 :
    same_outside f t l1 l2 -> same_outside f t l2 l3 -> same_outside f t l1 l3.
  Proof. intros H1 H2 k Hk. rewrite H2, H1; auto. Qed.

  Lemma same_outside_weaken f t f' t' l l' :
    f' <= f -> t <= t' -> same_outside f t l l' -> same_outside f' t' l l'.
  Proof. intros Hf Ht H k Hk. apply H. lia. Qed.

  Lemma list_eq_nth (l1 l2 : list A) :
    (forall k, nth_error l1 k = nth_error l2 k) -> l1 = l2.
  Proof.
    revert l2; induction l1 as [|h t IH]; intros [|h2 t2] H; auto.
    - specialize (H 0). discriminate.
    - specialize (H 0). discriminate.
    - f_equal.
      + specialize (H 0). simpl in H. congruence.
      + apply IH. intros k. exact (H (S k)).
  Qed.

  Lemma nth_error_app_lt (l1 l2 : list A) k :
    k < length l1 -> nth_error (l1 ++ l2) k = nth_error l1 k.
  Proof. apply nth_error_app1. Qed.

  Lemma nth_error_firstn l n k :
    nth_error (firstn n l) k = if k <? n then nth_error l k else None.
  Proof.
    revert n k; induction l as [|h t IH]; intros [|n] [|k]; cbn [firstn nth_error]; auto.
    - destruct (S k <? S n); auto.
    - rewrite IH. reflexivity.
  Qed.

  Lemma nth_error_skipn l n k : nth_error (skipn n l) k = nth_error l (n + k).
  Proof.
    revert n; induction l as [|h t IH]; intros [|n]; cbn [skipn]; auto.
    - destruct k; reflexivity.
    - rewrite IH. reflexivity.
  Qed.

  (** A window-local permutation of [pre ++ mid ++ post] only permutes [mid]. *)
  Lemma frame_split (pre mid post l' : list A) :
    same_outside (length pre) (length pre + length mid) (pre ++ mid ++ post) l' ->
    Permutation (pre ++ mid ++ post) l' ->
    exists mid', l' = pre ++ mid' ++ post /\ Permutation mid mid'.
  Proof.
    intros Hs Hp.
    pose proof (Permutation_length Hp) as Hlen. rewrite !app_length in Hlen.
    exists (firstn (length mid) (skipn (length pre) l')).
    assert (E : l' = pre ++ firstn (length mid) (skipn (length pre) l') ++ post).
    { apply list_eq_nth. intros k.
      destruct (lt_dec k (length pre)) as [H1|H1].
      - rewrite nth_error_app1 by lia. rewrite Hs by lia.
        rewrite nth_error_app1 by lia. reflexivity.
      - rewrite nth_error_app2 by lia.
        assert (Lm : length (firstn (length mid) (skipn (length pre) l')) = length mid)
          by (rewrite firstn_length, skipn_length; lia).
        destruct (lt_dec k (length pre + length mid)) as [H2|H2].
        + rewrite nth_error_app1 by lia.
          rewrite nth_error_firstn, nth_error_skipn.
          destruct (Nat.ltb_spec (k - length pre) (length mid)); [|lia].
          f_equal. lia.
        + rewrite nth_error_app2 by lia. rewrite Lm.
          rewrite Hs by lia. rewrite nth_error_app2 by lia.
          rewrite nth_error_app2 by lia. reflexivity. }
    split; [exact E|].
    rewrite E in Hp at 1. apply Permutation_app_inv_l in Hp.
    apply Permutation_app_inv_r in Hp. exact Hp.
  Qed.

  (** Pointwise reading of [sorted_by]. *)
  Lemma sorted_by_nth (comp : A -> A -> bool) l :
    sorted_by comp l <->
    (forall i j x y, i < j -> nth_error l i = Some x -> nth_error l j = Some y ->
                     comp y x = false).
  Proof.
    unfold sorted_by. split.
    - intros H. induction H as [|a l Hs IH Hf]; intros i j x y Hij Hi Hj.
      + destruct i; discriminate.
      + destruct j as [|j]; [lia|]. destruct i as [|i]; simpl in *.
        * inv Hi. rewrite Forall_forall in Hf. apply Hf. eapply nth_error_In; eauto.
        * eapply (IH i j); eauto. lia.
    - intros H. induction l as [|a l IH]; constructor.
      + apply IH. intros i j x y Hij Hi Hj. apply (H (S i) (S j)); simpl; auto. lia.
      + apply Forall_forall. intros y Hy. apply In_nth_error in Hy as [n Hn].
        apply (H 0 (S n) a y); simpl; auto. lia.
  Qed.

  Section SWO.
    Variable comp : A -> A -> bool.
    Hypothesis SW : strict_weak comp.

    Lemma swo_asym x y : comp x y = true -> comp y x = false.
    Proof.
      intros H. destruct (comp y x) eqn:E; auto.
      pose proof (swo_trans _ SW _ _ _ H E) as H1.
      rewrite (swo_irrefl _ SW) in H1. discriminate.
    Qed.

    (** "not less" is transitive: x >= y >= z implies x >= z. *)
    Lemma swo_neg_trans x y z : comp x y = false -> comp y z = false -> comp x z = false.
    Proof.
      intros H1 H2. destruct (comp x z) eqn:E; auto.
      destruct (comp y x) eqn:E1.
      - pose proof (swo_trans _ SW _ _ _ E1 E). congruence.
      - destruct (comp z y) eqn:E2.
        + pose proof (swo_trans _ SW _ _ _ E E2). congruence.
        + destruct (swo_incomp _ SW x y z); auto. congruence.
    Qed.

    Lemma swo_lt_le x y z : comp x y = true -> comp z y = false -> comp x z = true.
    Proof.
      intros H1 H2. destruct (comp x z) eqn:E; auto.
      pose proof (swo_neg_trans _ _ _ E H2). congruence.
    Qed.

    Lemma swo_le_lt x y z : comp y x = false -> comp y z = true -> comp x z = true.
    Proof.
      intros H1 H2. destruct (comp x z) eqn:E; auto.
      pose proof (swo_neg_trans _ _ _ H1 E). congruence.
    Qed.
  End SWO.
End Arr.
