(** Proofs for OwnershipProps.v. *)
From Verif Require Import Common CommonProofs Ownership SpecOwnership.
From Coq Require Import Permutation.

Section Lists.
  Context {X Y : Type}.
  Lemma o_upd_upd (l : list X) : forall i x y, upd (upd l i x) i y = upd l i y.
  Proof. induction l as [|h l IH]; intros [|i] x y; cbn; try reflexivity. now rewrite IH. Qed.
  Lemma o_upd_comm (l : list X) : forall i j x y, i <> j -> upd (upd l i x) j y = upd (upd l j y) i x.
  Proof.
    induction l as [|h l IH]; intros [|i] [|j] x y N; cbn; try reflexivity; [lia|].
    now rewrite IH by lia.
  Qed.
  Lemma o_upd_id (l : list X) : forall i x, nth_error l i = Some x -> upd l i x = l.
  Proof. induction l as [|h l IH]; intros [|i] x E; cbn in *; try congruence. now rewrite IH. Qed.
  Lemma o_map_upd (f : X -> Y) (l : list X) : forall i x, map f (upd l i x) = upd (map f l) i (f x).
  Proof. induction l as [|h l IH]; intros [|i] x; cbn; try reflexivity. now rewrite IH. Qed.
  Lemma o_upd_app_at (l : list X) a x : upd (l ++ [a]) (length l) x = l ++ [x].
  Proof. induction l as [|h l IH]; cbn; [reflexivity|now rewrite IH]. Qed.
  Lemma o_F2_upd (R : X -> Y -> Prop) l m : Forall2 R l m -> forall i x y, R x y -> Forall2 R (upd l i x) (upd m i y).
  Proof.
    induction 1 as [|a b l m H F IH]; intros [|i] x y K; cbn; constructor; auto.
  Qed.
  Lemma o_F2_nth (R : X -> Y -> Prop) l m : Forall2 R l m -> forall i x, nth_error l i = Some x ->
    exists y, nth_error m i = Some y /\ R x y.
  Proof.
    induction 1 as [|a b l m H F IH]; intros [|i] x E; cbn in *; try discriminate.
    - injection E as <-. eauto.
    - eauto.
  Qed.
  Lemma o_F2_nth_r (R : X -> Y -> Prop) l m : Forall2 R l m -> forall i y, nth_error m i = Some y ->
    exists x, nth_error l i = Some x /\ R x y.
  Proof.
    induction 1 as [|a b l m H F IH]; intros [|i] y E; cbn in *; try discriminate.
    - injection E as <-. eauto.
    - eauto.
  Qed.
  Lemma o_F2_len (R : X -> Y -> Prop) l m : Forall2 R l m -> length l = length m.
  Proof. induction 1; cbn; congruence. Qed.
  Lemma o_F2_impl (R S : X -> Y -> Prop) l m : Forall2 R l m -> (forall x y, In x l -> R x y -> S x y) -> Forall2 S l m.
  Proof.
    induction 1 as [|a b l m H F IH]; intros K; constructor.
    - apply K; [left; reflexivity|exact H].
    - apply IH. intros x y I. apply K. right. exact I.
  Qed.
  Lemma o_remove_at (l : list X) : forall k, remove_at l k = firstn k l ++ skipn (S k) l.
  Proof.
    induction l as [|h l IH]; intros [|k]; cbn; try reflexivity. rewrite IH. reflexivity.
  Qed.
End Lists.
Lemma o_F2_remove {X Y} (R : X -> Y -> Prop) l m : Forall2 R l m -> forall k, Forall2 R (remove_at l k) (remove_at m k).
Proof. induction 1 as [|a b l m H F IH]; intros [|k]; cbn; try constructor; auto. Qed.

Section Core.
  Context {V : Type}.
  Notation cells_t := (list (option V)).
  Definition rel (cs : cells_t) (ps : list (option (option nat))) (ls : list nat) (hv : list (option (option V))) (hl : list V) : Prop :=
    Forall2 (shows cs) ps hv /\
    Forall2 (fun a v => nth_error cs a = Some (Some v)) ls hl /\
    (forall a, owners ps ls a = if exists_at cs a then 1 else 0).

  Lemma owners_split ps ls a : owners ps ls a = count_occ Nat.eq_dec (flat_map owned_by ps) a + count_occ Nat.eq_dec ls a.
  Proof. unfold owners. apply count_occ_app. Qed.
  Lemma flat_upd (ps : list (option (option nat))) : forall i x y a, nth_error ps i = Some x ->
    count_occ Nat.eq_dec (flat_map owned_by (upd ps i y)) a + count_occ Nat.eq_dec (owned_by x) a =
    count_occ Nat.eq_dec (flat_map owned_by ps) a + count_occ Nat.eq_dec (owned_by y) a.
  Proof.
    induction ps as [|p ps IH]; intros [|i] x y a E; cbn [nth_error upd flat_map] in *; try discriminate.
    - injection E as ->. rewrite !count_occ_app. lia.
    - rewrite !count_occ_app. specialize (IH i x y a E). lia.
  Qed.
  Lemma owners_upd ps ls i x y a : nth_error ps i = Some x ->
    owners (upd ps i y) ls a + count_occ Nat.eq_dec (owned_by x) a = owners ps ls a + count_occ Nat.eq_dec (owned_by y) a.
  Proof. intros E. rewrite !owners_split. pose proof (flat_upd ps i x y a E). lia. Qed.
  Lemma owners_cons ps ls b a : owners ps (b :: ls) a = (if Nat.eq_dec b a then 1 else 0) + owners ps ls a.
  Proof. rewrite !owners_split. cbn [count_occ]. destruct (Nat.eq_dec b a); lia. Qed.
  Lemma owners_add ps ls x a : owners (ps ++ [x]) ls a = owners ps ls a + count_occ Nat.eq_dec (owned_by x) a.
  Proof. rewrite !owners_split, flat_map_app, count_occ_app. cbn [flat_map]. rewrite app_nil_r. lia. Qed.

  (** An object in flight. *)
  Definition oc {X} (p : option X) (l : list X) : list X := match p with None => l | Some a => a :: l end.
  Lemma r_take cs ps ls hv hl i ov : rel cs ps ls hv hl -> nth_error hv i = Some (Some ov) ->
    exists p, nth_error ps i = Some (Some p) /\ shows cs (Some p) (Some ov) /\
      rel cs (upd ps i (Some None)) (oc p ls) (upd hv i (Some None)) (oc ov hl).
  Proof.
    intros (H1 & H2 & H3) E. destruct (o_F2_nth_r _ _ _ H1 i _ E) as (x & E' & Sh).
    destruct x as [p|]; [|destruct ov; destruct Sh]. exists p. repeat split; auto.
    - apply o_F2_upd; [exact H1|reflexivity].
    - destruct p as [a|], ov as [v|]; cbn in *; try (destruct Sh; fail); auto.
    - intros a. rewrite <- H3. pose proof (owners_upd ps ls i _ (Some None) a E') as U.
      destruct p as [b|]; cbn [oc owned_by] in *; cbn [count_occ] in U.
      + rewrite owners_cons. destruct (Nat.eq_dec b a); lia.
      + lia.
  Qed.
  Lemma r_give cs ps ls hv hl i p ov : rel cs ps (oc p ls) hv (oc ov hl) -> shows cs (Some p) (Some ov) ->
    nth_error ps i = Some (Some None) ->
    rel cs (upd ps i (Some p)) ls (upd hv i (Some ov)) hl.
  Proof.
    intros (H1 & H2 & H3) Sh E. repeat split.
    - apply o_F2_upd; assumption.
    - destruct p, ov; cbn in *; try (destruct Sh; fail); auto. now inversion H2.
    - intros a. rewrite <- H3. pose proof (owners_upd ps ls i _ (Some p) a E) as U.
      destruct p as [b|]; cbn [oc owned_by] in *; cbn [count_occ] in U.
      + rewrite owners_cons. destruct (Nat.eq_dec b a); lia.
      + lia.
  Qed.
  Lemma r_add cs ps ls hv hl p ov : rel cs ps (oc p ls) hv (oc ov hl) -> shows cs (Some p) (Some ov) ->
    rel cs (ps ++ [Some p]) ls (hv ++ [Some ov]) hl.
  Proof.
    intros (H1 & H2 & H3) Sh. repeat split.
    - apply Forall2_app; auto.
    - destruct p, ov; cbn in *; try (destruct Sh; fail); auto. now inversion H2.
    - intros a. rewrite <- H3, owners_add.
      destruct p as [b|]; cbn [oc owned_by count_occ]; [|lia].
      rewrite owners_cons. destruct (Nat.eq_dec b a); lia.
  Qed.
  Lemma exists_upd (cs : cells_t) b c a : b < length cs ->
    exists_at (upd cs b c) a = if b =? a then match c with Some _ => true | None => false end else exists_at cs a.
  Proof.
    intros L. unfold exists_at. destruct (Nat.eqb_spec b a) as [->|N].
    - rewrite nth_error_upd_eq by exact L. destruct c; reflexivity.
    - rewrite nth_error_upd_ne by lia. reflexivity.
  Qed.
  Lemma not_counted ps ls a : owners ps ls a = 0 ->
    (forall p, In p ps -> p <> Some (Some a)) /\ ~ In a ls.
  Proof.
    unfold owners. intros C. apply (proj2 (count_occ_not_In _ _ _)) in C.
    split.
    - intros p I ->. apply C. apply in_or_app. left. apply in_flat_map. exists (Some (Some a)). split; [exact I|left; reflexivity].
    - intros I. apply C. apply in_or_app. right. exact I.
  Qed.
  (** A change of an object nobody else has. *)
  Lemma shows_upd (cs : cells_t) ps hv ls hl a c : (forall p, In p ps -> p <> Some (Some a)) -> ~ In a ls ->
    Forall2 (shows cs) ps hv -> Forall2 (fun a v => nth_error cs a = Some (Some v)) ls hl ->
    Forall2 (shows (upd cs a c)) ps hv /\ Forall2 (fun b v => nth_error (upd cs a c) b = Some (Some v)) ls hl.
  Proof.
    intros N1 N2 F1 F2. split.
    - apply (o_F2_impl _ _ _ _ F1). intros p x I Sh. specialize (N1 p I).
      destruct p as [[b|]|], x as [[v|]|]; cbn in *; auto. rewrite nth_error_upd_ne; [exact Sh|congruence].
    - apply (o_F2_impl _ _ _ _ F2). intros b v I E. rewrite nth_error_upd_ne; [exact E|congruence].
  Qed.
  Lemma r_alone cs ps ls hv hl a v : rel cs ps (a :: ls) hv (v :: hl) ->
    nth_error cs a = Some (Some v) /\ (forall p, In p ps -> p <> Some (Some a)) /\ ~ In a ls.
  Proof.
    intros (H1 & H2 & H3). assert (E : nth_error cs a = Some (Some v)) by now inversion H2.
    split; [exact E|]. apply not_counted. specialize (H3 a). unfold exists_at in H3. rewrite E in H3.
    rewrite owners_cons in H3. destruct (Nat.eq_dec a a); lia.
  Qed.
  Lemma r_kill cs ps ls hv hl a v : rel cs ps (a :: ls) hv (v :: hl) ->
    nth_error cs a = Some (Some v) /\ rel (upd cs a None) ps ls hv hl.
  Proof.
    intros R. destruct (r_alone _ _ _ _ _ _ _ R) as (E & N1 & N2). split; [exact E|].
    destruct R as (H1 & H2 & H3). assert (H2' : Forall2 (fun a v => nth_error cs a = Some (Some v)) ls hl) by now inversion H2.
    destruct (shows_upd cs ps hv ls hl a None N1 N2 H1 H2') as (F1 & F2). repeat split; auto.
    intros b. rewrite exists_upd by (eapply nth_error_some_lt; exact E). specialize (H3 b). rewrite owners_cons in H3.
    destruct (Nat.eqb_spec a b) as [->|N].
    - destruct (Nat.eq_dec b b); [|lia]. unfold exists_at in H3. rewrite E in H3. lia.
    - destruct (Nat.eq_dec a b); [lia|]. exact H3.
  Qed.
  Lemma r_store cs ps ls hv hl a v w : rel cs ps (a :: ls) hv (v :: hl) ->
    rel (upd cs a (Some w)) ps (a :: ls) hv (w :: hl).
  Proof.
    intros R. destruct (r_alone _ _ _ _ _ _ _ R) as (E & N1 & N2).
    destruct R as (H1 & H2 & H3). assert (H2' : Forall2 (fun a v => nth_error cs a = Some (Some v)) ls hl) by now inversion H2.
    destruct (shows_upd cs ps hv ls hl a (Some w) N1 N2 H1 H2') as (F1 & F2).
    assert (L : a < length cs) by (eapply nth_error_some_lt; exact E). repeat split; auto.
    - constructor; [apply nth_error_upd_eq; exact L|exact F2].
    - intros b. rewrite exists_upd by exact L. rewrite H3. destruct (Nat.eqb_spec a b) as [->|N]; [|reflexivity].
      unfold exists_at. rewrite E. reflexivity.
  Qed.
  Lemma r_new cs ps ls hv hl v : rel cs ps ls hv hl -> rel (cs ++ [Some v]) ps (length cs :: ls) hv (v :: hl).
  Proof.
    intros (H1 & H2 & H3).
    assert (G : forall a w, nth_error cs a = Some w -> nth_error (cs ++ [Some v]) a = Some w).
    { intros a w E. rewrite nth_error_app1; [exact E|eapply nth_error_some_lt; exact E]. }
    repeat split.
    - apply (o_F2_impl _ _ _ _ H1). intros [[a|]|] [[x|]|] I Sh; cbn in *; auto.
    - constructor.
      + rewrite nth_error_app2, Nat.sub_diag by lia. reflexivity.
      + apply (o_F2_impl _ _ _ _ H2). intros a x I E. auto.
    - intros a. rewrite owners_cons, H3. unfold exists_at. destruct (Nat.eq_dec (length cs) a) as [<-|N].
      + rewrite nth_error_app2, Nat.sub_diag by lia. rewrite (proj2 (nth_error_None cs (length cs))) by lia. reflexivity.
      + destruct (Nat.lt_ge_cases a (length cs)) as [L|L].
        * rewrite nth_error_app1 by exact L. reflexivity.
        * rewrite nth_error_app2 by lia. rewrite (proj2 (nth_error_None cs a)) by lia.
          destruct (a - length cs) eqn:Ed; [lia|]. cbn. now destruct n.
  Qed.
  Lemma r_end cs ps ls hv hl i : rel cs ps ls hv hl -> nth_error ps i = Some (Some None) ->
    rel cs (upd ps i None) ls (upd hv i None) hl.
  Proof.
    intros (H1 & H2 & H3) E. repeat split; auto.
    - apply o_F2_upd; [exact H1|reflexivity].
    - intros a. rewrite <- H3. pose proof (owners_upd ps ls i _ None a E) as U. cbn [owned_by count_occ] in U. lia.
  Qed.
  Lemma r_last cs ps ls hv hl a v : rel cs ps (a :: ls) hv (v :: hl) <-> rel cs ps (ls ++ [a]) hv (hl ++ [v]).
  Proof.
    assert (C : forall b, owners ps (a :: ls) b = owners ps (ls ++ [a]) b).
    { intros b. rewrite !owners_split, count_occ_app. cbn [count_occ]. destruct (Nat.eq_dec a b); lia. }
    split; intros (H1 & H2 & H3); repeat split; auto.
    - inversion H2; subst. apply Forall2_app; auto.
    - intros b. rewrite <- C. apply H3.
    - destruct (Forall2_app_inv_l _ _ H2) as (m1 & m2 & F1 & F2 & E). inversion F2 as [|? w ? m' Hw F3]; subst. inversion F3; subst.
      apply app_inj_tail in E as [-> ->]. constructor; auto.
    - intros b. rewrite C. apply H3.
  Qed.
  Lemma count_remove (ls : list nat) : forall k a b, nth_error ls k = Some a ->
    count_occ Nat.eq_dec ls b = (if Nat.eq_dec a b then 1 else 0) + count_occ Nat.eq_dec (remove_at ls k) b.
  Proof.
    induction ls as [|x ls IH]; intros [|k] a b E; cbn [nth_error] in E; try discriminate.
    - injection E as ->. cbn [remove_at count_occ]. destruct (Nat.eq_dec a b); lia.
    - cbn [remove_at count_occ]. rewrite (IH k a b E). destruct (Nat.eq_dec x b), (Nat.eq_dec a b); lia.
  Qed.
  Lemma r_pick cs ps ls hv hl k v : rel cs ps ls hv hl -> nth_error hl k = Some v ->
    exists a, nth_error ls k = Some a /\ rel cs ps (a :: remove_at ls k) hv (v :: remove_at hl k).
  Proof.
    intros (H1 & H2 & H3) E. destruct (o_F2_nth_r _ _ _ H2 k v E) as (a & Ea & Sv). exists a. split; [exact Ea|].
    repeat split; auto.
    - constructor; [exact Sv|]. now apply o_F2_remove.
    - intros b. rewrite <- H3, owners_cons, !owners_split, (count_remove ls k a b Ea). lia.
  Qed.
  Lemma r_swap cs ps ls hv hl i j x y : rel cs ps ls hv hl -> nth_error hv i = Some (Some x) -> nth_error hv j = Some (Some y) ->
    exists p q, nth_error ps i = Some (Some p) /\ nth_error ps j = Some (Some q) /\
      shows cs (Some p) (Some x) /\ shows cs (Some q) (Some y) /\
      rel cs (upd (upd ps i (Some q)) j (Some p)) ls (upd (upd hv i (Some y)) j (Some x)) hl.
  Proof.
    intros R Ex Ey. destruct R as (H1 & H2 & H3).
    destruct (o_F2_nth_r _ _ _ H1 i _ Ex) as ([p|] & Ep & Sx); [|destruct x; destruct Sx].
    destruct (o_F2_nth_r _ _ _ H1 j _ Ey) as ([q|] & Eq & Sy); [|destruct y; destruct Sy].
    exists p, q. repeat split; auto.
    - apply o_F2_upd; [apply o_F2_upd|]; auto.
    - intros a. rewrite <- H3.
      pose proof (owners_upd ps ls i _ (Some q) a Ep) as U1.
      destruct (Nat.eq_dec i j) as [->|N].
      + rewrite Ep in Eq. injection Eq as ->. rewrite o_upd_upd, (o_upd_id ps j (Some q) Ep). reflexivity.
      + assert (Eq' : nth_error (upd ps i (Some q)) j = Some (Some q)) by (rewrite nth_error_upd_ne by lia; exact Eq).
        pose proof (owners_upd _ ls j _ (Some p) a Eq') as U2. lia.
  Qed.
End Core.

Section States.
  Context {V A : Type}.
  Notation st := (st V A).
  Notation holding := (holding V).
  Definition ok (s : st) (h : holding) : Prop := represents s h /\ deleted_once s.
  Definition fly (s : st) (p : option nat) (ov : option V) (h : holding) : Prop :=
    rel (cells s) (pointers s) (oc p (loose s)) (held h) (oc ov (mine h)) /\ shows (cells s) (Some p) (Some ov) /\ deleted_once s.

  Lemma ptrs_put (s : st) i p : pointers (put s i p) = upd (pointers s) i (Some (ptr p)).
  Proof. unfold pointers, put, set_var. cbn [vars]. now rewrite o_map_upd. Qed.
  Lemma ptrs_end (s : st) i : pointers (set_var s i None) = upd (pointers s) i None.
  Proof. unfold pointers, set_var. cbn [vars]. now rewrite o_map_upd. Qed.
  Lemma ptrs_add (s : st) p : pointers (add s p) = pointers s ++ [Some (ptr p)].
  Proof. unfold pointers, add. cbn [vars]. now rewrite map_app. Qed.
  Lemma var_ptrs (s : st) i o : var s i = Ok o -> nth_error (pointers s) i = Some (Some (ptr o)).
  Proof.
    unfold var, pointers. rewrite nth_error_map. destruct (nth_error (vars s) i) as [[p|]|]; cbn; try discriminate.
    intros E. now injection E as ->.
  Qed.
  Lemma ptrs_var (s : st) i p : nth_error (pointers s) i = Some (Some p) -> exists o, var s i = Ok o /\ ptr o = p.
  Proof.
    unfold var, pointers. rewrite nth_error_map. destruct (nth_error (vars s) i) as [[o|]|]; cbn; try discriminate.
    intros E. injection E as <-. eauto.
  Qed.
  Lemma ok_ext s s' h : ok s h -> cells s' = cells s -> pointers s' = pointers s -> loose s' = loose s -> log s' = log s -> ok s' h.
  Proof.
    intros [R D] E1 E2 E3 E4. split.
    - unfold represents. rewrite E1, E2, E3. exact R.
    - unfold deleted_once. rewrite E1, E4. exact D.
  Qed.
  Lemma ok_fly s h : ok s h -> fly s None None h.
  Proof. intros [R D]. repeat split; auto; apply R || apply D. Qed.
  Lemma fly_ok s h : fly s None None h -> ok s h.
  Proof. intros (R & _ & D). split; [exact R|exact D]. Qed.
  Lemma s_var s h i ov : ok s h -> nth_error (held h) i = Some (Some ov) ->
    exists o, var s i = Ok o /\ shows (cells s) (Some (ptr o)) (Some ov).
  Proof.
    intros [R D] E. destruct (r_take _ _ _ _ _ i ov R E) as (p & Ep & Sh & _).
    destruct (ptrs_var _ _ _ Ep) as (o & Eo & <-). eauto.
  Qed.
  Lemma s_take s h i ov o x : ok s h -> nth_error (held h) i = Some (Some ov) -> var s i = Ok o ->
    fly (put s i (Own None x)) (ptr o) ov (change h i (Some None)).
  Proof.
    intros [R D] E Eo. destruct (r_take _ _ _ _ _ i ov R E) as (p & Ep & Sh & R').
    rewrite (var_ptrs _ _ _ Eo) in Ep. injection Ep as <-.
    repeat split; try apply D; try exact Sh; unfold change; cbn [held mine]; rewrite ?ptrs_put; apply R'.
  Qed.
  Lemma s_give s h i p ov x : fly s p ov h -> nth_error (held h) i = Some (Some None) ->
    ok (put s i (Own p x)) (change h i (Some ov)).
  Proof.
    intros (R & Sh & D) E. assert (Ep : nth_error (pointers s) i = Some (Some None)).
    { destruct R as (H1 & _). destruct (o_F2_nth_r _ _ _ H1 i _ E) as ([[a|]|] & Ep & Sp); [destruct Sp| |destruct Sp]; assumption. }
    split; [|exact D]. unfold represents. rewrite ptrs_put. apply (r_give _ _ _ _ _ i p ov R Sh Ep).
  Qed.
  Lemma s_add s h p ov x : fly s p ov h -> ok (add s (Own p x)) (extend h (Some ov)).
  Proof.
    intros (R & Sh & D). split; [|exact D]. unfold represents. rewrite ptrs_add. apply (r_add _ _ _ _ _ p ov R Sh).
  Qed.
  Lemma s_del s h p ov d : fly s p ov h ->
    exists s', del s d p = Ok s' /\ ok s' h /\ vars s' = vars s /\ loose s' = loose s.
  Proof.
    intros (R & Sh & D). destruct p as [a|], ov as [v|]; try (destruct Sh; fail).
    - destruct (r_kill _ _ _ _ _ _ _ R) as (E & R'). cbn [shows] in Sh. eexists. split.
      { unfold del, val. rewrite Sh. reflexivity. }
      split; [|split; reflexivity]. split; [exact R'|]. destruct D as (D1 & D2).
      assert (L : a < length (cells s)) by (eapply nth_error_some_lt; exact E).
      unfold deleted_once. cbn [log cells]. rewrite map_app. cbn [map fst]. split.
      + apply (Permutation_NoDup (l := a :: map fst (log s))); [apply Permutation_cons_append|].
        constructor; [|exact D1]. intros I. apply D2 in I. rewrite E in I. discriminate.
      + intros b. rewrite in_app_iff. cbn [In]. destruct (Nat.eq_dec a b) as [<-|N].
        * rewrite nth_error_upd_eq by exact L. tauto.
        * rewrite nth_error_upd_ne by lia. rewrite <- D2. intuition congruence.
    - exists s. repeat split; try apply R; apply D.
  Qed.
  Lemma s_new s h v : ok s h -> fly (fst (fresh s v)) (Some (snd (fresh s v))) (Some v) h.
  Proof.
    intros [R D]. unfold fresh. cbn [fst snd]. split; [|split].
    - exact (r_new _ _ _ _ _ v R).
    - cbn [shows cells]. rewrite nth_error_app2, Nat.sub_diag by lia. reflexivity.
    - destruct D as (D1 & D2). split; [exact D1|]. intros a. cbn [cells log]. rewrite D2.
      destruct (Nat.lt_ge_cases a (length (cells s))) as [L|L].
      + rewrite nth_error_app1 by exact L. reflexivity.
      + rewrite nth_error_app2 by exact L. rewrite (proj2 (nth_error_None (cells s) a)) by lia.
        split; [discriminate|]. destruct (a - length (cells s)) as [|n]; [discriminate|]. cbn. now destruct n.
  Qed.
  Lemma s_lend s h p ov : fly s p ov h ->
    ok (lend s p) (Holding (held h) (mine h ++ match ov with Some v => [v] | None => [] end)).
  Proof.
    intros (R & Sh & D). destruct p as [a|], ov as [v|]; try (destruct Sh; fail); split; try exact D.
    - apply r_last in R. exact R.
    - unfold represents. cbn [held mine]. rewrite app_nil_r. exact R.
  Qed.
  Lemma s_hand s h k : ok s h -> k < length (mine h) ->
    exists s' a v, hand_over s k = Ok (s', a) /\ nth_error (mine h) k = Some v /\
      fly s' (Some a) (Some v) (Holding (held h) (firstn k (mine h) ++ skipn (S k) (mine h))).
  Proof.
    intros [R D] L. destruct (nth_error_ex (mine h) k L) as (v & Ev).
    destruct (r_pick _ _ _ _ _ k v R Ev) as (a & Ea & R').
    eexists _, a, v. split.
    { unfold hand_over. rewrite (rd_some _ _ _ Ea). reflexivity. }
    split; [exact Ev|]. split; [|split; [|exact D]].
    - cbn [cells loose held mine]. rewrite <- o_remove_at. exact R'.
    - cbn [shows cells]. apply (r_alone _ _ _ _ _ _ _ R').
  Qed.
  Lemma s_end s h i : ok s h -> nth_error (held h) i = Some (Some None) -> ok (set_var s i None) (change h i None).
  Proof.
    intros [R D] E. split; [|exact D]. assert (Ep : nth_error (pointers s) i = Some (Some None)).
    { destruct R as (H1 & _). destruct (o_F2_nth_r _ _ _ H1 i _ E) as ([[a|]|] & Ep & Sp); [destruct Sp| |destruct Sp]; assumption. }
    unfold represents. rewrite ptrs_end. apply (r_end _ _ _ _ _ i R Ep).
  Qed.
  Lemma s_swap s h i j x y o o' s' : ok s h -> nth_error (held h) i = Some (Some x) -> nth_error (held h) j = Some (Some y) ->
    var s i = Ok o -> var s j = Ok o' ->
    cells s' = cells s -> log s' = log s -> loose s' = loose s ->
    pointers s' = upd (upd (pointers s) i (Some (ptr o'))) j (Some (ptr o)) ->
    ok s' (change (change h i (Some y)) j (Some x)).
  Proof.
    intros [R D] Ex Ey Eo Eo' E1 E2 E3 E4. destruct (r_swap _ _ _ _ _ i j x y R Ex Ey) as (p & q & Ep & Eq & _ & _ & R').
    rewrite (var_ptrs _ _ _ Eo) in Ep. injection Ep as <-. rewrite (var_ptrs _ _ _ Eo') in Eq. injection Eq as <-.
    split.
    - unfold represents. rewrite E1, E3, E4. exact R'.
    - unfold deleted_once. rewrite E1, E2. exact D.
  Qed.
  Lemma s_val s h i v o : ok s h -> nth_error (held h) i = Some (Some (Some v)) -> var s i = Ok o ->
    val s (ptr o) = Ok v.
  Proof.
    intros K E Eo. destruct (s_var _ _ _ _ K E) as (o' & Eo' & Sh). rewrite Eo in Eo'. injection Eo' as <-.
    destruct (ptr o) as [a|]; [|destruct Sh]. cbn [shows] in Sh. unfold val. now rewrite Sh.
  Qed.
  Lemma s_null s h i o : ok s h -> nth_error (held h) i = Some (Some None) -> var s i = Ok o -> ptr o = None.
  Proof.
    intros K E Eo. destruct (s_var _ _ _ _ K E) as (o' & Eo' & Sh). rewrite Eo in Eo'. injection Eo' as <-.
    destruct (ptr o) as [a|]; [destruct Sh|reflexivity].
  Qed.
  Lemma s_full s h i v o : ok s h -> nth_error (held h) i = Some (Some (Some v)) -> var s i = Ok o -> exists a, ptr o = Some a.
  Proof.
    intros K E Eo. destruct (s_var _ _ _ _ K E) as (o' & Eo' & Sh). rewrite Eo in Eo'. injection Eo' as <-.
    destruct (ptr o) as [a|]; [eauto|destruct Sh].
  Qed.
  Lemma held_change (h : holding) i x : i < length (held h) -> nth_error (held (change h i x)) i = Some x.
  Proof. intros L. unfold change. cbn [held]. now apply nth_error_upd_eq. Qed.
  Lemma held_other (h : holding) i j x : j <> i -> nth_error (held (change h i x)) j = nth_error (held h) j.
  Proof. intros N. unfold change. cbn [held]. now apply nth_error_upd_ne. Qed.
  Lemma change_change (h : holding) i x y : change (change h i x) i y = change h i y.
  Proof. unfold change. cbn [held mine]. now rewrite o_upd_upd. Qed.
  Lemma change_comm (h : holding) i j x y : i <> j -> change (change h i x) j y = change (change h j y) i x.
  Proof. intros N. unfold change. cbn [held mine]. now rewrite o_upd_comm. Qed.
  Lemma change_id (h : holding) i x : nth_error (held h) i = Some x -> change h i x = h.
  Proof. intros E. destruct h as [hh hm]. unfold change. cbn [held mine] in *. now rewrite o_upd_id. Qed.
  Lemma at_var_eq (h : holding) i x : nth_error (held h) i = Some x -> at_var h i = x.
  Proof. intros E. unfold at_var. now apply nth_error_nth. Qed.
  Lemma lives_ex (h : holding) i : lives h i = true -> exists ov, nth_error (held h) i = Some (Some ov).
  Proof. unfold lives. destruct (nth_error (held h) i) as [[ov|]|]; try discriminate. eauto. Qed.
  Lemma full_ex (h : holding) i : full h i = true -> exists v, nth_error (held h) i = Some (Some (Some v)).
  Proof. unfold full. destruct (nth_error (held h) i) as [[[v|]|]|]; try discriminate. eauto. Qed.
  Lemma full_lives (h : holding) i : full h i = true -> lives h i = true.
  Proof. unfold full, lives. destruct (nth_error (held h) i) as [[[v|]|]|]; congruence. Qed.
  Lemma s_store s h i v o w : ok s h -> nth_error (held h) i = Some (Some (Some v)) -> var s i = Ok o ->
    exists s', store s (ptr o) w = Ok s' /\ ok s' (change h i (Some (Some w))) /\ vars s' = vars s /\ loose s' = loose s.
  Proof.
    intros K E Eo. pose proof (s_val _ _ _ _ _ K E Eo) as Ev. destruct (s_full _ _ _ _ _ K E Eo) as (a & Ea).
    destruct (s_take s h i _ o (aux o) K E Eo) as (R & Sh & D). rewrite Ea in *.
    eexists. split; [unfold store; rewrite Ev; reflexivity|]. split; [|split; reflexivity].
    pose proof (r_store _ _ _ _ _ _ _ w R) as R'.
    assert (L : i < length (held h)) by (eapply nth_error_some_lt; exact E).
    cbn [shows put set_var cells loose] in *.
    assert (La : a < length (cells s)) by (eapply nth_error_some_lt; exact Sh).
    assert (Sh' : shows (upd (cells s) a (Some w)) (Some (Some a)) (Some (Some w))).
    { cbn [shows]. now apply nth_error_upd_eq. }
    assert (Ei : nth_error (pointers (put s i (Own None (aux o)))) i = Some (Some None)).
    { rewrite ptrs_put. apply nth_error_upd_eq. eapply nth_error_some_lt. exact (var_ptrs _ _ _ Eo). }
    pose proof (r_give _ _ (loose s) _ (mine h) i (Some a) (Some w) R' Sh' Ei) as R2.
    split.
    - unfold represents. cbn [cells loose]. rewrite ptrs_put, o_upd_upd in R2.
      rewrite (o_upd_id (pointers s) i) in R2 by (rewrite (var_ptrs _ _ _ Eo), Ea; reflexivity).
      unfold change in R2 at 1. cbn [held] in R2. rewrite o_upd_upd in R2. exact R2.
    - destruct D as (D1 & D2). split; [exact D1|]. intros b. cbn [log cells]. cbn [log cells put set_var] in D2. rewrite D2.
      destruct (Nat.eq_dec b a) as [->|N].
      + rewrite nth_error_upd_eq by exact La. rewrite Sh. split; discriminate.
      + rewrite nth_error_upd_ne by exact N. reflexivity.
  Qed.
  Lemma s_write s h i w : ok s h -> full h i = true ->
    exists s', write s i w = Ok s' /\ ok s' (change h i (Some (Some w))) /\ vars s' = vars s.
  Proof.
    intros K F. destruct (full_ex _ _ F) as (v & E). destruct (s_var _ _ _ _ K E) as (o & Eo & _).
    destruct (s_store s h i v o w K E Eo) as (s' & Es & K' & Ev & _). exists s'. unfold write. rewrite Eo. cbn [bind]. auto.
  Qed.

  (** Histories, from one step. *)
  Lemma histories (step : st -> oop V -> res st) sw allowed :
    (forall s h o, ok s h -> allowed h o = true -> exists s', step s o = Ok s' /\ ok s' (effect sw h o)) ->
    owns_properly step sw allowed.
  Proof.
    intros H os. unfold owns_properly.
    assert (G : forall s h h', ok s h -> effects sw allowed os h = Some h' -> exists s', run step os s = Ok s' /\ represents s' h' /\ deleted_once s').
    { induction os as [|o os IH]; intros s h h' K E; cbn [effects run] in *.
      - injection E as <-. exists s. split; [reflexivity|exact K].
      - destruct (allowed h o) eqn:Ea; [|discriminate]. destruct (H s h o K Ea) as (s1 & E1 & K1). rewrite E1. cbn [bind].
        exact (IH _ _ _ K1 E). }
    intros h' E. apply (G start at_first h'); [|exact E].
    repeat split; cbn; try constructor; try contradiction.
    - intros a. unfold owners, exists_at. cbn. now destruct a.
    - destruct a; discriminate.
  Qed.
End States.

Section Common.
  Context {V A : Type}.
  Notation st := (st V A).
  Notation holding := (holding V).
  Lemma g_drop (s : st) (h : holding) i ov o x d : ok s h -> nth_error (held h) i = Some (Some ov) -> var s i = Ok o ->
    exists s', del (put s i (Own None x)) d (ptr o) = Ok s' /\ ok s' (change h i (Some None)) /\
      vars s' = upd (vars s) i (Some (Own None x)) /\ loose s' = loose s.
  Proof.
    intros K E Eo. exact (s_del _ _ _ _ d (s_take s h i ov o x K E Eo)).
  Qed.
  Lemma len_of (h : holding) i x : nth_error (held h) i = Some x -> i < length (held h).
  Proof. apply nth_error_some_lt. Qed.
  Lemma g_fresh_add (s : st) (h : holding) v x : ok s h ->
    ok (add (fst (fresh s v)) (Own (Some (snd (fresh s v))) x)) (extend h (Some (Some v))).
  Proof. intros K. exact (s_add _ _ _ _ x (s_new s h v K)). Qed.
  Lemma g_add_null (s : st) (h : holding) x : ok s h -> ok (add s (Own None x)) (extend h (Some None)).
  Proof. intros K. exact (s_add _ _ _ _ x (ok_fly _ _ K)). Qed.
  Lemma g_adopt (s : st) (h : holding) k x : ok s h -> (k <? length (mine h)) = true ->
    exists s' a, hand_over s k = Ok (s', a) /\ vars s' = vars s /\ ok (add s' (Own (Some a) x)) (effect false h (Adopt k)).
  Proof.
    intros K L. apply Nat.ltb_lt in L. destruct (s_hand s h k K L) as (s' & a & v & E & Ev & Fl). exists s', a.
    split; [exact E|]. split.
    - unfold hand_over in E. destruct (rd (loose s) k) as [b| | |]; try discriminate. cbn [bind] in E. now injection E as <- <-.
    - cbn [effect]. rewrite Ev. exact (s_add _ _ _ _ x Fl).
  Qed.
  Lemma g_move (s : st) (h : holding) i ov o x y : ok s h -> nth_error (held h) i = Some (Some ov) -> var s i = Ok o ->
    ok (add (put s i (Own None x)) (Own (ptr o) y)) (effect false h (MoveNew i)).
  Proof.
    intros K E Eo. cbn [effect]. rewrite (at_var_eq _ _ _ E). exact (s_add _ _ _ _ y (s_take s h i ov o x K E Eo)).
  Qed.
  Lemma g_release (s : st) (h : holding) i ov o x : ok s h -> nth_error (held h) i = Some (Some ov) -> var s i = Ok o ->
    ok (lend (put s i (Own None x)) (ptr o)) (effect false h (Release i)).
  Proof.
    intros K E Eo. cbn [effect]. rewrite (at_var_eq _ _ _ E). pose proof (s_lend _ _ _ _ (s_take s h i ov o x K E Eo)) as G.
    exact G.
  Qed.
  Lemma g_end (s : st) (h : holding) i : ok s (change h i (Some None)) -> i < length (held h) ->
    ok (set_var s i None) (change h i None).
  Proof.
    intros K L. pose proof (s_end _ _ i K (held_change h i _ L)) as G. rewrite change_change in G. exact G.
  Qed.
  (** Into an empty variable. *)
  Lemma g_fill (s : st) (h : holding) i p ov x : fly s p ov (change h i (Some None)) -> i < length (held h) ->
    ok (put s i (Own p x)) (change h i (Some ov)).
  Proof.
    intros Fl L. pose proof (s_give _ _ i p ov x Fl (held_change h i _ L)) as G. rewrite change_change in G. exact G.
  Qed.
  Lemma var_vars (s s' : st) i : vars s' = vars s -> var s' i = var s i.
  Proof. unfold var. now intros ->. Qed.
  Lemma var_put (s : st) i p o : var s i = Ok o -> var (put s i p) i = Ok p.
  Proof.
    unfold var, put, set_var. cbn [vars]. intros E. rewrite nth_error_upd_eq; [reflexivity|].
    destruct (nth_error (vars s) i) eqn:En; [|discriminate]. eapply nth_error_some_lt; exact En.
  Qed.
  Lemma var_put_ne (s : st) i j p : j <> i -> var (put s i p) j = var s j.
  Proof. intros N. unfold var, put, set_var. cbn [vars]. now rewrite nth_error_upd_ne. Qed.
  Lemma var_upd (s s' : st) i p : vars s' = upd (vars s) i (Some p) -> forall o, var s i = Ok o -> var s' i = Ok p.
  Proof. intros E o Eo. rewrite (var_vars (put s i p) s' i E). eapply var_put; exact Eo. Qed.
  Lemma var_upd_ne (s s' : st) i j p : vars s' = upd (vars s) i (Some p) -> j <> i -> var s' j = var s j.
  Proof. intros E N. rewrite (var_vars (put s i p) s' j E). now apply var_put_ne. Qed.
  (** Adopting depends on the policy only by name. *)
  Lemma eff_sw (h : holding) o sw : (forall i j, o <> MoveTo i j) -> effect sw h o = effect false h o.
  Proof. destruct o; intros N; try reflexivity. now destruct (N i j). Qed.
End Common.
Ltac lv L := let o := fresh "ov" in let E := fresh "Ei" in destruct (lives_ex _ _ L) as (o & E).

Section UniquePtrProofs.
  Context {V : Type}.
  Notation st := (st V nat).
  Notation holding := (holding V).
  Lemma up_reset_ok (s : st) (h : holding) i ov : ok s h -> nth_error (held h) i = Some (Some ov) ->
    exists s' x, up_reset s i = Ok s' /\ ok s' (change h i (Some None)) /\ vars s' = upd (vars s) i (Some (Own None x)) /\
      var s' i = Ok (Own None x).
  Proof.
    intros K E. destruct (s_var _ _ _ _ K E) as (o & Eo & _). unfold up_reset. rewrite Eo. cbn [bind].
    destruct (g_drop s h i ov o (aux o) (aux o) K E Eo) as (s' & Es & K' & Ev & _).
    exists s', (aux o). split; [exact Es|]. split; [exact K'|]. split; [exact Ev|]. eapply var_upd; [exact Ev|exact Eo].
  Qed.
  Lemma up_step_ok (s : st) (h : holding) o : ok s h -> unique_ops h o = true ->
    exists s', up_step s o = Ok s' /\ ok s' (effect false h o).
  Proof.
    intros K H. unfold unique_ops in H. rewrite !andb_true_iff in H. destruct H as ((P & C) & A).
    destruct o as [v| |k|i|i j|i|i j|i j|i|i v|i|i v|i v|i]; cbn [proper is_copy is_assign negb] in P, C, A; try discriminate;
      cbn [up_step].
    - eexists. split; [unfold fresh; reflexivity|]. exact (g_fresh_add s h v 0 K).
    - eexists. split; [reflexivity|]. exact (g_add_null s h 0 K).
    - destruct (g_adopt s h k 0 K P) as (s' & a & E & _ & K'). rewrite E. cbn [bind]. eexists. split; [reflexivity|exact K'].
    - lv P. destruct (s_var _ _ _ _ K Ei) as (o & Eo & _). unfold up_move, up_release. rewrite Eo. cbn [bind].
      eexists. split; [reflexivity|]. exact (g_move s h i ov o _ _ K Ei Eo).
    - rewrite andb_true_iff in P. destruct P as (P1 & P2). unfold up_move_assign. cbn [effect].
      destruct (Nat.eqb_spec i j) as [->|N]; [eauto|].
      destruct (lives_ex _ _ P1) as (ov & Ei). destruct (lives_ex _ _ P2) as (ow & Ej).
      destruct (up_reset_ok s h i ov K Ei) as (s1 & x & E1 & K1 & V1 & W1). rewrite E1. cbn [bind].
      assert (Ej1 : nth_error (held (change h i (Some None))) j = Some (Some ow)) by (rewrite held_other by lia; exact Ej).
      destruct (s_var _ _ _ _ K1 Ej1) as (o & Eo & _). unfold up_release. rewrite Eo. cbn [bind].
      unfold up_set. rewrite var_put_ne by exact N. rewrite W1. cbn [bind].
      eexists. split; [reflexivity|]. pose proof (s_take s1 _ j ow o (aux o) K1 Ej1 Eo) as Fl.
      rewrite (at_var_eq _ _ _ Ej). rewrite (change_comm h i j) in Fl by exact N.
      pose proof (g_fill _ (change h j (Some None)) i _ _ x Fl) as G.
      rewrite (change_comm h j i) in G by lia. apply G. unfold change. cbn [held]. rewrite upd_length. eapply len_of; exact Ei.
    - rewrite andb_true_iff in P. destruct P as (P1 & P2).
      destruct (lives_ex _ _ P1) as (ov & Ei). destruct (lives_ex _ _ P2) as (ow & Ej).
      destruct (s_var _ _ _ _ K Ei) as (o & Eo & _). destruct (s_var _ _ _ _ K Ej) as (o' & Eo' & _).
      unfold up_swap. rewrite Eo, Eo'. cbn [bind effect]. rewrite (at_var_eq _ _ _ Ei), (at_var_eq _ _ _ Ej).
      assert (W : exists w, var (put s i (Own (ptr o') (aux o))) j = Ok w).
      { destruct (Nat.eq_dec j i) as [->|N]; [erewrite var_put by exact Eo; eauto|rewrite var_put_ne by exact N; eauto]. }
      destruct W as (w & W). rewrite W. cbn [bind]. eexists. split; [reflexivity|].
      eapply (s_swap s h i j ov ow o o'); eauto. rewrite !ptrs_put. reflexivity.
    - lv P. destruct (up_reset_ok s h i ov K Ei) as (s1 & x & E1 & K1 & _). eauto.
    - lv P. unfold fresh. set (s0 := St _ _ _ _). pose proof (s_new s h v K) as Fl. change (fst (fresh s v)) with s0 in Fl.
      change (snd (fresh s v)) with (length (cells s)) in Fl. unfold up_reset_to, up_reset.
      destruct (s_var _ _ _ _ K Ei) as (o & Eo & _).
      (* the object in flight is kept in [loose] while the old one is deleted *)
      assert (K0 : ok (St (cells s0) (log s0) (vars s0) (loose s ++ [length (cells s)])) (Holding (held h) (mine h ++ [v]))).
      { exact (s_lend s0 h _ _ Fl). }
      set (s9 := St _ _ _ _) in K0.
      assert (Eo0 : var s9 i = Ok o) by exact Eo. assert (Eo1 : var s0 i = Ok o) by exact Eo.
      destruct (g_drop s9 _ i ov o (aux o) (aux o) K0 Ei Eo0) as (s' & Es & K' & V' & L').
      assert (Es0 : exists s1, del (put s0 i (Own None (aux o))) (aux o) (ptr o) = Ok s1 /\ cells s1 = cells s' /\ vars s1 = vars s' /\ log s1 = log s' /\ loose s1 = loose s).
      { clear - Es. unfold del in *. destruct (ptr o) as [a|].
        - unfold val in *. cbn [put set_var cells s9 s0] in *. destruct (nth_error (cells s ++ [Some v]) a) as [[w|]|]; try discriminate.
          cbn [bind] in *. injection Es as <-. eexists. split; [reflexivity|]. cbn. auto.
        - injection Es as <-. eexists. split; [reflexivity|]. cbn. auto. }
      destruct Es0 as (s1 & E1 & C1 & V1 & G1 & L1). rewrite Eo1. cbn [bind]. rewrite E1. cbn [bind]. unfold up_set.
      assert (Ev1 : vars s1 = upd (vars s) i (Some (Own None (aux o)))) by (rewrite V1, V'; reflexivity).
      erewrite (var_upd s s1 i _ Ev1) by exact Eo. cbn [bind aux]. eexists. split; [reflexivity|].
      cbn [effect]. apply g_fill; [|eapply len_of; exact Ei].
      destruct K' as (R' & D'). unfold represents in R'. cbn [change held mine] in R'. rewrite L' in R'. cbn [loose s9] in R'.
      assert (Ps : pointers s1 = pointers s') by (unfold pointers; rewrite V1; reflexivity).
      apply r_last in R'. split; [|split].
      + rewrite C1, Ps, L1. exact R'.
      + rewrite C1. cbn [shows]. apply (r_alone _ _ _ _ _ _ _ R').
      + unfold deleted_once. rewrite C1, G1. exact D'.
    - lv P. destruct (s_var _ _ _ _ K Ei) as (o & Eo & _). unfold up_release. rewrite Eo. cbn [bind].
      eexists. split; [reflexivity|]. exact (g_release s h i ov o _ K Ei Eo).
    - destruct (s_write s h i v K P) as (s' & E & K' & _). eauto.
    - lv P. unfold up_destroy. destruct (up_reset_ok s h i ov K Ei) as (s1 & x & E1 & K1 & _). rewrite E1. cbn [bind].
      eexists. split; [reflexivity|]. cbn [effect]. apply g_end; [exact K1|eapply len_of; exact Ei].
  Qed.
  Lemma up_histories : owns_properly (V := V) up_step false unique_ops.
  Proof. apply histories. intros s h o. apply up_step_ok. Qed.
End UniquePtrProofs.

Section InFlight.
  Context {V A : Type}.
  Notation st := (st V A).
  Notation holding := (holding V).
  Lemma del_put (s : st) i p d q : del (put s i p) d q = (s0 <- del s d q ;; Ok (put s0 i p)).
  Proof. unfold del, val. destruct q as [a|]; [|reflexivity]. cbn [put set_var cells]. destruct (nth_error (cells s) a) as [[v|]|]; reflexivity. Qed.
  Lemma put_put (s : st) i p q : put (put s i p) i q = put s i q.
  Proof. unfold put, set_var. cbn [cells log vars loose]. now rewrite o_upd_upd. Qed.
  Lemma put_same (s : st) i p : var s i = Ok p -> put s i p = s.
  Proof.
    unfold var, put, set_var. destruct (nth_error (vars s) i) as [[o|]|] eqn:E; try discriminate. intros H. injection H as ->.
    destruct s as [c l v f]. cbn [cells log vars loose] in *. now rewrite o_upd_id.
  Qed.
  Definition put_loose (s : st) (l : list nat) : st := St (cells s) (log s) (vars s) l.
  Lemma del_loose (s : st) l d q : del (put_loose s l) d q = (s0 <- del s d q ;; Ok (put_loose s0 l)).
  Proof. unfold del, val. destruct q as [a|]; [|reflexivity]. cbn [put_loose cells]. destruct (nth_error (cells s) a) as [[v|]|]; reflexivity. Qed.
  Lemma del_keeps (s s' : st) d q : del s d q = Ok s' -> vars s' = vars s /\ loose s' = loose s.
  Proof.
    unfold del, val. destruct q as [a|]; [|intros E; injection E as <-; auto].
    destruct (nth_error (cells s) a) as [[v|]|]; try discriminate. cbn [bind]. intros E. injection E as <-. auto.
  Qed.
  (** The old object goes while a new one waits. *)
  Lemma g_replace (s : st) (h : holding) i ov o a v x d : fly s (Some a) (Some v) h ->
    nth_error (held h) i = Some (Some ov) -> var s i = Ok o ->
    exists s0, del s d (ptr o) = Ok s0 /\ ok (put s0 i (Own (Some a) x)) (change h i (Some (Some v))) /\ vars s0 = vars s.
  Proof.
    intros Fl E Eo. pose proof (s_lend s h _ _ Fl) as K9. cbn [lend] in K9.
    change (ok (put_loose s (loose s ++ [a])) (Holding (held h) (mine h ++ [v]))) in K9.
    destruct (g_drop _ _ i ov o x d K9 E Eo) as (s' & Es & K' & V' & L').
    rewrite del_put, del_loose in Es. destruct (del s d (ptr o)) as [s0| | |] eqn:Ed; try discriminate. cbn [bind] in Es.
    injection Es as <-. exists s0. destruct (del_keeps _ _ _ _ Ed) as (Ev & El). split; [reflexivity|]. split; [|exact Ev].
    destruct K' as (R' & D'). unfold represents in R'. cbn [put set_var put_loose cells loose change held mine] in R'. apply r_last in R'.
    assert (Fl' : fly (put s0 i (Own None x)) (Some a) (Some v) (change h i (Some None))).
    { split; [|split].
      - cbn [put set_var cells loose]. rewrite El. exact R'.
      - cbn [shows put set_var cells]. apply (r_alone _ _ _ _ _ _ _ R').
      - exact D'. }
    pose proof (g_fill _ h i _ _ x Fl' (len_of _ _ _ E)) as G. rewrite put_put in G. exact G.
  Qed.
  Lemma g_into_null (s : st) (h : holding) i v o x : ok s h -> nth_error (held h) i = Some (Some None) -> var s i = Ok o ->
    ok (put (fst (fresh s v)) i (Own (Some (snd (fresh s v))) x)) (change h i (Some (Some v))).
  Proof.
    intros K E Eo. pose proof (s_new s h v K) as Fl. exact (s_give _ _ i _ _ x Fl E).
  Qed.
End InFlight.

Section CopiableProofs.
  Context {V : Type}.
  Notation st := (st V unit).
  Notation holding := (holding V).
  Lemma cu_reset_ok (s : st) (h : holding) i ov : ok s h -> nth_error (held h) i = Some (Some ov) ->
    exists s', cu_reset s i = Ok s' /\ ok s' (change h i (Some None)).
  Proof.
    intros K E. destruct (s_var _ _ _ _ K E) as (o & Eo & _). unfold cu_reset. rewrite Eo. cbn [bind].
    destruct (g_drop s h i ov o tt tt K E Eo) as (s' & Es & K' & _). eauto.
  Qed.
  Lemma cu_swap_ok (s : st) (h : holding) i j ov ow : ok s h -> nth_error (held h) i = Some (Some ov) ->
    nth_error (held h) j = Some (Some ow) ->
    exists s', cu_swap s i j = Ok s' /\ ok s' (change (change h i (Some ow)) j (Some ov)).
  Proof.
    intros K Ei Ej. destruct (s_var _ _ _ _ K Ei) as (o & Eo & _). destruct (s_var _ _ _ _ K Ej) as (o' & Eo' & _).
    unfold cu_swap. rewrite Eo, Eo'. cbn [bind].
    assert (W : exists w, var (put s j o) i = Ok w).
    { destruct (Nat.eq_dec i j) as [->|N]; [erewrite var_put by exact Eo; eauto|rewrite var_put_ne by exact N; eauto]. }
    destruct W as (w & W). rewrite W. cbn [bind]. eexists. split; [reflexivity|].
    eapply (s_swap s h i j ov ow o o'); eauto. rewrite !ptrs_put.
    destruct (Nat.eq_dec i j) as [->|N]; [|apply o_upd_comm; lia].
    rewrite !o_upd_upd. rewrite Eo in Eo'. now injection Eo' as ->.
  Qed.
  Lemma cu_step_ok (s : st) (h : holding) o : ok s h -> copiable_ops h o = true ->
    exists s', cu_step s o = Ok s' /\ ok s' (effect true h o).
  Proof.
    intros K H. unfold copiable_ops in H. rewrite !andb_true_iff in H. destruct H as ((P & C) & A).
    destruct o as [v| |k|i|i j|i|i j|i j|i|i v|i|i v|i v|i]; cbn [proper is_reset_to is_assign negb] in P, C, A; try discriminate;
      cbn [cu_step].
    - eexists. split; [unfold fresh; reflexivity|]. exact (g_fresh_add s h v tt K).
    - eexists. split; [reflexivity|]. exact (g_add_null s h tt K).
    - destruct (g_adopt s h k tt K P) as (s' & a & E & _ & K'). rewrite E. cbn [bind]. eexists. split; [reflexivity|exact K'].
    - lv P. destruct (s_var _ _ _ _ K Ei) as (o & Eo & _). unfold cu_move, cu_release. rewrite Eo. cbn [bind].
      eexists. split; [reflexivity|]. exact (g_move s h i ov o _ _ K Ei Eo).
    - rewrite andb_true_iff in P. destruct P as (P1 & P2). cbn [effect].
      destruct (lives_ex _ _ P1) as (ov & Ei). destruct (lives_ex _ _ P2) as (ow & Ej).
      destruct (cu_swap_ok s h i j ov ow K Ei Ej) as (s' & E & K'). exists s'. split; [exact E|].
      destruct (Nat.eqb_spec i j) as [->|N].
      + rewrite Ei in Ej. injection Ej as ->. rewrite change_change, change_id in K' by exact Ei. exact K'.
      + rewrite (at_var_eq _ _ _ Ei), (at_var_eq _ _ _ Ej). exact K'.
    - lv P. destruct (s_var _ _ _ _ K Ei) as (o & Eo & Sh). unfold cu_copy. rewrite Eo. cbn [bind effect]. rewrite (at_var_eq _ _ _ Ei).
      destruct ov as [v|].
      + destruct (s_full _ _ _ _ _ K Ei Eo) as (a & Ea). pose proof (s_val _ _ _ _ _ K Ei Eo) as Ev. rewrite Ev, Ea.
        cbn [bind]. eexists. split; [unfold fresh; reflexivity|]. exact (g_fresh_add s h v tt K).
      + rewrite (s_null _ _ _ _ K Ei Eo). eexists. split; [reflexivity|]. exact (g_add_null s h tt K).
    - rewrite andb_true_iff in P. destruct P as (P1 & P2). unfold cu_copy_assign. cbn [effect].
      destruct (lives_ex _ _ P1) as (ov & Ei). destruct (lives_ex _ _ P2) as (ow & Ej). rewrite (at_var_eq _ _ _ Ej).
      destruct (Nat.eqb_spec i j) as [->|N].
      + rewrite change_id by exact Ej. eauto.
      + destruct (s_var _ _ _ _ K Ej) as (o' & Eo' & _). rewrite Eo'. cbn [bind].
        destruct ow as [w|].
        * destruct (s_full _ _ _ _ _ K Ej Eo') as (b & Eb). pose proof (s_val _ _ _ _ _ K Ej Eo') as Ew. rewrite Ew, Eb.
          destruct (s_var _ _ _ _ K Ei) as (o & Eo & _). rewrite Eo. cbn [bind]. destruct ov as [v|].
          -- destruct (s_full _ _ _ _ _ K Ei Eo) as (a & Ea). destruct (s_store s h i v o w K Ei Eo) as (s' & Es & K' & _).
             rewrite Ea in *. eauto.
          -- rewrite (s_null _ _ _ _ K Ei Eo). eexists. split; [unfold fresh; reflexivity|].
             exact (g_into_null s h i w o tt K Ei Eo).
        * rewrite (s_null _ _ _ _ K Ej Eo'). exact (cu_reset_ok s h i ov K Ei).
    - rewrite andb_true_iff in P. destruct P as (P1 & P2). cbn [effect].
      destruct (lives_ex _ _ P1) as (ov & Ei). destruct (lives_ex _ _ P2) as (ow & Ej).
      rewrite (at_var_eq _ _ _ Ei), (at_var_eq _ _ _ Ej). exact (cu_swap_ok s h i j ov ow K Ei Ej).
    - lv P. exact (cu_reset_ok s h i ov K Ei).
    - lv P. destruct (s_var _ _ _ _ K Ei) as (o & Eo & _). unfold cu_release. rewrite Eo. cbn [bind].
      eexists. split; [reflexivity|]. exact (g_release s h i ov o _ K Ei Eo).
    - destruct (s_write s h i v K P) as (s' & E & K' & _). eauto.
    - lv P. unfold cu_destroy. destruct (cu_reset_ok s h i ov K Ei) as (s1 & E1 & K1). rewrite E1. cbn [bind].
      eexists. split; [reflexivity|]. cbn [effect]. apply g_end; [exact K1|eapply len_of; exact Ei].
  Qed.
  Lemma cu_histories : owns_properly (V := V) cu_step true copiable_ops.
  Proof. apply histories. intros s h o. apply cu_step_ok. Qed.

  (** std::unique_ptr. *)
  Lemma su_reset_ok (s : st) (h : holding) i ov : ok s h -> nth_error (held h) i = Some (Some ov) ->
    exists s', su_reset s i = Ok s' /\ ok s' (change h i (Some None)).
  Proof. exact (cu_reset_ok s h i ov). Qed.
  Lemma su_destroy_ok (s : st) (h : holding) i : ok s h -> lives h i = true ->
    exists s', su_destroy s i = Ok s' /\ ok s' (effect false h (Destroy i)).
  Proof.
    intros K P. lv P. unfold su_destroy. destruct (su_reset_ok s h i ov K Ei) as (s1 & E1 & K1). rewrite E1. cbn [bind].
    eexists. split; [reflexivity|]. cbn [effect]. apply g_end; [exact K1|eapply len_of; exact Ei].
  Qed.
  Lemma own_unit (o : own unit) : o = Own (ptr o) tt.
  Proof. destruct o as [p []]. reflexivity. Qed.
  Lemma su_move_ok (s : st) (h : holding) i : ok s h -> lives h i = true ->
    exists s', su_move s i = Ok s' /\ ok s' (effect false h (MoveNew i)).
  Proof.
    intros K P. lv P. destruct (s_var _ _ _ _ K Ei) as (o & Eo & _). unfold su_move. rewrite Eo. cbn [bind].
    eexists. split; [reflexivity|]. pose proof (g_move s h i ov o tt tt K Ei Eo) as G. rewrite <- own_unit in G. exact G.
  Qed.
  Lemma su_swap_ok (s : st) (h : holding) i j : ok s h -> lives h i = true -> lives h j = true ->
    exists s', su_swap s i j = Ok s' /\ ok s' (effect false h (SwapWith i j)).
  Proof.
    intros K P1 P2. destruct (lives_ex _ _ P1) as (ov & Ei). destruct (lives_ex _ _ P2) as (ow & Ej).
    destruct (s_var _ _ _ _ K Ei) as (o & Eo & _). destruct (s_var _ _ _ _ K Ej) as (o' & Eo' & _).
    unfold su_swap. rewrite Eo, Eo'. cbn [bind effect]. rewrite (at_var_eq _ _ _ Ei), (at_var_eq _ _ _ Ej).
    eexists. split; [reflexivity|]. eapply (s_swap s h i j ov ow o o'); eauto. rewrite !ptrs_put. reflexivity.
  Qed.
  Lemma su_move_assign_ok (s : st) (h : holding) i j : ok s h -> lives h i = true -> lives h j = true ->
    exists s', su_move_assign s i j = Ok s' /\ ok s' (effect false h (MoveTo i j)).
  Proof.
    intros K P1 P2. destruct (lives_ex _ _ P1) as (ov & Ei). destruct (lives_ex _ _ P2) as (ow & Ej).
    destruct (s_var _ _ _ _ K Ei) as (o & Eo & _). destruct (s_var _ _ _ _ K Ej) as (o' & Eo' & _).
    unfold su_move_assign. rewrite Eo'. cbn [bind effect]. destruct (Nat.eqb_spec i j) as [->|N].
    - erewrite var_put by exact Eo'. cbn [bind own_of ptr del]. rewrite put_put, put_same by exact Eo'. eauto.
    - rewrite var_put_ne by exact N. rewrite Eo. cbn [bind]. rewrite (at_var_eq _ _ _ Ej).
      (* the same as emptying i first *)
      pose proof (s_take s h j ow o' tt K Ej Eo') as Fl.
      assert (Ei' : nth_error (held (change h j (Some None))) i = Some (Some ov)) by (rewrite held_other by exact N; exact Ei).
      destruct o' as [[a|] []], ow as [w|]; cbn [ptr] in *.
      + destruct (g_replace _ _ i ov o a w tt tt Fl Ei') as (s0 & E0 & K0 & V0).
        { rewrite var_put_ne by exact N. exact Eo. }
        change (own_of None) with (Own (A := unit) None tt). rewrite del_put, E0. cbn [bind]. eexists. split; [reflexivity|].
        rewrite (change_comm h j i) in K0 by lia. exact K0.
      + destruct Fl as (_ & Sh & _). destruct Sh.
      + destruct Fl as (_ & Sh & _). destruct Sh.
      + apply fly_ok in Fl.
        destruct (g_drop _ _ i ov o tt tt Fl Ei') as (s' & Es & K' & _).
        { rewrite var_put_ne by exact N. exact Eo. }
        change (own_of None) with (Own (A := unit) None tt). eexists. split; [exact Es|].
        rewrite (change_comm h j i) in K' by lia. exact K'.
  Qed.
  Lemma vp_copy_ok (s : st) (h : holding) i : ok s h -> full h i = true ->
    exists s', vp_copy s i = Ok s' /\ ok s' (effect false h (CopyNew i)).
  Proof.
    intros K P. destruct (full_ex _ _ P) as (v & Ei). destruct (s_var _ _ _ _ K Ei) as (o & Eo & _).
    unfold vp_copy. rewrite Eo. cbn [bind effect]. rewrite (s_val _ _ _ _ _ K Ei Eo), (at_var_eq _ _ _ Ei). cbn [bind].
    eexists. split; [unfold fresh; reflexivity|]. exact (g_fresh_add s h v tt K).
  Qed.
  Lemma vp_step_ok (s : st) (h : holding) o : ok s h -> value_ops h o = true ->
    exists s', vp_step s o = Ok s' /\ ok s' (effect false h o).
  Proof.
    intros K H. unfold value_ops in H. rewrite !andb_true_iff in H. destruct H as (P & C).
    destruct o as [v| |k|i|i j|i|i j|i j|i|i v|i|i v|i v|i]; cbn [proper] in P, C; try discriminate; cbn [vp_step].
    - eexists. split; [unfold fresh; reflexivity|]. exact (g_fresh_add s h v tt K).
    - eexists. split; [reflexivity|]. exact (g_add_null s h tt K).
    - exact (su_move_ok s h i K P).
    - rewrite andb_true_iff in P. destruct P as (P1 & P2). unfold vp_move_assign.
      destruct (Nat.eqb_spec i j) as [->|N].
      + cbn [effect]. rewrite Nat.eqb_refl. eauto.
      + exact (su_move_assign_ok s h i j K P1 P2).
    - exact (vp_copy_ok s h i K C).
    - rewrite andb_true_iff in P. destruct P as (P1 & P2). exact (su_swap_ok s h i j K P1 P2).
    - lv P. exact (su_reset_ok s h i ov K Ei).
    - destruct (s_write s h i v K P) as (s' & E & K' & _). eauto.
    - lv P. destruct (s_var _ _ _ _ K Ei) as (o & Eo & _). unfold vp_assign. rewrite Eo. cbn [bind effect].
      destruct ov as [w|].
      + destruct (s_full _ _ _ _ _ K Ei Eo) as (a & Ea). destruct (s_store s h i w o v K Ei Eo) as (s' & Es & K' & _).
        rewrite Ea in *. eauto.
      + rewrite (s_null _ _ _ _ K Ei Eo). eexists. split; [unfold fresh; reflexivity|].
        exact (g_into_null s h i v o tt K Ei Eo).
    - exact (su_destroy_ok s h i K P).
  Qed.
  Lemma vp_histories : owns_properly (V := V) vp_step false value_ops.
  Proof. apply histories. intros s h o. apply vp_step_ok. Qed.

  Lemma hv_step_ok (s : st) (h : holding) o : ok s h -> heap_ops h o = true ->
    exists s', hv_step s o = Ok s' /\ ok s' (effect false h o).
  Proof.
    intros K H. unfold heap_ops in H. rewrite !andb_true_iff in H. destruct H as (P & C).
    destruct o as [v| |k|i|i j|i|i j|i j|i|i v|i|i v|i v|i]; cbn [proper] in P, C; try discriminate; cbn [hv_step].
    - eexists. split; [unfold fresh; reflexivity|]. exact (g_fresh_add s h v tt K).
    - exact (su_move_ok s h i K P).
    - rewrite andb_true_iff in P. destruct P as (P1 & P2). exact (su_move_assign_ok s h i j K P1 P2).
    - exact (vp_copy_ok s h i K C).
    - rewrite andb_true_iff in C. destruct C as (C1 & C2). unfold hv_copy_assign. cbn [effect].
      destruct (full_ex _ _ C1) as (v & Ei). destruct (full_ex _ _ C2) as (w & Ej). rewrite (at_var_eq _ _ _ Ej).
      destruct (Nat.eqb_spec i j) as [->|N].
      + rewrite change_id by exact Ej. eauto.
      + destruct (s_var _ _ _ _ K Ej) as (o' & Eo' & _). rewrite Eo'. cbn [bind]. rewrite (s_val _ _ _ _ _ K Ej Eo'). cbn [bind].
        destruct (s_var _ _ _ _ K Ei) as (o & Eo & _). rewrite Eo. cbn [bind].
        destruct (s_store s h i v o w K Ei Eo) as (s' & Es & K' & _). eauto.
    - rewrite andb_true_iff in P. destruct P as (P1 & P2). exact (su_swap_ok s h i j K P1 P2).
    - destruct (s_write s h i v K P) as (s' & E & K' & _). eauto.
    - exact (su_destroy_ok s h i K P).
  Qed.
  Lemma hv_histories : owns_properly (V := V) hv_step false heap_ops.
  Proof. apply histories. intros s h o. apply hv_step_ok. Qed.

  (** unique_resource. *)
  Lemma ur_step_ok (s : st) (h : holding) o : ok s h -> resource_ops h o = true ->
    exists s', ur_step s o = Ok s' /\ ok s' (effect false h o).
  Proof.
    intros K H. unfold resource_ops in H. rewrite !andb_true_iff in H. destruct H as (P & C).
    destruct o as [v| |k|i|i j|i|i j|i j|i|i v|i|i v|i v|i]; cbn [proper] in P, C; try discriminate; cbn [ur_step].
    - eexists. split; [unfold fresh; reflexivity|]. exact (g_fresh_add s h v tt K).
    - eexists. split; [reflexivity|]. exact (g_add_null s h tt K).
    - destruct (g_adopt s h k tt K P) as (s' & a & E & _ & K'). rewrite E. cbn [bind]. eexists. split; [reflexivity|exact K'].
    - exact (su_move_ok s h i K P).
    - rewrite andb_true_iff in P. destruct P as (P1 & P2). unfold ur_move_assign, ur_release. cbn [effect].
      destruct (lives_ex _ _ P1) as (ov & Ei). destruct (full_ex _ _ C) as (w & Ej).
      destruct (s_var _ _ _ _ K Ej) as (o' & Eo' & _). rewrite Eo'. cbn [bind].
      destruct (s_full _ _ _ _ _ K Ej Eo') as (b & Eb). rewrite Eb. cbn [bind].
      pose proof (s_take s h j _ o' tt K Ej Eo') as Fl. rewrite Eb in Fl. unfold ur_reset_to. rewrite (at_var_eq _ _ _ Ej).
      destruct (Nat.eqb_spec i j) as [->|N].
      + erewrite var_put by exact Eo'. cbn [bind own_of ptr del].
        eexists. split; [reflexivity|]. pose proof (g_fill _ h j _ _ tt Fl (len_of _ _ _ Ej)) as G.
        rewrite change_id in G by exact Ej. exact G.
      + destruct (s_var _ _ _ _ K Ei) as (o & Eo & _). rewrite var_put_ne by exact N. rewrite Eo. cbn [bind].
        assert (Ei' : nth_error (held (change h j (Some None))) i = Some (Some ov)) by (rewrite held_other by exact N; exact Ei).
        destruct (g_replace _ _ i ov o b w tt tt Fl Ei') as (s0 & E0 & K0 & V0).
        { rewrite var_put_ne by exact N. exact Eo. }
        change (own_of None) with (Own (A := unit) None tt). rewrite E0. cbn [bind]. eexists. split; [reflexivity|].
        rewrite (change_comm h j i) in K0 by lia. exact K0.
    - lv P. unfold full in C. rewrite Ei in C. destruct ov as [v|]; [discriminate|].
      destruct (s_var _ _ _ _ K Ei) as (o & Eo & _). unfold ur_reset. rewrite Eo. cbn [bind effect].
      rewrite (s_null _ _ _ _ K Ei Eo). cbn [del]. rewrite change_id by exact Ei. eauto.
    - lv P. unfold fresh, ur_reset_to. set (s0 := St _ _ _ _). pose proof (s_new s h v K) as Fl. change (fst (fresh s v)) with s0 in Fl.
      change (snd (fresh s v)) with (length (cells s)) in Fl. destruct (s_var _ _ _ _ K Ei) as (o & Eo & _).
      assert (Eo0 : var s0 i = Ok o) by exact Eo. rewrite Eo0. cbn [bind].
      destruct (g_replace s0 h i ov o _ v tt tt Fl Ei Eo0) as (s1 & E1 & K1 & V1). rewrite E1. cbn [bind].
      eexists. split; [reflexivity|exact K1].
    - destruct (full_ex _ _ C) as (v & Ei). destruct (s_var _ _ _ _ K Ei) as (o & Eo & _). unfold ur_release. rewrite Eo. cbn [bind].
      destruct (s_full _ _ _ _ _ K Ei Eo) as (a & Ea). rewrite Ea. cbn [bind]. eexists. split; [reflexivity|].
      pose proof (g_release s h i _ o tt K Ei Eo) as G. rewrite Ea in G. exact G.
    - destruct (s_write s h i v K P) as (s' & E & K' & _). eauto.
    - lv P. unfold ur_destroy, ur_reset. destruct (s_var _ _ _ _ K Ei) as (o & Eo & _). rewrite Eo. cbn [bind].
      destruct (g_drop s h i ov o tt tt K Ei Eo) as (s' & Es & K' & _). rewrite del_put in Es.
      destruct (del s tt (ptr o)) as [s0| | |]; try discriminate. cbn [bind] in *. injection Es as <-.
      eexists. split; [reflexivity|]. cbn [effect].
      pose proof (g_end _ h i K' (len_of _ _ _ Ei)) as G. unfold put, set_var in G. cbn [cells log vars loose] in G.
      rewrite o_upd_upd in G. exact G.
  Qed.
  Lemma ur_histories : owns_properly (V := V) ur_step false resource_ops.
  Proof. apply histories. intros s h o. apply ur_step_ok. Qed.
End CopiableProofs.

Section WithInvariant.
  Context {V A : Type}.
  Notation st := (st V A).
  Notation holding := (holding V).
  Lemma histories_inv (step : st -> oop V -> res st) sw allowed (Q : st -> holding -> Prop) : Q start at_first ->
    (forall s h o, ok s h -> Q s h -> allowed h o = true -> exists s', step s o = Ok s' /\ ok s' (effect sw h o) /\ Q s' (effect sw h o)) ->
    forall os h, effects sw allowed os at_first = Some h ->
    exists s, run step os start = Ok s /\ represents s h /\ deleted_once s /\ Q s h.
  Proof.
    intros Q0 H os.
    assert (G : forall s h h', ok s h -> Q s h -> effects sw allowed os h = Some h' ->
      exists s', run step os s = Ok s' /\ represents s' h' /\ deleted_once s' /\ Q s' h').
    { induction os as [|o os IH]; intros s h h' K Qs E; cbn [effects run] in *.
      - injection E as <-. exists s. split; [reflexivity|]. destruct K. auto.
      - destruct (allowed h o) eqn:Ea; [|discriminate]. destruct (H s h o K Qs Ea) as (s1 & E1 & K1 & Q1). rewrite E1. cbn [bind].
        exact (IH _ _ _ K1 Q1 E). }
    intros h' E. apply (G start at_first h'); [|exact Q0|exact E].
    repeat split; cbn; try constructor; try contradiction.
    - intros a. unfold owners, exists_at. cbn. now destruct a.
    - destruct a; discriminate.
  Qed.
End WithInvariant.

Section MaybeProofs.
  Context {V : Type}.
  Notation st := (st V bool).
  Notation holding := (holding V).
  Definition all_owned (s : st) : Prop := Forall (fun x => match x with Some o => aux o = true | None => True end) (vars s).
  Lemma owned_var (s : st) i o : all_owned s -> var s i = Ok o -> aux o = true.
  Proof.
    intros H E. unfold var in E. destruct (nth_error (vars s) i) as [[p|]|] eqn:En; try discriminate. injection E as ->.
    apply (proj1 (Forall_forall _ _) H (Some o)). eapply nth_error_In; exact En.
  Qed.
  Lemma o_Forall_upd {X} (P : X -> Prop) l : Forall P l -> forall i x, P x -> Forall P (upd l i x).
  Proof. induction 1; intros [|i] y Py; cbn; constructor; auto. Qed.
  Lemma owned_upd (s s' : st) i x : all_owned s -> vars s' = upd (vars s) i x -> match x with Some o => aux o = true | None => True end -> all_owned s'.
  Proof. intros H E X. unfold all_owned. rewrite E. now apply o_Forall_upd. Qed.
  Lemma owned_add (s s' : st) p : all_owned s -> vars s' = vars s ++ [Some p] -> aux p = true -> all_owned s'.
  Proof. intros H E X. unfold all_owned. rewrite E. apply Forall_app. split; [exact H|]. constructor; [exact X|constructor]. Qed.
  Lemma owned_same (s s' : st) : all_owned s -> vars s' = vars s -> all_owned s'.
  Proof. intros H E. unfold all_owned. now rewrite E. Qed.
  Lemma own_true (o : own bool) : aux o = true -> o = Own (ptr o) true.
  Proof. destruct o as [p b]. cbn. now intros ->. Qed.
  Lemma mu_reset_ok (s : st) (h : holding) i ov : ok s h -> all_owned s -> nth_error (held h) i = Some (Some ov) ->
    exists s', mu_reset s i = Ok s' /\ ok s' (change h i (Some None)) /\ all_owned s' /\
      vars s' = upd (vars s) i (Some (Own None true)) /\ var s' i = Ok (Own None true).
  Proof.
    intros K Al E. destruct (s_var _ _ _ _ K E) as (o & Eo & _). unfold mu_reset, mu_ptr_reset. rewrite Eo. cbn [bind].
    rewrite (owned_var _ _ _ Al Eo).
    destruct (g_drop s h i ov o true true K E Eo) as (s' & Es & K' & Ev & _). exists s'.
    split; [exact Es|]. split; [exact K'|]. split; [eapply owned_upd; [exact Al|exact Ev|reflexivity]|]. split; [exact Ev|].
    eapply var_upd; [exact Ev|exact Eo].
  Qed.
  Lemma mu_release_ok (s : st) i o : var s i = Ok o -> aux o = true ->
    mu_release s i = Ok (ptr o, put s i (Own None true)).
  Proof.
    intros Eo Ao. unfold mu_release, mu_set_owned, mu_ptr_release. rewrite Eo. cbn [bind].
    erewrite var_put by exact Eo. cbn [bind ptr aux]. now rewrite put_put.
  Qed.
  Lemma mu_take_ok (s : st) i p : var s i = Ok (Own p true) -> mu_take_owned s i = Ok (true, s).
  Proof.
    intros Eo. unfold mu_take_owned, mu_set_owned. rewrite Eo. cbn [bind ptr aux]. now rewrite put_same.
  Qed.
  Lemma mu_step_ok (s : st) (h : holding) o : ok s h -> all_owned s -> maybe_ops h o = true ->
    exists s', mu_step s o = Ok s' /\ ok s' (effect false h o) /\ all_owned s'.
  Proof.
    intros K Al H. unfold maybe_ops, unique_ops in H. rewrite !andb_true_iff in H. destruct H as (((P & C) & B) & A).
    destruct o as [v| |k|i|i j|i|i j|i j|i|i v|i|i v|i v|i]; cbn [proper is_copy is_assign is_reset_to negb] in P, C, A, B; try discriminate;
      cbn [mu_step].
    - eexists. split; [unfold fresh; reflexivity|]. split; [exact (g_fresh_add s h v true K)|].
      eapply owned_add; [exact Al|reflexivity|reflexivity].
    - eexists. split; [reflexivity|]. split; [exact (g_add_null s h true K)|]. eapply owned_add; [exact Al|reflexivity|reflexivity].
    - destruct (g_adopt s h k true K P) as (s' & a & E & Ev & K'). rewrite E. cbn [bind]. eexists. split; [reflexivity|]. split; [exact K'|].
      apply (owned_add s _ (Own (Some a) true)); [exact Al| |reflexivity]. cbn [add mu_add vars]. now rewrite Ev.
    - lv P. destruct (s_var _ _ _ _ K Ei) as (o & Eo & _). pose proof (owned_var _ _ _ Al Eo) as Ao.
      unfold mu_move. rewrite (mu_release_ok s i o Eo Ao). cbn [bind].
      rewrite (mu_take_ok (put s i (Own None true)) i None) by (eapply var_put; exact Eo). cbn [bind].
      eexists. split; [reflexivity|]. split; [exact (g_move s h i ov o true true K Ei Eo)|].
      eapply owned_add; [|reflexivity|reflexivity]. eapply owned_upd; [exact Al|reflexivity|reflexivity].
    - rewrite andb_true_iff in P. destruct P as (P1 & P2). unfold mu_move_assign. cbn [effect].
      destruct (Nat.eqb_spec i j) as [->|N]; [eauto|].
      destruct (lives_ex _ _ P1) as (ov & Ei). destruct (lives_ex _ _ P2) as (ow & Ej).
      destruct (mu_reset_ok s h i ov K Al Ei) as (s1 & E1 & K1 & Al1 & V1 & W1). rewrite E1. cbn [bind].
      assert (Ej1 : nth_error (held (change h i (Some None))) j = Some (Some ow)) by (rewrite held_other by lia; exact Ej).
      destruct (s_var _ _ _ _ K1 Ej1) as (o & Eo & _). pose proof (owned_var _ _ _ Al1 Eo) as Ao.
      rewrite (mu_release_ok s1 j o Eo Ao). cbn [bind]. unfold mu_ptr_reset_to, mu_ptr_reset, mu_ptr_set.
      assert (W2 : var (put s1 j (Own None true)) i = Ok (Own None true)) by (rewrite var_put_ne by exact N; exact W1).
      rewrite W2. cbn [bind ptr aux del]. rewrite (put_same _ i _ W2). rewrite W2. cbn [bind aux].
      set (s2 := put (put s1 j _) i _).
      assert (W3 : var s2 j = Ok (Own None true)).
      { unfold s2. rewrite var_put_ne by lia. eapply var_put; exact Eo. }
      rewrite (mu_take_ok s2 j None W3). cbn [bind]. unfold mu_set_owned.
      assert (W4 : var s2 i = Ok (Own (ptr o) true)) by (unfold s2; eapply var_put; exact W2).
      rewrite W4. cbn [bind ptr]. rewrite (put_same _ i _ W4). exists s2. split; [reflexivity|]. split.
      + pose proof (s_take s1 _ j ow o true K1 Ej1 Eo) as Fl. rewrite (at_var_eq _ _ _ Ej).
        rewrite (change_comm h i j) in Fl by exact N.
        pose proof (g_fill _ (change h j (Some None)) i _ _ true Fl) as G.
        rewrite (change_comm h j i) in G by lia. apply G. unfold change. cbn [held]. rewrite upd_length. eapply len_of; exact Ei.
      + unfold s2. eapply owned_upd; [|reflexivity|reflexivity]. eapply owned_upd; [exact Al1|reflexivity|reflexivity].
    - rewrite andb_true_iff in P. destruct P as (P1 & P2).
      destruct (lives_ex _ _ P1) as (ov & Ei). destruct (lives_ex _ _ P2) as (ow & Ej).
      destruct (s_var _ _ _ _ K Ei) as (o & Eo & _). destruct (s_var _ _ _ _ K Ej) as (o' & Eo' & _).
      unfold mu_swap. rewrite Eo, Eo'. cbn [bind effect]. rewrite (at_var_eq _ _ _ Ei), (at_var_eq _ _ _ Ej).
      eexists. split; [reflexivity|]. split.
      + eapply (s_swap s h i j ov ow o o'); eauto. rewrite !ptrs_put. reflexivity.
      + eapply owned_upd; [|reflexivity|exact (owned_var _ _ _ Al Eo)]. eapply owned_upd; [exact Al|reflexivity|exact (owned_var _ _ _ Al Eo')].
    - lv P. destruct (mu_reset_ok s h i ov K Al Ei) as (s1 & E1 & K1 & A1 & _). eauto.
    - lv P. destruct (s_var _ _ _ _ K Ei) as (o & Eo & _). pose proof (owned_var _ _ _ Al Eo) as Ao.
      rewrite (mu_release_ok s i o Eo Ao). cbn [bind].
      eexists. split; [reflexivity|]. split; [exact (g_release s h i ov o true K Ei Eo)|].
      apply (owned_same (put s i (Own None true))); [|destruct (ptr o); reflexivity]. eapply owned_upd; [exact Al|reflexivity|reflexivity].
    - destruct (s_write s h i v K P) as (s' & E & K' & Ev). exists s'. split; [exact E|]. split; [exact K'|]. now apply (owned_same s).
    - lv P. unfold mu_destroy. destruct (mu_reset_ok s h i ov K Al Ei) as (s1 & E1 & K1 & A1 & _). rewrite E1. cbn [bind].
      eexists. split; [reflexivity|]. split; [cbn [effect]; apply g_end; [exact K1|eapply len_of; exact Ei]|].
      eapply owned_upd; [exact A1|reflexivity|exact I].
  Qed.
  Lemma mu_histories : owns_properly (V := V) mu_step false maybe_ops.
  Proof.
    intros os h E. destruct (histories_inv mu_step false maybe_ops (fun s _ => all_owned s)) with (os := os) (h := h) as (s & Es & R & D & _).
    - constructor.
    - intros s h' o K Al A. exact (mu_step_ok s h' o K Al A).
    - exact E.
    - eauto.
  Qed.
  (** A pointer that is not owned. *)
  Lemma nth_last {X} (l : list X) x : nth_error (l ++ [x]) (length l) = Some x.
  Proof. rewrite nth_error_app2, Nat.sub_diag by lia. reflexivity. Qed.
  Lemma mu_borrow_end (s : st) k a : nth_error (loose s) k = Some a ->
    exists s1 s2, mu_borrow s k = Ok s1 /\ mu_destroy s1 (length (vars s)) = Ok s2 /\
      cells s2 = cells s /\ log s2 = log s /\ loose s2 = loose s.
  Proof.
    intros E. unfold mu_borrow. rewrite (rd_some _ _ _ E). cbn [bind]. eexists. unfold mu_destroy, mu_reset.
    assert (W : var (mu_add s (Some a) false) (length (vars s)) = Ok (Own (Some a) false)).
    { unfold var, mu_add, add. cbn [vars]. now rewrite nth_last. }
    rewrite W. cbn [bind aux]. unfold mu_ptr_release, mu_set_owned. rewrite W. cbn [bind aux ptr].
    erewrite var_put by exact W. cbn [bind]. eexists. split; [reflexivity|]. split; [reflexivity|]. auto.
  Qed.
  Lemma mu_borrow_moved (s : st) k a v : nth_error (loose s) k = Some a -> nth_error (cells s) a = Some (Some v) ->
    exists s1 s2 s3, mu_borrow s k = Ok s1 /\ mu_move s1 (length (vars s)) = Ok s2 /\
      mu_destroy s2 (S (length (vars s))) = Ok s3 /\ loose s3 = loose s /\ nth_error (cells s3) a = Some None.
  Proof.
    intros E Ec. unfold mu_borrow. rewrite (rd_some _ _ _ E). cbn [bind]. set (n := length (vars s)).
    assert (W : var (mu_add s (Some a) false) n = Ok (Own (Some a) false)).
    { unfold var, mu_add, add. cbn [vars]. unfold n. now rewrite nth_last. }
    eexists. unfold mu_move, mu_release, mu_set_owned, mu_ptr_release. rewrite W. cbn [bind ptr].
    erewrite var_put by exact W. cbn [bind ptr aux]. rewrite put_put.
    rewrite (mu_take_ok (put _ n (Own None true)) n None) by (eapply var_put; exact W). cbn [bind].
    set (s2 := mu_add (put _ n _) _ _). exists s2.
    assert (W2 : var s2 (S n) = Ok (Own (Some a) true)).
    { unfold s2, var, mu_add, add, put, set_var. cbn [vars]. unfold n.
      rewrite nth_error_app2 by (rewrite upd_length, app_length; cbn; lia).
      rewrite upd_length, app_length. cbn [length].
      replace (S (length (vars s)) - (length (vars s) + 1)) with 0 by lia. reflexivity. }
    unfold mu_destroy, mu_reset, mu_ptr_reset. rewrite W2. cbn [bind aux ptr]. unfold del, val.
    replace (cells (put s2 (S n) (Own None true))) with (cells s) by reflexivity. rewrite Ec. cbn [bind].
    eexists. split; [reflexivity|]. split; [reflexivity|]. split; [reflexivity|]. split; [reflexivity|].
    cbn [cells set_var]. apply nth_error_upd_eq. eapply nth_error_some_lt; exact Ec.
  Qed.
  Lemma mu_reset_to_bad (s : st) (h : holding) i v : ok s h -> all_owned s -> lives h i = true ->
    exists s', mu_step s (ResetTo i v) = Ok s' /\
      var s' i = Ok (Own (Some (length (cells s))) true) /\ nth_error (cells s') (length (cells s)) = Some None /\
      mu_destroy s' i = UB.
  Proof.
    intros K Al P. lv P. cbn [mu_step]. unfold fresh, mu_reset_to. set (s0 := St _ _ _ _). set (n := length (cells s)).
    destruct (s_var _ _ _ _ K Ei) as (o & Eo & Sh). pose proof (owned_var _ _ _ Al Eo) as Ao.
    assert (Eo0 : var s0 i = Ok o) by exact Eo. rewrite Eo0. cbn [bind]. rewrite Ao.
    unfold mu_ptr_reset_to, mu_ptr_reset, mu_ptr_set. rewrite Eo0. cbn [bind]. rewrite Ao.
    assert (D1 : exists s1, del (put s0 i (Own None true)) true (ptr o) = Ok s1 /\ vars s1 = upd (vars s) i (Some (Own None true)) /\
      nth_error (cells s1) n = Some (Some v) /\ length (cells s1) = S n).
    { unfold del. destruct (ptr o) as [a|] eqn:Ep.
      - destruct ov as [w|]; [|destruct Sh]. cbn [shows] in Sh. assert (La : a < n) by (eapply nth_error_some_lt; exact Sh).
        unfold val. cbn [put set_var cells s0]. rewrite nth_error_app1 by exact La. rewrite Sh. cbn [bind]. eexists. split; [reflexivity|].
        cbn [vars cells put set_var s0]. split; [reflexivity|]. rewrite nth_error_upd_ne by lia. unfold n. rewrite nth_last. split; [reflexivity|].
        rewrite upd_length, app_length. cbn. lia.
      - eexists. split; [reflexivity|]. cbn [vars cells put set_var s0]. split; [reflexivity|]. unfold n. rewrite nth_last. split; [reflexivity|].
        rewrite app_length. cbn. lia. }
    destruct D1 as (s1 & E1 & V1 & C1 & L1). rewrite E1. cbn [bind].
    assert (W1 : var s1 i = Ok (Own None true)) by (eapply var_upd; [exact V1|exact Eo]). rewrite W1. cbn [bind aux].
    erewrite var_put by exact W1. cbn [bind ptr aux]. rewrite put_put. unfold del at 1, val at 1. cbn [put set_var cells].
    change (length (cells s)) with n. rewrite C1. cbn [bind]. set (s2 := St (upd (cells s1) n None) _ _ _).
    assert (W2 : var s2 i = Ok (Own None true)).
    { unfold s2, var. cbn [vars put set_var]. rewrite nth_error_upd_eq; [reflexivity|].
      unfold var in W1. destruct (nth_error (vars s1) i) eqn:En; [|discriminate]. eapply nth_error_some_lt; exact En. }
    rewrite W2. cbn [bind aux]. unfold mu_set_owned. erewrite var_put by exact W2. cbn [bind ptr]. rewrite put_put.
    eexists. split; [reflexivity|]. split; [eapply var_put; exact W2|].
    assert (Cn : nth_error (upd (cells s1) n None) n = Some None) by (apply nth_error_upd_eq; lia).
    split; [exact Cn|]. unfold mu_destroy, mu_reset, mu_ptr_reset. erewrite var_put by exact W2. cbn [bind aux].
    cbn [bind aux ptr]. unfold del, val. cbn [put set_var cells s2]. rewrite Cn. reflexivity.
  Qed.
End MaybeProofs.

Section ArrayProofs.
  Context {T : Type}.
  Notation st := (st (list T) nat).
  Notation holding := (holding (list T)).
  Lemma sized_var (s : st) (h : holding) i o ov : sized s h -> var s i = Ok o -> nth_error (held h) i = Some (Some ov) -> aux o = size_of ov.
  Proof.
    intros F E Eh. unfold var in E. destruct (nth_error (vars s) i) as [[p|]|] eqn:En; try discriminate. injection E as ->.
    destruct (o_F2_nth _ _ _ F i _ En) as (y & Ey & K). rewrite Eh in Ey. injection Ey as <-. exact K.
  Qed.
  Lemma ua_clear_ok (s : st) (h : holding) i ov : ok s h -> sized s h -> nth_error (held h) i = Some (Some ov) ->
    exists s', ua_clear s i = Ok s' /\ ok s' (change h i (Some None)) /\ sized s' (change h i (Some None)) /\
      vars s' = upd (vars s) i (Some (Own None 0)) /\ var s' i = Ok (Own None 0).
  Proof.
    intros K Z E. destruct (s_var _ _ _ _ K E) as (o & Eo & _). unfold ua_clear. rewrite Eo. cbn [bind].
    destruct (g_drop s h i ov o 0 (aux o) K E Eo) as (s' & Es & K' & Ev & _). exists s'.
    split; [exact Es|]. split; [exact K'|]. split; [|split; [exact Ev|eapply var_upd; [exact Ev|exact Eo]]].
    unfold sized. rewrite Ev. cbn [change held]. apply o_F2_upd; [exact Z|reflexivity].
  Qed.
  Lemma ua_step_ok (s : st) (h : holding) o : ok s h -> sized s h -> array_ops h o = true ->
    exists s', ua_step s o = Ok s' /\ ok s' (effect false h o) /\ sized s' (effect false h o).
  Proof.
    intros K Z H. unfold array_ops in H. rewrite !andb_true_iff in H. destruct H as (P & C).
    destruct o as [v| |k|i|i j|i|i j|i j|i|i v|i|i v|i v|i]; cbn [proper] in P, C; try discriminate; cbn [ua_step].
    - eexists. split; [unfold fresh; reflexivity|]. split; [exact (g_fresh_add s h v (length v) K)|].
      apply Forall2_app; [exact Z|]. constructor; [reflexivity|constructor].
    - eexists. split; [reflexivity|]. split; [exact (g_add_null s h 0 K)|].
      apply Forall2_app; [exact Z|]. constructor; [reflexivity|constructor].
    - lv P. destruct (s_var _ _ _ _ K Ei) as (o & Eo & _). unfold ua_move. rewrite Eo. cbn [bind].
      eexists. split; [reflexivity|]. pose proof (g_move s h i ov o 0 (aux o) K Ei Eo) as G.
      split; [destruct o as [p n]; exact G|]. cbn [effect]. rewrite (at_var_eq _ _ _ Ei).
      apply Forall2_app; [apply o_F2_upd; [exact Z|reflexivity]|]. constructor; [|constructor].
      exact (sized_var _ _ _ _ _ Z Eo Ei).
    - rewrite andb_true_iff in P. destruct P as (P1 & P2). unfold ua_move_assign. cbn [effect].
      destruct (Nat.eqb_spec i j) as [->|N]; [eauto|].
      destruct (lives_ex _ _ P1) as (ov & Ei). destruct (lives_ex _ _ P2) as (ow & Ej).
      destruct (ua_clear_ok s h i ov K Z Ei) as (s1 & E1 & K1 & Z1 & V1 & W1). rewrite E1. cbn [bind].
      assert (Ej1 : nth_error (held (change h i (Some None))) j = Some (Some ow)) by (rewrite held_other by lia; exact Ej).
      destruct (s_var _ _ _ _ K1 Ej1) as (o & Eo & _). rewrite Eo. cbn [bind]. rewrite (at_var_eq _ _ _ Ej).
      destruct ow as [w|].
      + destruct (s_full _ _ _ _ _ K1 Ej1 Eo) as (a & Ea). rewrite Ea. eexists. split; [reflexivity|].
        pose proof (s_take s1 _ j _ o 0 K1 Ej1 Eo) as Fl. rewrite (change_comm h i j) in Fl by exact N.
        pose proof (g_fill _ (change h j (Some None)) i _ _ (aux o) Fl) as G.
        rewrite (change_comm h j i) in G by lia. split.
        * destruct o as [p n]. apply G. unfold change. cbn [held]. rewrite upd_length. eapply len_of; exact Ei.
        * unfold sized. cbn [put set_var vars change held].
          replace (upd (upd (held h) i (Some (Some w))) j (Some None))
            with (upd (upd (upd (held h) i (Some None)) j (Some None)) i (Some (Some w))).
          -- apply o_F2_upd; [|exact (sized_var _ _ _ _ _ Z1 Eo Ej1)]. apply o_F2_upd; [exact Z1|reflexivity].
          -- rewrite (o_upd_comm _ j i) by lia. now rewrite o_upd_upd.
      + rewrite (s_null _ _ _ _ K1 Ej1 Eo). exists s1. split; [reflexivity|].
        replace (change (change h i (Some None)) j (Some None)) with (change h i (Some None)); [auto|].
        symmetry. apply change_id. exact Ej1.
    - destruct (full_ex _ _ P) as (w & Ei). rewrite (at_var_eq _ _ _ Ei) in C. apply Nat.eqb_eq in C.
      destruct (s_write s h i v K P) as (s' & E & K' & Ev). exists s'. split; [exact E|]. split; [exact K'|].
      unfold sized. rewrite Ev. cbn [effect change held].
      destruct (s_var _ _ _ _ K Ei) as (o & Eo & _).
      replace (vars s) with (upd (vars s) i (Some o)).
      + apply o_F2_upd; [exact Z|]. rewrite (sized_var _ _ _ _ _ Z Eo Ei). cbn. lia.
      + apply o_upd_id. unfold var in Eo. destruct (nth_error (vars s) i) as [[p|]|]; try discriminate. now injection Eo as ->.
    - lv P. unfold ua_destroy. destruct (ua_clear_ok s h i ov K Z Ei) as (s1 & E1 & K1 & Z1 & V1 & W1). rewrite E1. cbn [bind].
      eexists. split; [reflexivity|]. split; [cbn [effect]; apply g_end; [exact K1|eapply len_of; exact Ei]|].
      unfold sized. cbn [set_var vars effect change held] in *. rewrite V1, o_upd_upd. apply o_F2_upd; [exact Z|exact I].
  Qed.
  Lemma ua_histories os (h : holding) : effects false array_ops os at_first = Some h ->
    exists s, run ua_step os start = Ok s /\ represents s h /\ deleted_once s /\ sized s h.
  Proof.
    apply (histories_inv ua_step false array_ops sized).
    - constructor.
    - intros s h' o K Z A. exact (ua_step_ok s h' o K Z A).
  Qed.
  Lemma ua_views (s : st) (h : holding) i l : represents s h -> deleted_once s -> sized s h ->
    nth_error (held h) i = Some (Some (Some l)) ->
    exists o, var s i = Ok o /\ aux o = length l /\ ua_empty o = false /\
      (forall pos, ua_get s o pos = rd l pos) /\
      (forall pos, ua_at s o pos = if pos <? length l then Throw else UB) /\
      ua_front s o = rd l 0 /\ (forall x l', l = l' ++ [x] -> ua_back s o = Ok x).
  Proof.
    intros R D Z E. assert (K : ok s h) by (split; assumption). destruct (s_var _ _ _ _ K E) as (o & Eo & _). exists o.
    pose proof (sized_var _ _ _ _ _ Z Eo E) as Ez. cbn [size_of] in Ez. pose proof (s_val _ _ _ _ _ K E Eo) as Ev.
    destruct (s_full _ _ _ _ _ K E Eo) as (a & Ea).
    assert (G : forall pos, ua_get s o pos = rd l pos) by (intros pos; unfold ua_get; rewrite Ev; reflexivity).
    split; [exact Eo|]. split; [exact Ez|]. split; [unfold ua_empty; now rewrite Ea|]. split; [exact G|]. split; [|split].
    - intros pos. unfold ua_at. rewrite G, Ez. destruct (Nat.leb_spec (length l) pos) as [L|L]; cbn [negb].
      + rewrite (proj2 (Nat.ltb_ge _ _)) by exact L. unfold rd. rewrite (proj2 (nth_error_None l pos)) by exact L. reflexivity.
      + rewrite (proj2 (Nat.ltb_lt _ _)) by exact L. reflexivity.
    - apply G.
    - intros x l' El. unfold ua_back. rewrite G, Ez. subst l. rewrite app_length. cbn [length].
      rewrite (proj2 (Nat.eqb_neq _ _)) by lia. apply rd_some. rewrite Nat.add_sub. apply nth_last.
  Qed.
  Lemma ua_views_null (s : st) (h : holding) i : represents s h -> deleted_once s -> sized s h ->
    nth_error (held h) i = Some (Some None) -> exists o, var s i = Ok o /\ aux o = 0 /\ ua_empty o = true.
  Proof.
    intros R D Z E. assert (K : ok s h) by (split; assumption). destruct (s_var _ _ _ _ K E) as (o & Eo & _). exists o.
    pose proof (sized_var _ _ _ _ _ Z Eo E) as Ez. unfold ua_empty. rewrite (s_null _ _ _ _ K E Eo). auto.
  Qed.
End ArrayProofs.

Section Failures.
  Context {V : Type}.
  (** The deleter of a moved unique_ptr. *)
  Lemma up_deleter_lost (v : V) (d : nat) :
    exists s1 s2 s3 s4, up_step start (Make v) = Ok s1 /\ up_set_deleter s1 0 d = Ok s2 /\
      up_step s2 (MoveNew 0) = Ok s3 /\ up_step s3 (Destroy 1) = Ok s4 /\ log s4 = [(0, 0)].
  Proof. do 4 eexists. repeat (split; [reflexivity|]). reflexivity. Qed.
  Lemma up_deleter_swapped (v w : V) (d : nat) :
    exists s1 s2 s3 s4 s5, up_step start (Make v) = Ok s1 /\ up_set_deleter s1 0 d = Ok s2 /\
      up_step s2 (Make w) = Ok s3 /\ up_step s3 (SwapWith 0 1) = Ok s4 /\ up_step s4 (Destroy 1) = Ok s5 /\ log s5 = [(0, 0)].
  Proof. do 5 eexists. repeat (split; [reflexivity|]). reflexivity. Qed.
  Lemma up_deleter_kept (v : V) (d : nat) :
    exists s1 s2 s3, up_step start (Make v) = Ok s1 /\ up_set_deleter s1 0 d = Ok s2 /\
      up_step s2 (Destroy 0) = Ok s3 /\ log s3 = [(0, d)].
  Proof. do 3 eexists. repeat (split; [reflexivity|]). reflexivity. Qed.
  Lemma vp_copy_null (s : st V unit) h i : represents s h -> deleted_once s -> nth_error (held h) i = Some (Some None) ->
    vp_step s (CopyNew i) = UB.
  Proof.
    intros R D E. assert (K : ok s h) by (split; assumption). destruct (s_var _ _ _ _ K E) as (o & Eo & _).
    cbn [vp_step]. unfold vp_copy. rewrite Eo. cbn [bind]. rewrite (s_null _ _ _ _ K E Eo). reflexivity.
  Qed.
  Lemma vp_rvalue (s : st V unit) h i v : represents s h -> deleted_once s ->
    (nth_error (held h) i = Some (Some None) -> vp_assign_rvalue s i v = UB) /\
    (full h i = true -> exists s', vp_assign_rvalue s i v = Ok s' /\ represents s' (change h i (Some (Some v))) /\ deleted_once s').
  Proof.
    intros R D. assert (K : ok s h) by (split; assumption). split.
    - intros E. destruct (s_var _ _ _ _ K E) as (o & Eo & _).
      unfold vp_assign_rvalue. rewrite Eo. cbn [bind]. rewrite (s_null _ _ _ _ K E Eo). reflexivity.
    - intros F. destruct (s_write s h i v K F) as (s' & E & (R' & D') & _). exists s'. auto.
  Qed.
  Lemma hv_null (s : st V unit) h i j : represents s h -> deleted_once s -> nth_error (held h) i = Some (Some None) ->
    hv_step s (CopyNew i) = UB /\
    (lives h j = true -> j <> i -> hv_step s (CopyTo i j) = UB /\ hv_step s (CopyTo j i) = UB).
  Proof.
    intros R D E. assert (K : ok s h) by (split; assumption). destruct (s_var _ _ _ _ K E) as (o & Eo & _). split.
    - cbn [hv_step]. unfold hv_copy, vp_copy. rewrite Eo. cbn [bind]. rewrite (s_null _ _ _ _ K E Eo). reflexivity.
    - intros L N. destruct (lives_ex _ _ L) as (ov & Ej). destruct (s_var _ _ _ _ K Ej) as (o' & Eo' & _).
      cbn [hv_step]. unfold hv_copy_assign. rewrite !(proj2 (Nat.eqb_neq _ _)) by lia. rewrite Eo, Eo'. cbn [bind].
      rewrite (s_null _ _ _ _ K E Eo). split; [|reflexivity].
      destruct ov as [v|].
      + rewrite (s_val _ _ _ _ _ K Ej Eo'). reflexivity.
      + rewrite (s_null _ _ _ _ K Ej Eo'). reflexivity.
  Qed.
  Lemma ur_reset_twice (s : st V unit) h i : represents s h -> deleted_once s -> full h i = true ->
    exists s', ur_step s (Reset i) = Ok s' /\ ur_step s' (Destroy i) = UB /\ ur_step s' (Reset i) = UB /\
      (forall v, ur_step s' (ResetTo i v) = UB).
  Proof.
    intros R D F. assert (K : ok s h) by (split; assumption). destruct (full_ex _ _ F) as (v & E).
    destruct (s_var _ _ _ _ K E) as (o & Eo & Sh). destruct (s_full _ _ _ _ _ K E Eo) as (a & Ea).
    rewrite Ea in Sh. cbn [shows] in Sh. assert (La : a < length (cells s)) by (eapply nth_error_some_lt; exact Sh).
    cbn [ur_step]. unfold ur_destroy, ur_reset, ur_reset_to. rewrite Eo. cbn [bind]. rewrite Ea. unfold del at 1, val at 1. rewrite Sh. cbn [bind].
    eexists. split; [reflexivity|].
    assert (C : nth_error (upd (cells s) a None) a = Some None) by (apply nth_error_upd_eq; exact La).
    set (s' := St _ _ _ _). assert (W : var s' i = Ok o) by exact Eo. rewrite W. cbn [bind]. rewrite Ea.
    assert (X : del s' tt (Some a) = UB) by (unfold del, val, s'; cbn [cells]; now rewrite C). rewrite X. split; [reflexivity|]. split; [reflexivity|].
    intros w. unfold fresh. set (s0 := St _ _ _ _). assert (W0 : var s0 i = Ok o) by exact Eo. rewrite W0. cbn [bind]. rewrite Ea.
    unfold del, val, s0. cbn [cells s']. rewrite nth_error_app1 by (rewrite upd_length; exact La). now rewrite C.
  Qed.
  Lemma ur_from_empty (s : st V unit) h i j : represents s h -> deleted_once s -> nth_error (held h) j = Some (Some None) ->
    ur_step s (MoveTo i j) = UB /\ ur_step s (Release j) = UB.
  Proof.
    intros R D E. assert (K : ok s h) by (split; assumption). destruct (s_var _ _ _ _ K E) as (o & Eo & _).
    cbn [ur_step]. unfold ur_move_assign, ur_release. rewrite Eo. cbn [bind]. rewrite (s_null _ _ _ _ K E Eo). split; reflexivity.
  Qed.
  Lemma vp_compare_spec (comp : V -> V -> bool) : strict_weak comp -> forall x y : option V,
    let lt a b := match a, b with None, Some _ => true | Some a, Some b => comp a b | _, _ => false end in
    ((vp_compare comp x y < 0)%Z <-> lt x y = true) /\
    ((0 < vp_compare comp x y)%Z <-> lt y x = true) /\
    (vp_compare comp x y = - vp_compare comp y x)%Z.
  Proof.
    intros W [x|] [y|] lt; unfold lt, vp_compare; try (split; [|split]; [split; (lia || discriminate || reflexivity)..|reflexivity]).
    - destruct (comp x y) eqn:E1, (comp y x) eqn:E2.
      + pose proof (swo_trans _ W x y x E1 E2) as T. rewrite (swo_irrefl _ W) in T. discriminate.
      + split; [|split]; [split; (lia || discriminate || reflexivity)..|reflexivity].
      + split; [|split]; [split; (lia || discriminate || reflexivity)..|reflexivity].
      + split; [|split]; [split; (lia || discriminate || reflexivity)..|reflexivity].
  Qed.
End Failures.
Lemma up_order p q : up_lt p q = (p <? q) /\ up_gt p q = (q <? p) /\ up_ge p q = (q <=? p) /\ up_eq p q = (p =? q).
Proof.
  unfold up_lt, up_gt, up_ge, up_eq, up_lt. repeat split. now rewrite Nat.leb_antisym.
Qed.
Lemma up_le_wrong p q : p <> q -> up_le p q = negb (p <=? q).
Proof. intros N. unfold up_le, up_lt. destruct (Nat.ltb_spec p q), (Nat.leb_spec p q); try reflexivity; lia. Qed.

Section GuardProofs.
  Context {F : Type}.
  Definition shows_entry (x : option (option F)) (e : F * fate * bool) : Prop :=
    match e with
    | (_, _, false) => x = None
    | (f, Armed, true) => x = Some (Some f)
    | (_, _, true) => x = Some None
    end.
  Definition g_rel (s : guards F) (b : book F) : Prop :=
    Forall2 shows_entry (gs s) (entries b) /\ ran s = done_in_order b /\
    Permutation (done_in_order b) (handlers_run b) /\ ~ left_armed b.
  Lemma run_upd (es : list (F * fate * bool)) : forall i f e, nth_error es i = Some (f, Armed, true) ->
    Permutation (f :: flat_map (fun e => match e with (f, Run, _) => [f] | _ => [] end) es)
      (flat_map (fun e => match e with (f, Run, _) => [f] | _ => [] end) (upd es i (f, Run, e))).
  Proof.
    induction es as [|x es IH]; intros [|i] f e E; cbn [nth_error upd flat_map] in *; try discriminate.
    - injection E as ->. reflexivity.
    - specialize (IH i f e E). destruct x as [[g w] c]. destruct w; cbn [app]; try exact IH.
      rewrite perm_swap. now apply perm_skip.
  Qed.
  Lemma run_same (es : list (F * fate * bool)) : forall i f w c w' c', nth_error es i = Some (f, w, c) ->
    (w = Run <-> w' = Run) ->
    flat_map (fun e => match e with (f, Run, _) => [f] | _ => [] end) (upd es i (f, w', c')) =
    flat_map (fun e => match e with (f, Run, _) => [f] | _ => [] end) es.
  Proof.
    induction es as [|x es IH]; intros [|i] f w c w' c' E H; cbn [nth_error upd flat_map] in *; try discriminate.
    - injection E as ->. destruct w, w'; try reflexivity; exfalso; destruct H as (H1 & H2); try (specialize (H1 eq_refl); discriminate); specialize (H2 eq_refl); discriminate.
    - f_equal. eapply IH; eauto.
  Qed.
  Lemma armed_upd (b : book F) i e d : ~ left_armed b -> (forall f, e <> (f, Armed, false)) -> ~ left_armed (Book (upd (entries b) i e) d).
  Proof.
    intros N H (f & I). cbn [entries] in I. apply In_nth_error in I as (k & Ek).
    destruct (Nat.eq_dec k i) as [->|Nk].
    - destruct (Nat.lt_ge_cases i (length (entries b))) as [L|L].
      + rewrite nth_error_upd_eq in Ek by exact L. injection Ek as ->. now apply (H f).
      + apply nth_error_some_lt in Ek. rewrite upd_length in Ek. lia.
    - rewrite nth_error_upd_ne in Ek by exact Nk. apply N. exists f. eapply nth_error_In; exact Ek.
  Qed.
  Lemma g_step_ok dbg (s : guards F) b o b' : g_rel s b -> g_effect b o = Some b' ->
    exists s', g_step dbg s o = Ok s' /\ g_rel s' b'.
  Proof.
    intros (H1 & H2 & H3 & H4) E. destruct o as [f|i|i j|i|i|i]; cbn [g_effect] in E; try discriminate.
    - injection E as <-. eexists. split; [reflexivity|]. split; [|split; [exact H2|split]].
      + apply Forall2_app; [exact H1|]. constructor; [reflexivity|constructor].
      + unfold handlers_run. cbn [entries done_in_order]. rewrite flat_map_app. cbn. rewrite app_nil_r. exact H3.
      + intros (g & I). cbn [entries] in I. apply in_app_or in I as [I|[I|[]]]; [|discriminate]. apply H4. now exists g.
    - destruct (nth_error (entries b) i) as [[[f w] [|]]|] eqn:En; try discriminate; try (destruct w; discriminate).
      destruct (o_F2_nth_r _ _ _ H1 i _ En) as (x & Ex & Sx). cbn [g_step]. unfold g_cancel, g_var. rewrite Ex.
      destruct w; cbn [shows_entry] in Sx; subst x; cbn [bind]; injection E as <-; eexists; (split; [reflexivity|]).
      + split; [apply o_F2_upd; [exact H1|reflexivity]|]. split; [exact H2|]. split.
        * unfold handlers_run. cbn [entries done_in_order]. erewrite run_same by (exact En || (split; discriminate)). exact H3.
        * apply armed_upd; [exact H4|discriminate].
      + split; [|auto]. cbn [gs]. rewrite o_upd_id by exact Ex. exact H1.
      + split; [|auto]. cbn [gs]. rewrite o_upd_id by exact Ex. exact H1.
    - destruct (nth_error (entries b) i) as [[[f [| |]] [|]]|] eqn:En; try discriminate. injection E as <-.
      destruct (o_F2_nth_r _ _ _ H1 i _ En) as (x & Ex & Sx). cbn [shows_entry] in Sx. subst x.
      cbn [g_step]. unfold g_run_now, g_cancel, g_var. rewrite Ex. cbn [bind gs]. rewrite Ex. cbn [bind ran].
      eexists. split; [reflexivity|]. split; [apply o_F2_upd; [exact H1|reflexivity]|]. split; [cbn; now rewrite H2|]. split.
      + unfold handlers_run. cbn [entries done_in_order]. rewrite <- (run_upd _ i f true En), <- Permutation_cons_append. now apply perm_skip.
      + apply armed_upd; [exact H4|discriminate].
    - destruct (nth_error (entries b) i) as [[[f w] [|]]|] eqn:En; try discriminate; try (destruct w; discriminate).
      destruct (o_F2_nth_r _ _ _ H1 i _ En) as (x & Ex & Sx). cbn [g_step]. unfold g_leave, g_var. rewrite Ex.
      destruct w; cbn [shows_entry] in Sx; subst x; cbn [bind]; injection E as <-; eexists; (split; [reflexivity|]);
        (split; [apply o_F2_upd; [exact H1|reflexivity]|]); rewrite ?app_nil_r.
      + split; [cbn; now rewrite H2|]. split; [|apply armed_upd; [exact H4|discriminate]].
        unfold handlers_run. cbn [entries done_in_order]. rewrite <- (run_upd _ i f false En), <- Permutation_cons_append. now apply perm_skip.
      + split; [exact H2|]. split; [|apply armed_upd; [exact H4|discriminate]].
        unfold handlers_run. cbn [entries done_in_order]. erewrite run_same by (exact En || (split; discriminate)). exact H3.
      + split; [exact H2|]. split; [|apply armed_upd; [exact H4|discriminate]].
        unfold handlers_run. cbn [entries done_in_order]. erewrite run_same by (exact En || (split; reflexivity)). exact H3.
  Qed.
  Lemma g_histories dbg os (b : book F) : g_effects os (Book [] []) = Some b ->
    exists s, g_run dbg os (Guards [] []) = Ok s /\ ran s = done_in_order b /\
      Permutation (ran s) (handlers_run b) /\ ~ left_armed b.
  Proof.
    assert (G : forall s c, g_rel s c -> g_effects os c = Some b -> exists s', g_run dbg os s = Ok s' /\ g_rel s' b).
    { induction os as [|o os IH]; intros s c R E; cbn [g_effects g_run] in *.
      - injection E as <-. eauto.
      - destruct (g_effect c o) as [c'|] eqn:Ec; [|discriminate]. destruct (g_step_ok dbg s c o c' R Ec) as (s' & Es & R').
        rewrite Es. cbn [bind]. exact (IH _ _ R' E). }
    intros E. destruct (G (Guards [] []) (Book [] [])) as (s & Es & H1 & H2 & H3 & H4).
    - split; [constructor|]. split; [reflexivity|]. split; [constructor|]. intros (f & []).
    - exact E.
    - exists s. rewrite H2. auto.
  Qed.
  Lemma g_moved_twice dbg (f : F) :
    exists s, g_run dbg [Guard f; GMove 0; Leave 1; Leave 0] (Guards [] []) = Ok s /\ ran s = [f; f].
  Proof. eexists. split; reflexivity. Qed.
  Lemma g_assigned_over dbg (f g : F) :
    exists s, g_run dbg [Guard f; Guard g; GAssign 0 1; Leave 1; Leave 0] (Guards [] []) = Ok s /\ ran s = [g; g].
  Proof. eexists. split; reflexivity. Qed.
End GuardProofs.

Section OtherProofs.
  Context {V0 V1 : Type}.
  Notation either := (either V0 V1).
  Lemma un_store0_spec t0 (u : upair V0 V1) x v : holds u x ->
    if t0 || is_first x then exists u', un_store0 t0 u v = Ok u' /\ holds u' (First v) else un_store0 t0 u v = UB.
  Proof.
    intros (E & T). destruct u as [y t d]. cbn in E, T. subst y t. destruct t0, x; cbn; try reflexivity;
      eexists; (split; [reflexivity|]); split; reflexivity.
  Qed.
  Lemma un_store1_spec t1 (u : upair V0 V1) x v : holds u x ->
    if t1 || is_second x then exists u', un_store1 t1 u v = Ok u' /\ holds u' (Second v) else un_store1 t1 u v = UB.
  Proof.
    intros (E & T). destruct u as [y t d]. cbn in E, T. subst y t. destruct t1, x; cbn; try reflexivity;
      eexists; (split; [reflexivity|]); split; reflexivity.
  Qed.
  Lemma un_assign_spec (u w : upair V0 V1) x y : holds u x -> holds w y ->
    exists u', un_assign true true u w = Ok u' /\ holds u' y.
  Proof.
    intros (E & T) (E' & T'). destruct u as [x' t d], w as [y' t' d']. cbn in E, T, E', T'. subst x' t y' t'.
    destruct x, y; cbn; eexists; (split; [reflexivity|]); split; reflexivity.
  Qed.
  Lemma un_copy_spec (w : upair V0 V1) y : holds w y -> exists u', un_copy true true w = Ok u' /\ holds u' y.
  Proof.
    intros (E' & T'). destruct w as [y' t' d']. cbn in E', T'. subst y' t'.
    destruct y; cbn; eexists; (split; [reflexivity|]); split; reflexivity.
  Qed.
  Lemma un_clear_spec (u : upair V0 V1) x : holds u x -> exists u', un_clear u = Ok u' /\ holds u' Nothing.
  Proof.
    intros (E & T). destruct u as [y t d]. cbn in E, T. subst y t. destruct x; cbn; eexists; (split; [reflexivity|]); split; reflexivity.
  Qed.
  Lemma un_visit_spec {R} (u : upair V0 V1) x (f0 : V0 -> R) f1 : holds u x ->
    un_visit u f0 f1 = match x with First v => Ok (f0 v) | Second v => Ok (f1 v) | Nothing => Throw end.
  Proof. intros (E & T). destruct u as [y t d]. cbn in E, T. subst y t. destruct x; reflexivity. Qed.
  Lemma un_which_spec (u : upair V0 V1) x : holds u x ->
    un_which u = match x with First _ => 0 | Second _ => 1 | Nothing => 2 end%Z.
  Proof. intros (E & T). destruct u as [y t d]. cbn in E, T. subst y t. destruct x; reflexivity. Qed.
End OtherProofs.
Lemma sb_spec {V} small dbg (s : sbo V) v : vacant s ->
  exists s', sb_allocate small dbg s v = Ok s' /\ sb_get small dbg s' = Ok v /\
    (small && dbg = false -> sb_get_const small dbg s' = Ok v) /\
    exists s'', sb_deallocate small dbg s' = Ok s'' /\ vacant s''.
Proof.
  intros (E & H). destruct s as [e h p]. cbn in E, H. subst e p.
  destruct small, dbg; cbn; eexists; (split; [reflexivity|]); (split; [reflexivity|]); (split; [(discriminate || reflexivity)|]);
    eexists; (split; [reflexivity|]); split; reflexivity.
Qed.
Lemma sb_const {V} (s : sbo V) v s' : sb_allocate true true s v = Ok s' -> sb_get_const true true s' = Throw.
Proof.
  unfold sb_allocate. destruct (expect true (is_engaged s none)) as [[]| | |]; try discriminate. cbn [bind].
  intros E. injection E as <-. reflexivity.
Qed.
Lemma sb_twice {V} small (s s' : sbo V) v w : sb_allocate small true s v = Ok s' -> sb_allocate small true s' w = Throw.
Proof.
  unfold sb_allocate. destruct (expect true (is_engaged s none)) as [[]| | |]; try discriminate. cbn [bind].
  destruct small; intros E; injection E as <-; reflexivity.
Qed.
Lemma va_assigns_spec {V} (p : V -> bool) vs : forall m, va_assigns p m vs = last (filter p vs) m.
Proof.
  assert (L : forall (l : list V) x d, last (x :: l) d = last l x).
  { induction l as [|y l IH]; intros x d; [reflexivity|]. change (last (x :: y :: l) d) with (last (y :: l) d). now rewrite !IH. }
  induction vs as [|v vs IH]; intros m; [reflexivity|]. cbn [va_assigns filter]. unfold va_assign, va_validate.
  destruct (p v); cbn [negb]; rewrite IH; [|reflexivity]. now rewrite L.
Qed.
Lemma va_valid {V} (p : V -> bool) vs m : p m = true -> p (va_assigns p m vs) = true.
Proof.
  revert m. induction vs as [|v vs IH]; intros m E; [exact E|]. cbn [va_assigns]. unfold va_assign, va_validate.
  destruct (p v) eqn:Ev; cbn [negb]; auto.
Qed.
Section TakeProofs.
  Context {V : Type} (dflt : V) (gone : V -> V).
  Lemma tk_move_spec (l : list V) i v : nth_error l i = Some v ->
    tk_move dflt gone true l i = Ok (upd l i dflt ++ [v]).
  Proof.
    intros E. unfold tk_move. rewrite (rd_some _ _ _ E). cbn [bind take]. rewrite wr_ok by (eapply nth_error_some_lt; exact E). reflexivity.
  Qed.
  Lemma tk_assign_spec (l : list V) i j v w : nth_error l i = Some v -> nth_error l j = Some w ->
    exists l', tk_move_assign dflt gone true l i j = Ok l' /\ length l' = length l /\
      (forall k, nth_error l' k = if k =? i then Some w else if k =? j then Some dflt else nth_error l k).
  Proof.
    intros Ei Ej. unfold tk_move_assign. rewrite (rd_some _ _ _ Ej). cbn [bind take].
    assert (Li : i < length l) by (eapply nth_error_some_lt; exact Ei). assert (Lj : j < length l) by (eapply nth_error_some_lt; exact Ej).
    rewrite wr_ok by exact Lj. cbn [bind]. rewrite wr_ok by (rewrite upd_length; exact Li). eexists. split; [reflexivity|].
    split; [now rewrite !upd_length|]. intros k. destruct (Nat.eqb_spec k i) as [->|N].
    - apply nth_error_upd_eq. rewrite upd_length. exact Li.
    - rewrite nth_error_upd_ne by exact N. destruct (Nat.eqb_spec k j) as [->|N'].
      + apply nth_error_upd_eq. exact Lj.
      + now apply nth_error_upd_ne.
  Qed.
  Lemma tk_reset_spec (l : list V) i v : nth_error l i = Some v -> tk_reset dflt gone true l i = Ok (upd l i dflt).
  Proof.
    intros E. unfold tk_reset. rewrite (rd_some _ _ _ E). cbn [bind take]. now rewrite wr_ok by (eapply nth_error_some_lt; exact E).
  Qed.
End TakeProofs.

(** * Further statements *)
Section Reachable.
  Context {V : Type}.
  Lemma mu_reset_to_reached os (h : holding V) i v : effects false maybe_ops os at_first = Some h -> lives h i = true ->
    exists s s' a, run mu_step os start = Ok s /\ mu_step s (ResetTo i v) = Ok s' /\
      var s' i = Ok (Own (Some a) true) /\ nth_error (cells s') a = Some None /\ mu_step s' (Destroy i) = UB.
  Proof.
    intros E L. destruct (histories_inv mu_step false maybe_ops (fun (s : st V bool) _ => all_owned s)) with (os := os) (h := h) as (s & Es & R & D & Al).
    - constructor.
    - intros s h' o K Al A. exact (mu_step_ok s h' o K Al A).
    - exact E.
    - destruct (mu_reset_to_bad s h i v (conj R D) Al L) as (s' & E1 & E2 & E3 & E4).
      exists s, s', (length (cells s)). repeat split; assumption.
  Qed.
  Lemma ua_all {T} os (h : holding (list T)) : effects false array_ops os at_first = Some h ->
    exists s, run ua_step os start = Ok s /\ represents s h /\ deleted_once s /\
      (forall i ov, nth_error (held h) i = Some (Some ov) ->
       exists o, var s i = Ok o /\ aux o = size_of ov /\ ua_empty o = match ov with Some _ => false | None => true end /\
         (forall l pos, ov = Some l -> ua_get s o pos = rd l pos) /\
         (forall l, ov = Some l -> ua_front s o = rd l 0) /\
         (forall l x, ov = Some (l ++ [x]) -> ua_back s o = Ok x)).
  Proof.
    intros E. destruct (ua_histories os h E) as (s & Es & R & D & Z). exists s. split; [exact Es|]. split; [exact R|]. split; [exact D|].
    intros i [l|] Ei.
    - destruct (ua_views s h i l R D Z Ei) as (o & E1 & E2 & E3 & E4 & _ & E6 & E7). exists o.
      split; [exact E1|]. split; [exact E2|]. split; [exact E3|]. split; [|split].
      + intros l' pos [= <-]. apply E4.
      + intros l' [= <-]. exact E6.
      + intros l' x [= ->]. eapply E7. reflexivity.
    - destruct (ua_views_null s h i R D Z Ei) as (o & E1 & E2 & E3). exists o. repeat split; try assumption; intros; discriminate.
  Qed.
  Lemma ua_at_wrong {T} os (h : holding (list T)) i l : effects false array_ops os at_first = Some h ->
    nth_error (held h) i = Some (Some (Some l)) ->
    exists s o, run ua_step os start = Ok s /\ var s i = Ok o /\
      (forall pos, pos < length l -> ua_at s o pos = Throw) /\ (forall pos, length l <= pos -> ua_at s o pos = UB).
  Proof.
    intros E Ei. destruct (ua_histories os h E) as (s & Es & R & D & Z).
    destruct (ua_views s h i l R D Z Ei) as (o & E1 & _ & _ & _ & E5 & _). exists s, o.
    split; [exact Es|]. split; [exact E1|]. split; intros pos L; rewrite E5.
    - apply Nat.ltb_lt in L. rewrite L. reflexivity.
    - apply Nat.ltb_ge in L. rewrite L. reflexivity.
  Qed.
  Lemma ua_empty_array {T} : exists (s : st (list T) nat) o, ua_step start (Make []) = Ok s /\ var s 0 = Ok o /\ aux o = 0 /\ ua_empty o = false.
  Proof. eexists. eexists. repeat split. Qed.
End Reachable.
Lemma va_make_spec {V} (p : V -> bool) v : va_make p v = if p v then Ok v else Throw.
Proof. unfold va_make, va_validate. destruct (p v); reflexivity. Qed.
Lemma va_assign_spec {V} (p : V -> bool) m v : va_assign p m v = if p v then Ok v else Throw.
Proof. apply va_make_spec. Qed.
Lemma va_default_wrong {V} (p : V -> bool) d : p d = false -> p (va_default d) = false.
Proof. exact id. Qed.
Lemma oes_spec {F} (f : F) n : (oes_leave n f = [f] <-> n = 0) /\ (n <> 0 -> oes_leave n f = []).
Proof.
  unfold oes_leave. destruct (Nat.eqb_spec n 0) as [->|N]; split.
  - split; reflexivity.
  - congruence.
  - split; congruence.
  - reflexivity.
Qed.
Lemma un_start_spec {V0 V1} : holds (@un_empty V0 V1) Nothing.
Proof. split; reflexivity. Qed.
Lemma no_leak {V A} (s : st V A) h : represents s h -> Forall (eq None) (held h) -> mine h = [] -> Forall (eq None) (cells s).
Proof.
  intros (F & L & W) Hn M. rewrite M in L. inversion L as [L0|]. clear L.
  assert (Fp : flat_map owned_by (pointers s) = []).
  { clear - F Hn. induction F as [|p x ps xs R F IH]; [reflexivity|]. inversion Hn as [|? ? E H]; subst.
    cbn [flat_map]. rewrite (IH H). destruct p as [[a|]|]; [destruct R|destruct R|reflexivity]. }
  apply Forall_forall. intros c Hc. destruct (In_nth_error _ _ Hc) as (a & Ea). specialize (W a).
  unfold owners in W. rewrite Fp, <- L0 in W. cbn in W. unfold exists_at in W. rewrite Ea in W.
  destruct c; [discriminate|reflexivity].
Qed.
Section UnionStores.
  Context {V0 V1 : Type}.
  Lemma un_first_ok t0 (u : upair V0 V1) x v : holds u x -> t0 = true \/ is_first x = true ->
    exists u', un_store0 t0 u v = Ok u' /\ holds u' (First v).
  Proof. intros K B. pose proof (un_store0_spec t0 u x v K) as P. rewrite (proj2 (orb_true_iff _ _) B) in P. exact P. Qed.
  Lemma un_second_ok t1 (u : upair V0 V1) x v : holds u x -> t1 = true \/ is_second x = true ->
    exists u', un_store1 t1 u v = Ok u' /\ holds u' (Second v).
  Proof. intros K B. pose proof (un_store1_spec t1 u x v K) as P. rewrite (proj2 (orb_true_iff _ _) B) in P. exact P. Qed.
  Lemma un_store_bad (u : upair V0 V1) x : holds u x ->
    (is_first x = false -> forall v, un_store0 false u v = UB) /\ (is_second x = false -> forall v, un_store1 false u v = UB).
  Proof.
    intros K. split; intros B v.
    - pose proof (un_store0_spec false u x v K) as P. rewrite B in P. exact P.
    - pose proof (un_store1_spec false u x v K) as P. rewrite B in P. exact P.
  Qed.
  Lemma un_destroys (u u' : upair V0 V1) x : holds u x ->
    (forall t v, un_store0 t u v = Ok u' -> gone u' = gone u ++ destroyed x (is_first x)) /\
    (forall t v, un_store1 t u v = Ok u' -> gone u' = gone u ++ destroyed x (is_second x)) /\
    (un_clear u = Ok u' -> gone u' = gone u ++ destroyed x false).
  Proof.
    intros (E & T). destruct u as [y t d]. cbn in E, T. subst y t. repeat split.
    - intros t v K. destruct t, x; cbn in K; try discriminate K; injection K as <-; cbn; now rewrite ?app_nil_r.
    - intros t v K. destruct t, x; cbn in K; try discriminate K; injection K as <-; cbn; now rewrite ?app_nil_r.
    - intros K. destruct x; cbn in K; try discriminate K; injection K as <-; cbn; now rewrite ?app_nil_r.
  Qed.
End UnionStores.
Lemma g_run_cancelled {F} dbg (s : guards F) i : nth_error (gs s) i = Some (Some None) ->
  g_run_now dbg s i = if dbg then Throw else UB.
Proof. intros E. unfold g_run_now, g_var. rewrite E. reflexivity. Qed.
