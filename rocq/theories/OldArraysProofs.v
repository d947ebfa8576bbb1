(** Proofs about heap_array, fixed_array and carray. *)
From Coq Require Import Lia Permutation.
From Verif Require Import Common CommonProofs OldArrays SpecOldArrays.
Open Scope nat_scope.

Section ArraysProofs.
  Context {T : Type} (dflt : T).
  Notation mem := (arrays T).

  Definition owned (v : option arr) : list nat :=
    match v with Some a => match beg a with Some k => [k] | None => [] end | None => [] end.
  Definition owns (vs : list (option arr)) : list nat := flat_map owned vs.
  (** [e]: m_end is right as well. *)
  Definition rep (e : bool) (m : mem) (a : arr) (l : list T) : Prop :=
    cnt a = length l /\
    match beg a with
    | None => l = []
    | Some k => exists extra, nth_error m k = Some (Some (l ++ extra))
    end /\
    (e = true -> fin a = match beg a with None => None | Some k => Some (k, length l) end).
  Definition vrep (e : bool) (m : mem) (v : option arr) (p : option (list T)) : Prop :=
    match v, p with Some a, Some l => rep e m a l | None, None => True | _, _ => False end.
  (** [loose]: arrays no variable owns. *)
  Definition inv (e : bool) (s : astate T) (ls : list (option (list T))) (loose : list nat) : Prop :=
    Forall2 (vrep e (fst s)) (snd s) ls /\ NoDup (owns (snd s) ++ loose) /\
    forall k, alive (fst s) k <-> In k (owns (snd s) ++ loose).

  Lemma Forall2_nth {A B} (R : A -> B -> Prop) l m : Forall2 R l m -> forall i,
    match nth_error l i, nth_error m i with Some x, Some y => R x y | None, None => True | _, _ => False end.
  Proof. intros H. induction H as [|x y l m X H IH]; intros [|i]; cbn; auto. apply IH. Qed.
  Lemma Forall2_upd {A B} (R : A -> B -> Prop) l m x y i : Forall2 R l m -> R x y -> Forall2 R (upd l i x) (upd m i y).
  Proof. intros H X. revert i. induction H; intros [|i]; cbn; constructor; auto. Qed.
  Lemma Forall2_len {A B} (R : A -> B -> Prop) l m : Forall2 R l m -> length l = length m.
  Proof. induction 1; cbn; congruence. Qed.

  Lemma owns_upd vs i v v' : nth_error vs i = Some v -> Permutation (owned v ++ owns (upd vs i v')) (owned v' ++ owns vs).
  Proof.
    revert i. induction vs as [|w vs IH]; intros [|i] H; cbn in H; try discriminate.
    - injection H as ->. cbn. rewrite !app_assoc. apply Permutation_app_tail. apply Permutation_app_comm.
    - cbn [upd owns flat_map]. fold (owns (upd vs i v')) (owns vs).
      rewrite (Permutation_app_comm (owned w)), (Permutation_app_comm (owned w) (owns vs)), !app_assoc.
      apply Permutation_app_tail. apply IH. exact H.
  Qed.
  Lemma owns_snoc vs v : owns (vs ++ [v]) = owns vs ++ owned v.
  Proof. unfold owns. rewrite flat_map_app. cbn. now rewrite app_nil_r. Qed.
  Lemma owns_in vs i a k : nth_error vs i = Some (Some a) -> beg a = Some k -> In k (owns vs).
  Proof.
    intros H B. unfold owns. apply in_flat_map. exists (Some a). split; [eapply nth_error_In; exact H|]. cbn. rewrite B. now left.
  Qed.

  (** Replacing a variable. *)
  Lemma exchange e m vs ls L L' i v v' p' : inv e (m, vs) ls L -> nth_error vs i = Some v ->
    vrep e m v' p' -> Permutation (owned v ++ L) (owned v' ++ L') ->
    inv e (m, upd vs i v') (upd ls i p') L'.
  Proof.
    intros (F & N & A) H R P. cbn [fst snd] in *.
    assert (Q : Permutation (owns vs ++ L) (owns (upd vs i v') ++ L')).
    { apply (Permutation_app_inv_l (owned v')). rewrite app_assoc. rewrite <- (owns_upd vs i v v' H).
      rewrite <- app_assoc. rewrite (Permutation_app_comm (owns (upd vs i v')) L), app_assoc, P, <- app_assoc.
      apply Permutation_app_head. apply Permutation_app_comm. }
    split; [|split]; cbn [fst snd].
    - now apply Forall2_upd.
    - eapply Permutation_NoDup; [exact Q|exact N].
    - intros k. rewrite (A k). split; intros I; (eapply Permutation_in; [|exact I]); [exact Q|now symmetry].
  Qed.
  Lemma append e m vs ls L L' v' p' : inv e (m, vs) ls L -> vrep e m v' p' -> Permutation L (owned v' ++ L') ->
    inv e (m, vs ++ [v']) (ls ++ [p']) L'.
  Proof.
    intros (F & N & A) R P. cbn [fst snd] in *.
    assert (Q : Permutation (owns vs ++ L) (owns (vs ++ [v']) ++ L')).
    { rewrite owns_snoc, <- app_assoc. apply Permutation_app_head. exact P. }
    split; [|split]; cbn [fst snd].
    - apply Forall2_app; [exact F|]. constructor; [exact R|constructor].
    - eapply Permutation_NoDup; [exact Q|exact N].
    - intros k. rewrite (A k). split; intros I; (eapply Permutation_in; [|exact I]); [exact Q|now symmetry].
  Qed.
  Lemma loose_perm e s ls L L' : inv e s ls L -> Permutation L L' -> inv e s ls L'.
  Proof.
    intros (F & N & A) P. assert (Q : Permutation (owns (snd s) ++ L) (owns (snd s) ++ L')) by (now apply Permutation_app_head).
    split; [exact F|]. split; [eapply Permutation_NoDup; [exact Q|exact N]|].
    intros k. rewrite (A k). split; intros I; (eapply Permutation_in; [|exact I]); [exact Q|now symmetry].
  Qed.
  (** Changing memory that no variable owns. *)
  Lemma frame e (m m' : mem) vs ls : Forall2 (vrep e m) vs ls -> (forall k, In k (owns vs) -> nth_error m' k = nth_error m k) ->
    Forall2 (vrep e m') vs ls.
  Proof.
    intros F. induction F as [|v p vs ls R F IH]; intros H; constructor.
    - destruct v as [a|], p as [l|]; cbn in *; auto. destruct R as (R1 & R2 & R3). split; [exact R1|]. split; [|exact R3].
      destruct (beg a) as [k|] eqn:B; [|exact R2]. rewrite H; [exact R2|]. cbn. try rewrite B. now left.
    - apply IH. intros k K. apply H. cbn. apply in_or_app. now right.
  Qed.
  Lemma create e m vs ls L l : inv e (m, vs) ls L -> inv e (m ++ [Some l], vs) ls (length m :: L).
  Proof.
    intros (F & N & A). cbn [fst snd] in *.
    assert (Lt : forall k, In k (owns vs ++ L) -> k < length m).
    { intros k K. apply A in K. destruct K as (x & X). eapply nth_error_some_lt; exact X. }
    split; [|split]; cbn [fst snd].
    - apply frame with m; [exact F|]. intros k K. rewrite nth_error_app1; [reflexivity|]. apply Lt. apply in_or_app. now left.
    - apply (Permutation_NoDup (Permutation_middle _ _ _)). constructor; [|exact N]. intros I. apply Lt in I. lia.
    - intros k. split.
      + intros (x & X). destruct (Nat.eq_dec k (length m)) as [->|D]; [apply in_or_app; right; now left|].
        pose proof (nth_error_some_lt _ _ _ X) as K. rewrite app_length in K. cbn in K. rewrite nth_error_app1 in X by lia.
        assert (I : In k (owns vs ++ L)) by (apply A; exists x; exact X). apply in_or_app. apply in_app_or in I.
        destruct I; [now left|right; now right].
      + intros I. apply in_app_or in I. destruct I as [I|[<-|I]].
        * assert (K : alive m k) by (apply A; apply in_or_app; now left). destruct K as (x & X). exists x.
          rewrite nth_error_app1 by (eapply nth_error_some_lt; exact X). exact X.
        * exists l. rewrite nth_error_app2, Nat.sub_diag by lia. reflexivity.
        * assert (K : alive m k) by (apply A; apply in_or_app; now right). destruct K as (x & X). exists x.
          rewrite nth_error_app1 by (eapply nth_error_some_lt; exact X). exact X.
  Qed.
  Lemma discard e m vs ls k L : inv e (m, vs) ls (k :: L) ->
    exists m', del_arr m (Some k) = Ok m' /\ inv e (m', vs) ls L /\ m' = upd m k None.
  Proof.
    intros (F & N & A). cbn [fst snd] in *. assert (K : alive m k) by (apply A; apply in_or_app; right; now left).
    destruct K as (x & X). cbn [del_arr]. rewrite X. eexists. split; [reflexivity|]. split; [|reflexivity].
    apply (Permutation_NoDup (Permutation_sym (Permutation_middle _ _ _))) in N. inversion N as [|? ? NI N']; subst.
    pose proof (nth_error_some_lt _ _ _ X) as Lt.
    split; [|split]; cbn [fst snd].
    - apply frame with m; [exact F|]. intros j J. apply nth_error_upd_ne. intros ->. apply NI. apply in_or_app. now left.
    - exact N'.
    - intros j. destruct (Nat.eq_dec j k) as [->|D].
      + split; [|contradiction]. intros (y & Y). rewrite nth_error_upd_eq in Y by exact Lt. discriminate Y.
      + unfold alive. rewrite nth_error_upd_ne by exact D. fold (alive m j). rewrite (A j). split; intros I.
        * apply in_app_or in I. apply in_or_app. destruct I as [I|[I|I]]; [now left|congruence|now right].
        * apply in_app_or in I. apply in_or_app. destruct I as [I|I]; [now left|right; now right].
  Qed.
  Lemma rewrite_loose e m vs ls k L l : inv e (m, vs) ls (k :: L) -> inv e (upd m k (Some l), vs) ls (k :: L).
  Proof.
    intros (F & N & A). cbn [fst snd] in *. assert (K : alive m k) by (apply A; apply in_or_app; right; now left).
    destruct K as (x & X). pose proof (nth_error_some_lt _ _ _ X) as Lt.
    split; [|split]; cbn [fst snd].
    - apply frame with m; [exact F|]. intros j J. apply nth_error_upd_ne. intros ->.
      apply (Permutation_NoDup (Permutation_sym (Permutation_middle _ _ _))) in N. inversion N as [|? ? NI N']; subst.
      apply NI. apply in_or_app. now left.
    - exact N.
    - intros j. rewrite <- (A j). unfold alive. destruct (Nat.eq_dec j k) as [->|D].
      + rewrite nth_error_upd_eq by exact Lt. split; intros _; eauto.
      + rewrite nth_error_upd_ne by exact D. tauto.
  Qed.

  Lemma lookup e m vs ls L i l : inv e (m, vs) ls L -> the ls i = Some l ->
    exists a, nth_error vs i = Some (Some a) /\ nth_error ls i = Some (Some l) /\ var vs i = Ok a /\ rep e m a l.
  Proof.
    intros (F & _) H. unfold the in H. pose proof (Forall2_nth _ _ _ F i) as G. cbn [fst snd] in G. unfold var.
    destruct (nth_error ls i) as [[q|]|] eqn:E; try discriminate H. injection H as ->.
    destruct (nth_error vs i) as [[a|]|]; cbn in G; try contradiction. exists a. auto.
  Qed.
  Lemma read_rep e (m : mem) a l : rep e m a l -> read_n m (beg a) (cnt a) = Ok l.
  Proof.
    intros (R1 & R2 & _). unfold read_n. rewrite R1. destruct (length l =? 0) eqn:Z.
    - apply Nat.eqb_eq in Z. destruct l; [reflexivity|discriminate Z].
    - apply Nat.eqb_neq in Z. destruct (beg a) as [k|]; [|subst l; cbn in Z; lia]. destruct R2 as (ex & X).
      cbn [get_arr]. rewrite X. cbn [bind]. rewrite app_length.
      replace (length l <=? length l + length ex) with true by (symmetry; apply Nat.leb_le; lia).
      rewrite firstn_app, firstn_all, Nat.sub_diag. cbn. now rewrite app_nil_r.
  Qed.
  Lemma null_rep e (m : mem) : rep e m null_arr [].
  Proof. split; [reflexivity|]. split; [reflexivity|]. reflexivity. Qed.
  Lemma nth_last {A} (l : list A) x : nth_error (l ++ [x]) (length l) = Some x.
  Proof. rewrite nth_error_app2, Nat.sub_diag by lia. reflexivity. Qed.
  Lemma inv_upd_ls e s ls L i p : inv e s ls L -> nth_error ls i = Some p -> upd ls i p = ls.
  Proof. intros _ H. revert i H. induction ls as [|q ls IH]; intros [|i] H; cbn in *; try discriminate; [congruence|]. now rewrite IH. Qed.

  Lemma uu {A} (l : list A) i x y : upd (upd l i x) i y = upd l i y.
  Proof. revert i. induction l as [|a l IH]; intros [|i]; cbn; auto. now rewrite IH. Qed.
  Lemma uc {A} (l : list A) i j x y : i <> j -> upd (upd l i x) j y = upd (upd l j y) i x.
  Proof. revert i j. induction l as [|a l IH]; intros [|i] [|j] N; cbn; auto; try congruence. rewrite IH by lia. reflexivity. Qed.
  Lemma us {A} (l : list A) i x : nth_error l i = Some x -> upd l i x = l.
  Proof. revert i. induction l as [|a l IH]; intros [|i] H; cbn in *; try congruence. now rewrite IH. Qed.

  Lemma drop e m vs ls a L : inv e (m, vs) ls (owned (Some a) ++ L) -> exists m', del_arr m (beg a) = Ok m' /\ inv e (m', vs) ls L.
  Proof.
    intros H. cbn [owned] in H. destruct (beg a) as [k|].
    - destruct (discard e m vs ls k L H) as (m' & E & I' & _). eauto.
    - cbn. eauto.
  Qed.
  (** A variable gets a new array and its old one is deleted. *)
  Lemma renew e m vs ls L i a la c l k : inv e (m, vs) ls (k :: L) -> nth_error vs i = Some (Some a) -> rep e m a la ->
    beg c = Some k -> rep e m c l ->
    exists m', del_arr m (beg a) = Ok m' /\ inv e (m', upd vs i (Some c)) (upd ls i (Some l)) L.
  Proof.
    intros H V _ B R. apply drop. eapply exchange; [exact H|exact V|exact R|].
    change (owned (Some c)) with (match beg c with Some k => [k] | None => [] end). rewrite B. cbn [app].
    symmetry. apply Permutation_middle.
  Qed.
  Lemma remove e m vs ls L i a la v p : inv e (m, vs) ls L -> nth_error vs i = Some (Some a) -> rep e m a la ->
    (v = None /\ p = None \/ exists f, (e = true -> f = None) /\ v = Some (Arr None f 0) /\ p = Some []) ->
    exists m', del_arr m (beg a) = Ok m' /\ inv e (m', upd vs i v) (upd ls i p) L.
  Proof.
    intros H V _ P. apply drop. eapply exchange; [exact H|exact V| |].
    - destruct P as [(-> & ->)|(f & E & -> & ->)]; [exact I|]. split; [reflexivity|]. split; [reflexivity|]. exact E.
    - destruct P as [(-> & ->)|(f & E & -> & ->)]; reflexivity.
  Qed.
  Lemma new_rep e (m : mem) l ex (f : option (nat * nat)) : (e = true -> f = Some (length m, length l)) ->
    rep e (m ++ [Some (l ++ ex)]) (Arr (Some (length m)) f (length l)) l.
  Proof. intros E. split; [reflexivity|]. split; [|exact E]. exists ex. apply nth_last. Qed.

  Lemma upd_as e m vs ls L i l : inv e (m, vs) ls L -> the ls i = Some l -> forall a, nth_error vs i = Some (Some a) ->
    upd vs i (Some a) = vs /\ upd ls i (Some l) = ls.
  Proof.
    intros H E a V. split; [now apply us|]. apply us. unfold the in E. destruct (nth_error ls i) as [[q|]|]; congruence.
  Qed.
  Lemma set_at e m vs ls L i l k x : inv e (m, vs) ls L -> the ls i = Some l -> k < length l ->
    exists a m', var vs i = Ok a /\ write_at m (beg a) k x = Ok m' /\ inv e (m', vs) (upd ls i (Some (upd l k x))) L.
  Proof.
    intros H E K. destruct (lookup e m vs ls L i l H E) as (a & V & Q & Va & R). exists a.
    destruct R as (R1 & R2 & R3). destruct (beg a) as [b|] eqn:B; [|subst l; cbn in K; lia]. destruct R2 as (ex & X).
    exists (upd m b (Some (upd (l ++ ex) k x))). split; [exact Va|]. split.
    - unfold write_at. cbn [get_arr]. rewrite X. cbn [bind]. rewrite wr_ok by (rewrite app_length; lia). reflexivity.
    - pose proof (nth_error_some_lt _ _ _ X) as Lb.
      assert (H1 : inv e (m, upd vs i None) (upd ls i None) (b :: L)).
      { eapply exchange; [exact H|exact V|exact I|]. cbn [owned]. rewrite B. reflexivity. }
      apply rewrite_loose with (l := upd (l ++ ex) k x) in H1.
      assert (Li : i < length vs) by (eapply nth_error_some_lt; exact V).
      pose proof (exchange e _ _ _ _ L i None (Some a) (Some (upd l k x)) H1 (nth_error_upd_eq _ _ _ Li)) as G.
      rewrite !uu, (us vs i (Some a) V) in G. apply G.
      + split; [now rewrite upd_length|]. rewrite B. split; [|rewrite upd_length; exact R3]. exists ex. rewrite nth_error_upd_eq by exact Lb.
        assert (U : forall (l ex : list T) k, k < length l -> upd (l ++ ex) k x = upd l k x ++ ex).
        { clear. induction l as [|y l IH]; intros ex [|k] K; cbn in *; try lia; auto. now rewrite IH by lia. }
        now rewrite U.
      + cbn [owned]. rewrite B. reflexivity.
  Qed.

  Lemma ha_step_ok e s ls L o ls' : inv e s ls L -> list_step ls o = Some ls' -> (e = true -> is_move_new o = false) ->
    exists s' X, ha_step dflt s o = Ok s' /\ inv e s' ls' (X ++ L) /\ (is_move_assign o = false -> X = []).
  Proof.
    destruct s as [m vs]. intros H St M. destruct o as [|n x|l|j|j|i j|i j|i l|i j|i|i k x|i]; cbn [list_step ha_step is_move_assign] in *.
    - injection St as <-. eexists. exists []. split; [reflexivity|]. split; [|reflexivity].
      eapply append; [exact H|apply null_rep|reflexivity].
    - injection St as <-. unfold ha_new, new_arr. eexists. exists []. split; [reflexivity|]. split; [|reflexivity].
      eapply append; [apply create; exact H| |reflexivity]. apply new_rep. reflexivity.
    - injection St as <-. unfold ha_from, new_arr. eexists. exists []. split; [reflexivity|]. split; [|reflexivity].
      eapply append; [apply create; exact H| |reflexivity]. rewrite <- (app_nil_r l) at 1. apply new_rep. reflexivity.
    - destruct (the ls j) as [l|] eqn:E; [|discriminate St]. injection St as <-.
      destruct (lookup _ _ _ _ _ _ _ H E) as (b & V & Q & Va & R). rewrite Va. cbn [bind]. rewrite (read_rep _ _ _ _ R). cbn [bind].
      unfold ha_from, new_arr. eexists. exists []. split; [reflexivity|]. split; [|reflexivity].
      eapply append; [apply create; exact H| |reflexivity]. rewrite <- (app_nil_r l) at 1. apply new_rep. reflexivity.
    - destruct (the ls j) as [l|] eqn:E; [|discriminate St]. injection St as <-.
      destruct (lookup _ _ _ _ _ _ _ H E) as (b & V & Q & Va & R). rewrite Va. cbn [bind fin cnt beg].
      assert (e = false) as -> by (destruct e; [discriminate (M eq_refl)|reflexivity]).
      eexists. exists []. split; [reflexivity|]. split; [|reflexivity].
      eapply append.
      + apply exchange with (L' := owned (Some b) ++ L) (v := Some b) (L := L); [exact H|exact V| |].
        * split; [reflexivity|]. split; [reflexivity|]. discriminate.
        * reflexivity.
      + destruct R as (R1 & R2 & _). split; [exact R1|]. split; [exact R2|]. discriminate.
      + reflexivity.
    - destruct (the ls i) as [la|] eqn:Ei; [|discriminate St]. destruct (the ls j) as [l|] eqn:E; [|discriminate St]. injection St as <-.
      destruct (lookup _ _ _ _ _ _ _ H Ei) as (a & Vi & Qi & Va & Ra). rewrite Va. cbn [bind].
      destruct (lookup _ _ _ _ _ _ _ H E) as (b & V & Q & Vb & R). rewrite Vb. cbn [bind].
      assert (H1 : inv e (m, upd vs j (Some null_arr)) (upd ls j (Some [])) (owned (Some b) ++ L)).
      { eapply exchange; [exact H|exact V|apply null_rep|reflexivity]. }
      assert (Li : i < length (upd vs j (Some null_arr))) by (rewrite upd_length; eapply nth_error_some_lt; exact Vi).
      destruct (nth_error_ex _ _ Li) as (v & Vv).
      eexists. exists (owned v). split; [reflexivity|]. split; [|discriminate]. unfold set_var.
      apply (exchange e m _ _ _ ((owned v) ++ L) i v (Some b) (Some l) H1 Vv R).
      rewrite !app_assoc. apply Permutation_app_tail. apply Permutation_app_comm.
    - destruct (the ls i) as [la|] eqn:Ei; [|discriminate St]. destruct (the ls j) as [l|] eqn:E; [|discriminate St]. injection St as <-.
      destruct (lookup _ _ _ _ _ _ _ H Ei) as (a & Vi & Qi & Va & Ra). rewrite Va. cbn [bind].
      destruct (lookup _ _ _ _ _ _ _ H E) as (b & V & Q & Vb & R). rewrite Vb. cbn [bind]. rewrite (read_rep _ _ _ _ R). cbn [bind].
      unfold ha_from, new_arr, ha_clear.
      destruct (renew e (m ++ [Some l]) vs ls L i a la (Arr (Some (length m)) (Some (length m, length l)) (length l)) l (length m)) as (m' & D & G).
      + apply create. exact H.
      + exact Vi.
      + destruct (create e m vs ls L l H) as (F & _). pose proof (Forall2_nth _ _ _ F i) as X. cbn [snd fst] in X. rewrite Vi, Qi in X. exact X.
      + reflexivity.
      + rewrite <- (app_nil_r l) at 1. apply new_rep. reflexivity.
      + rewrite D. cbn [bind]. eexists. exists []. split; [reflexivity|]. split; [exact G|reflexivity].
    - destruct (the ls i) as [la|] eqn:Ei; [|discriminate St]. injection St as <-.
      destruct (lookup _ _ _ _ _ _ _ H Ei) as (a & Vi & Qi & Va & Ra). rewrite Va. cbn [bind].
      unfold ha_new, new_arr, ha_clear.
      destruct (renew e (m ++ [Some (l ++ [dflt])]) vs ls L i a la (Arr (Some (length m)) (Some (length m, length l)) (length l)) l (length m)) as (m' & D & G).
      + apply create. exact H.
      + exact Vi.
      + destruct (create e m vs ls L (l ++ [dflt]) H) as (F & _). pose proof (Forall2_nth _ _ _ F i) as X. cbn [snd fst] in X. rewrite Vi, Qi in X. exact X.
      + reflexivity.
      + apply new_rep. reflexivity.
      + rewrite D. cbn [bind]. eexists. exists []. split; [reflexivity|]. split; [exact G|reflexivity].
    - destruct (the ls i) as [la|] eqn:Ei; [|discriminate St]. destruct (the ls j) as [l|] eqn:E; [|discriminate St]. injection St as <-.
      destruct (lookup _ _ _ _ _ _ _ H Ei) as (a & Vi & Qi & Va & Ra). rewrite Va. cbn [bind].
      destruct (lookup _ _ _ _ _ _ _ H E) as (b & V & Q & Vb & R). rewrite Vb. cbn [bind].
      eexists. exists []. split; [reflexivity|]. split; [|reflexivity]. unfold set_var.
      destruct (Nat.eq_dec i j) as [->|N].
      + assert (la = l) by congruence. assert (a = b) by congruence. subst la a. rewrite !uu, (us vs j _ V), (us ls j _ Q). exact H.
      + assert (H1 : inv e (m, upd vs i (Some null_arr)) (upd ls i (Some [])) (owned (Some a) ++ L)).
        { eapply exchange; [exact H|exact Vi|apply null_rep|reflexivity]. }
        assert (H2 : inv e (m, upd (upd vs i (Some null_arr)) j (Some a)) (upd (upd ls i (Some [])) j (Some la)) (owned (Some b) ++ L)).
        { eapply exchange; [exact H1| |exact Ra|].
          - rewrite nth_error_upd_ne by congruence. exact V.
          - rewrite !app_assoc. apply Permutation_app_tail. apply Permutation_app_comm. }
        assert (Li : i < length (upd (upd vs i (Some null_arr)) j (Some a))).
        { rewrite !upd_length. eapply nth_error_some_lt; exact Vi. }
        destruct (nth_error_ex _ _ Li) as (v & Vv). assert (v = Some null_arr).
        { rewrite nth_error_upd_ne in Vv by exact N. rewrite nth_error_upd_eq in Vv by (rewrite !upd_length in Li; exact Li). congruence. }
        subst v. pose proof (exchange e m _ _ _ L i (Some null_arr) (Some b) (Some l) H2 Vv R (Permutation_refl _)) as G.
        rewrite !(uc _ j i) in G by congruence. rewrite !uu in G. exact G.
    - destruct (the ls i) as [la|] eqn:Ei; [|discriminate St]. injection St as <-.
      destruct (lookup _ _ _ _ _ _ _ H Ei) as (a & Vi & Qi & Va & Ra). rewrite Va. cbn [bind]. unfold ha_clear.
      destruct (remove e m vs ls L i a la (Some null_arr) (Some []) H Vi Ra) as (m' & D & G).
      + right. exists None. auto.
      + rewrite D. cbn [bind]. eexists. exists []. split; [reflexivity|]. split; [exact G|reflexivity].
    - destruct (the ls i) as [la|] eqn:Ei; [|discriminate St]. destruct (k <? length la) eqn:K; [|discriminate St]. apply Nat.ltb_lt in K. injection St as <-.
      destruct (set_at e m vs ls L i la k x H Ei K) as (a & m' & Va & W & G). rewrite Va. cbn [bind]. rewrite W. cbn [bind].
      eexists. exists []. split; [reflexivity|]. split; [exact G|reflexivity].
    - destruct (the ls i) as [la|] eqn:Ei; [|discriminate St]. injection St as <-.
      destruct (lookup _ _ _ _ _ _ _ H Ei) as (a & Vi & Qi & Va & Ra). rewrite Va. cbn [bind]. unfold ha_clear.
      destruct (remove e m vs ls L i a la None None H Vi Ra) as (m' & D & G); [now left|].
      rewrite D. cbn [bind]. eexists. exists []. split; [reflexivity|]. split; [exact G|reflexivity].
  Qed.

  Lemma fa_step_ok s ls L o ls' : inv false s ls L -> list_step ls o = Some ls' -> is_clear o = false ->
    exists s', fa_step s o = Ok s' /\ inv false s' ls' L.
  Proof.
    destruct s as [m vs]. intros H St M. destruct o as [|n x|l|j|j|i j|i j|i l|i j|i|i k x|i]; cbn [list_step fa_step] in *.
    - injection St as <-. eexists. split; [reflexivity|]. eapply append; [exact H|apply null_rep|reflexivity].
    - injection St as <-. unfold fa_new, new_arr. eexists. split; [reflexivity|].
      eapply append; [apply create; exact H| |reflexivity]. rewrite <- (app_nil_r (repeat x n)) at 1. apply new_rep. discriminate.
    - injection St as <-. unfold fa_new, new_arr. eexists. split; [reflexivity|].
      eapply append; [apply create; exact H| |reflexivity]. rewrite <- (app_nil_r l) at 1. apply new_rep. discriminate.
    - destruct (the ls j) as [l|] eqn:E; [|discriminate St]. injection St as <-.
      destruct (lookup _ _ _ _ _ _ _ H E) as (b & V & Q & Va & R). rewrite Va. cbn [bind]. rewrite (read_rep _ _ _ _ R). cbn [bind].
      unfold fa_new, new_arr. eexists. split; [reflexivity|].
      eapply append; [apply create; exact H| |reflexivity]. rewrite <- (app_nil_r l) at 1. apply new_rep. discriminate.
    - destruct (the ls j) as [l|] eqn:E; [|discriminate St]. injection St as <-.
      destruct (lookup _ _ _ _ _ _ _ H E) as (b & V & Q & Va & R). rewrite Va. cbn [bind].
      eexists. split; [reflexivity|]. eapply append; [|exact R|].
      + apply exchange with (L' := owned (Some b) ++ L) (v := Some b) (L := L); [exact H|exact V|apply null_rep|reflexivity].
      + reflexivity.
    - destruct (the ls i) as [la|] eqn:Ei; [|discriminate St]. destruct (the ls j) as [l|] eqn:E; [|discriminate St]. injection St as <-.
      destruct (lookup _ _ _ _ _ _ _ H E) as (b & V & Q & Vb & R). rewrite Vb. cbn [bind].
      assert (H1 : inv false (m, upd vs j (Some null_arr)) (upd ls j (Some [])) (owned (Some b) ++ L)).
      { eapply exchange; [exact H|exact V|apply null_rep|reflexivity]. }
      assert (E1 : exists la', the (upd ls j (Some [])) i = Some la').
      { unfold the in *. destruct (Nat.eq_dec i j) as [->|N].
        - rewrite nth_error_upd_eq by (eapply nth_error_some_lt; exact Q). eauto.
        - rewrite nth_error_upd_ne by exact N. destruct (nth_error ls i) as [[q|]|]; eauto; discriminate. }
      destruct E1 as (la' & E1). destruct (lookup _ _ _ _ _ _ _ H1 E1) as (a & Vi & Qi & Va & Ra). unfold set_var. rewrite Va. cbn [bind].
      unfold fa_clear. destruct (drop false m (upd (upd vs j (Some null_arr)) i (Some b)) (upd (upd ls j (Some [])) i (Some l)) a L) as (m' & D & G).
      + eapply exchange; [exact H1|exact Vi|exact R|]. rewrite !app_assoc. apply Permutation_app_tail. apply Permutation_app_comm.
      + rewrite D. cbn [bind]. eauto.
    - destruct (the ls i) as [la|] eqn:Ei; [|discriminate St]. destruct (the ls j) as [l|] eqn:E; [|discriminate St]. injection St as <-.
      destruct (lookup _ _ _ _ _ _ _ H Ei) as (a & Vi & Qi & Va & Ra).
      destruct (lookup _ _ _ _ _ _ _ H E) as (b & V & Q & Vb & R). rewrite Vb. cbn [bind]. rewrite (read_rep _ _ _ _ R). cbn [bind].
      unfold fa_new, new_arr, fa_clear. rewrite Va. cbn [bind].
      destruct (renew false (m ++ [Some l]) vs ls L i a la (Arr (Some (length m)) None (length l)) l (length m)) as (m' & D & G).
      + apply create. exact H.
      + exact Vi.
      + destruct (create false m vs ls L l H) as (F & _). pose proof (Forall2_nth _ _ _ F i) as X. cbn [snd fst] in X. rewrite Vi, Qi in X. exact X.
      + reflexivity.
      + rewrite <- (app_nil_r l) at 1. apply new_rep. discriminate.
      + rewrite D. cbn [bind]. eauto.
    - destruct (the ls i) as [la|] eqn:Ei; [|discriminate St]. injection St as <-.
      destruct (lookup _ _ _ _ _ _ _ H Ei) as (a & Vi & Qi & Va & Ra). unfold fa_new, new_arr, fa_clear. rewrite Va. cbn [bind].
      destruct (renew false (m ++ [Some l]) vs ls L i a la (Arr (Some (length m)) None (length l)) l (length m)) as (m' & D & G).
      + apply create. exact H.
      + exact Vi.
      + destruct (create false m vs ls L l H) as (F & _). pose proof (Forall2_nth _ _ _ F i) as X. cbn [snd fst] in X. rewrite Vi, Qi in X. exact X.
      + reflexivity.
      + rewrite <- (app_nil_r l) at 1. apply new_rep. discriminate.
      + rewrite D. cbn [bind]. eauto.
    - destruct (the ls i) as [la|] eqn:Ei; [|discriminate St]. destruct (the ls j) as [l|] eqn:E; [|discriminate St]. injection St as <-.
      destruct (lookup _ _ _ _ _ _ _ H Ei) as (a & Vi & Qi & Va & Ra).
      destruct (lookup _ _ _ _ _ _ _ H E) as (b & V & Q & Vb & R). rewrite Vb. cbn [bind]. rewrite Va. cbn [bind].
      pose proof (nth_error_some_lt _ _ _ Vi) as Li. pose proof (nth_error_some_lt _ _ _ V) as Lj.
      destruct (Nat.eq_dec i j) as [->|N].
      + assert (la = l) by congruence. assert (a = b) by congruence. subst la a.
        unfold set_var, var. rewrite nth_error_upd_eq by exact Lj. cbn [bind]. rewrite uu. rewrite nth_error_upd_eq by exact Lj. cbn [bind fa_clear del_arr null_arr beg].
        rewrite uu. rewrite nth_error_upd_eq by exact Lj. cbn [bind fa_clear del_arr null_arr beg]. rewrite !uu.
        rewrite (us vs j _ V), (us ls j _ Q). eauto.
      + unfold set_var, var. rewrite nth_error_upd_ne by congruence. rewrite V. cbn [bind].
        rewrite (nth_error_upd_ne _ j _ i) by congruence. rewrite nth_error_upd_eq by exact Li. cbn [bind fa_clear del_arr null_arr beg].
        rewrite (nth_error_upd_ne _ i _ j) by congruence. rewrite nth_error_upd_eq by (rewrite upd_length; exact Lj). cbn [bind fa_clear del_arr null_arr beg].
        eexists. split; [reflexivity|].
        assert (H1 : inv false (m, upd vs i (Some null_arr)) (upd ls i (Some [])) (owned (Some a) ++ L)).
        { eapply exchange; [exact H|exact Vi|apply null_rep|reflexivity]. }
        assert (H2 : inv false (m, upd (upd vs i (Some null_arr)) j (Some a)) (upd (upd ls i (Some [])) j (Some la)) (owned (Some b) ++ L)).
        { eapply exchange; [exact H1| |exact Ra|].
          - rewrite nth_error_upd_ne by congruence. exact V.
          - rewrite !app_assoc. apply Permutation_app_tail. apply Permutation_app_comm. }
        assert (Vv : nth_error (upd (upd vs i (Some null_arr)) j (Some a)) i = Some (Some null_arr)).
        { rewrite nth_error_upd_ne by exact N. now rewrite nth_error_upd_eq by exact Li. }
        pose proof (exchange false m _ _ _ L i (Some null_arr) (Some b) (Some l) H2 Vv R (Permutation_refl _)) as G.
        rewrite !(uc _ j i) in G by congruence. rewrite !uu in G.
        assert (Z : upd (upd (upd (upd vs i (Some null_arr)) j (Some null_arr)) i (Some b)) j (Some a) = upd (upd vs i (Some b)) j (Some a)).
        { rewrite (uc (upd vs i (Some null_arr)) j i) by congruence. now rewrite !uu. }
        change (arr) with arr in *. fold null_arr. rewrite Z. exact G.
    - discriminate M.
    - destruct (the ls i) as [la|] eqn:Ei; [|discriminate St]. destruct (k <? length la) eqn:K; [|discriminate St]. apply Nat.ltb_lt in K. injection St as <-.
      destruct (set_at false m vs ls L i la k x H Ei K) as (a & m' & Va & W & G). rewrite Va. cbn [bind]. rewrite W. cbn [bind]. eauto.
    - destruct (the ls i) as [la|] eqn:Ei; [|discriminate St]. injection St as <-.
      destruct (lookup _ _ _ _ _ _ _ H Ei) as (a & Vi & Qi & Va & Ra). rewrite Va. cbn [bind]. unfold fa_clear.
      destruct (remove false m vs ls L i a la None None H Vi Ra) as (m' & D & G); [now left|].
      rewrite D. cbn [bind]. eauto.
  Qed.

  Lemma NoDup_app_r {A} (l m : list A) : NoDup (l ++ m) -> NoDup m.
  Proof. induction l as [|a l IH]; cbn; auto. intros H. inversion H; subst. auto. Qed.
  Lemma inv_nil e : inv e ([], []) [] [].
  Proof. split; [constructor|]. split; [constructor|]. intros k. split; [intros (x & X); destruct k; discriminate X|contradiction]. Qed.
  Lemma inv_weak s ls L : inv true s ls L -> inv false s ls L.
  Proof.
    intros (F & N). split; [|exact N]. clear N. induction F as [|[a|] [l|] vs ls R F IH]; constructor; cbn in *; auto.
    destruct R as (R1 & R2 & _). split; [exact R1|]. split; [exact R2|discriminate].
  Qed.
  Lemma ha_run_ok e os : forall s ls L ls', inv e s ls L -> list_run os ls = Some ls' -> (e = true -> without is_move_new os) ->
    exists s' X, a_run (ha_step dflt) os s = Ok s' /\ inv e s' ls' (X ++ L) /\ (without is_move_assign os -> X = []).
  Proof.
    induction os as [|o os IH]; intros s ls L ls' H R M; cbn [list_run a_run] in *.
    - injection R as <-. exists s, []. auto.
    - destruct (list_step ls o) as [ls1|] eqn:E; [|discriminate R].
      destruct (ha_step_ok e s ls L o ls1 H E) as (s1 & X & E1 & H1 & X1).
      { intros Z. specialize (M Z). now inversion M. }
      rewrite E1. cbn [bind]. destruct (IH s1 ls1 (X ++ L) ls' H1 R) as (s' & Y & E2 & H2 & Y1).
      { intros Z. specialize (M Z). now inversion M. }
      exists s', (Y ++ X). split; [exact E2|]. rewrite <- app_assoc. split; [exact H2|].
      intros W. inversion W as [|? ? W1 W2]; subst. rewrite (X1 W1), (Y1 W2). reflexivity.
  Qed.
  Lemma fa_run_ok os : forall s ls L ls', inv false s ls L -> list_run os ls = Some ls' -> without is_clear os ->
    exists s', a_run fa_step os s = Ok s' /\ inv false s' ls' L.
  Proof.
    induction os as [|o os IH]; intros s ls L ls' H R M; cbn [list_run a_run] in *.
    - injection R as <-. exists s. auto.
    - destruct (list_step ls o) as [ls1|] eqn:E; [|discriminate R]. inversion M as [|? ? M1 M2]; subst.
      destruct (fa_step_ok s ls L o ls1 H E M1) as (s1 & E1 & H1). rewrite E1. cbn [bind]. exact (IH s1 ls1 L ls' H1 R M2).
  Qed.
  Lemma a_run_app step os os' (s s' : astate T) : a_run step os s = Ok s' -> a_run step (os ++ os') s = a_run step os' s'.
  Proof. revert s. induction os as [|o os IH]; intros s H; cbn in *; [congruence|]. destruct (step s o); cbn in *; try discriminate H. now apply IH. Qed.

  Lemma inv_shows e s ls L : inv e s ls L -> shows s ls.
  Proof.
    intros (F & _). split; [eapply Forall2_len; exact F|]. intros i. pose proof (Forall2_nth _ _ _ F i) as G.
    destruct (nth_error ls i) as [[l|]|], (nth_error (snd s) i) as [[a|]|]; cbn in G; try contradiction; auto.
    exists a. split; [reflexivity|]. destruct G as (G1 & G2 & _). split; [exact G1|]. intros k x K.
    destruct (beg a) as [b|]; [|subst l; destruct k; discriminate K]. destruct G2 as (ex & X). unfold read_at. cbn [get_arr]. rewrite X. cbn [bind].
    apply rd_some. rewrite nth_error_app1 by (eapply nth_error_some_lt; exact K). exact K.
  Qed.
  Lemma owns_two vs i j a b k : NoDup (owns vs) -> nth_error vs i = Some (Some a) -> nth_error vs j = Some (Some b) ->
    beg a = Some k -> beg b = Some k -> i = j.
  Proof.
    revert i j. induction vs as [|v vs IH]; intros [|i] [|j] N Hi Hj Ba Bb; cbn in Hi, Hj; try discriminate; auto.
    - injection Hi as ->. exfalso. cbn in N. rewrite Ba in N. cbn in N. inversion N as [|? ? NI _]; subst. apply NI. eapply owns_in; [exact Hj|exact Bb].
    - injection Hj as ->. exfalso. cbn in N. rewrite Bb in N. cbn in N. inversion N as [|? ? NI _]; subst. apply NI. eapply owns_in; [exact Hi|exact Ba].
    - f_equal. eapply IH; eauto. cbn in N. fold (owns vs) in N. apply NoDup_app_r in N. exact N.
  Qed.
  Lemma in_owns vs k : In k (owns vs) -> exists i a, nth_error vs i = Some (Some a) /\ beg a = Some k.
  Proof.
    intros H. unfold owns in H. apply in_flat_map in H. destruct H as (v & Hv & Hk). destruct (In_nth_error _ _ Hv) as (i & Hi).
    destruct v as [a|]; [|contradiction]. exists i, a. split; [exact Hi|]. cbn in Hk. destruct (beg a) as [b|]; [|contradiction]. destruct Hk as [->|[]]. reflexivity.
  Qed.
  Lemma inv_no_leak e s ls : inv e s ls [] -> no_leak s.
  Proof.
    intros (_ & N & A). rewrite app_nil_r in *. split.
    - intros k. rewrite (A k). split; [apply in_owns|]. intros (i & a & Hi & B). eapply owns_in; eauto.
    - intros i j a b k Hi Hj Ba Bb. eapply owns_two; eauto.
  Qed.

  Lemma ha_history os ls : list_run os [] = Some ls ->
    exists s, a_run (ha_step dflt) os ([], []) = Ok s /\ shows s ls /\ (without is_move_assign os -> no_leak s).
  Proof.
    intros R. destruct (ha_run_ok false os ([], []) [] [] ls (inv_nil _) R) as (s & X & E & H & W); [discriminate|].
    exists s. split; [exact E|]. split; [eapply inv_shows; exact H|]. intros Z. rewrite (W Z) in H. eapply inv_no_leak; exact H.
  Qed.
  Lemma fa_history (os : list (aop T)) ls : list_run os [] = Some ls -> without is_clear os ->
    exists s, a_run fa_step os ([], []) = Ok s /\ shows s ls /\ no_leak s.
  Proof.
    intros R W. destruct (fa_run_ok os ([], []) [] [] ls (inv_nil _) R W) as (s & E & H).
    exists s. split; [exact E|]. split; [eapply inv_shows; exact H|]. eapply inv_no_leak; exact H.
  Qed.
  Lemma rep_read e (m : mem) a l k : rep e m a l -> k < length l -> exists x, nth_error l k = Some x /\ read_at m (beg a) k = Ok x.
  Proof.
    intros (R1 & R2 & _) K. destruct (nth_error_ex _ _ K) as (x & X). exists x. split; [exact X|].
    destruct (beg a) as [b|]; [|subst l; cbn in K; lia]. destruct R2 as (ex & Y). unfold read_at. cbn [get_arr]. rewrite Y. cbn [bind].
    apply rd_some. rewrite nth_error_app1 by exact K. exact X.
  Qed.
  Lemma ha_get_ok os ls i l : list_run os [] = Some ls -> nth_error ls i = Some (Some l) ->
    exists s a, a_run (ha_step dflt) os ([], []) = Ok s /\ nth_error (snd s) i = Some (Some a) /\
      (forall k, ha_at (fst s) a k = match nth_error l k with Some x => Ok x | None => Throw end) /\
      (forall k x, nth_error l k = Some x -> ha_get (fst s) a k = Ok x).
  Proof.
    intros R Hi. destruct (ha_run_ok false os ([], []) [] [] ls (inv_nil _) R) as ((m & vs) & X & E & H & W); [discriminate|].
    assert (Ht : the ls i = Some l) by (unfold the; now rewrite Hi). destruct (lookup _ _ _ _ _ _ _ H Ht) as (a & V & _ & _ & Rp).
    exists (m, vs), a. split; [exact E|]. split; [exact V|]. cbn [fst]. split.
    - intros k. unfold ha_at, ha_get. destruct Rp as (R1 & R2 & R3). rewrite R1. destruct (k <? length l) eqn:K.
      + apply Nat.ltb_lt in K. destruct (rep_read false m a l k (conj R1 (conj R2 R3)) K) as (x & Hx & Rx). now rewrite Hx, Rx.
      + apply Nat.ltb_ge in K. apply nth_error_None in K. now rewrite K.
    - intros k x K. destruct (rep_read false m a l k Rp) as (y & Hy & Ry); [eapply nth_error_some_lt; exact K|]. unfold ha_get. congruence.
  Qed.
  Lemma ha_ends_ok os ls i l : list_run os [] = Some ls -> without is_move_new os -> nth_error ls i = Some (Some l) ->
    exists s a, a_run (ha_step dflt) os ([], []) = Ok s /\ nth_error (snd s) i = Some (Some a) /\
      ha_iterate (fst s) a = Ok l /\ ha_empty a = (length l =? 0) /\
      (forall l' x, l = l' ++ [x] -> ha_back (fst s) a = Ok x).
  Proof.
    intros R M Hi. destruct (ha_run_ok true os ([], []) [] [] ls (inv_nil _) R) as ((m & vs) & X & E & H & W); [intros _; exact M|].
    assert (Ht : the ls i = Some l) by (unfold the; now rewrite Hi). destruct (lookup _ _ _ _ _ _ _ H Ht) as (a & V & _ & _ & Rp).
    exists (m, vs), a. split; [exact E|]. split; [exact V|]. cbn [fst]. pose proof (read_rep _ _ _ _ Rp) as RR.
    pose proof Rp as (R1 & R2 & R3). specialize (R3 eq_refl). unfold ha_iterate, ha_empty, ha_back. rewrite R3.
    destruct (beg a) as [k|] eqn:B.
    - rewrite Nat.eqb_refl. rewrite R1 in RR. split; [exact RR|]. split; [reflexivity|]. intros l' x ->. rewrite app_length. cbn [length]. rewrite Nat.add_1_r.
      destruct (rep_read _ m a (l' ++ [x]) (length l') Rp) as (y & Y1 & Y2); [rewrite app_length; cbn; lia|]. rewrite nth_last in Y1. rewrite B in Y2. congruence.
    - subst l. split; [reflexivity|]. split; [reflexivity|]. intros l' x Z. destruct l'; discriminate Z.
  Qed.

  (** find_first_of *)
  Lemma find_loop_ok eqb (x : T) l tail : (forall y, eqb y y = true) -> forall n k, k <= length l -> length l - k < n ->
    exists p, find_loop eqb (l ++ x :: tail) k n x = Ok p /\ first_from eqb l k x p.
  Proof.
    intros Rf. induction n as [|n IH]; intros k K N; [lia|]. cbn [find_loop].
    destruct (Nat.eq_dec k (length l)) as [->|D].
    - rewrite (rd_some _ _ x) by (rewrite nth_error_app2, Nat.sub_diag by lia; reflexivity). cbn [bind]. rewrite Rf. exists (length l). split; [reflexivity|].
      split; [lia|]. split; [lia|]. intros y Y. apply nth_error_some_lt in Y. lia.
    - destruct (nth_error_ex l k) as (y & Y); [lia|]. rewrite (rd_some _ _ y) by (rewrite nth_error_app1 by lia; exact Y). cbn [bind].
      destruct (eqb y x) eqn:Q.
      + exists k. split; [reflexivity|]. split; [lia|]. split; [lia|]. intros z Z. congruence.
      + destruct (IH (S k)) as (p & P1 & P2 & P3 & P4); [lia|lia|]. exists p. split; [exact P1|]. split; [lia|]. split; [|exact P4].
        intros j z J Z. destruct (Nat.eq_dec j k) as [->|]; [congruence|]. apply (P3 j z); [lia|exact Z].
  Qed.
  Lemma ha_find_ok eqb os ls i l x start : (forall y, eqb y y = true) ->
    list_run os [] = Some ls -> without is_move_new os -> nth_error ls i = Some (Some l) -> start <= length l ->
    exists s a, a_run (ha_step dflt) os ([], []) = Ok s /\ nth_error (snd s) i = Some (Some a) /\
      (has_spare (fst s) a ->
       exists m p, ha_find eqb (fst s) a start x = Ok (m, p) /\ first_from eqb l start x p /\ shows (m, snd s) ls) /\
      ((forall la, get_arr (fst s) (beg a) = Ok la -> length la = cnt a) -> ha_find eqb (fst s) a start x = UB).
  Proof.
    intros Rf R M Hi St. destruct (ha_run_ok true os ([], []) [] [] ls (inv_nil _) R) as ((m & vs) & X & E & H & W); [intros _; exact M|].
    assert (Ht : the ls i = Some l) by (unfold the; now rewrite Hi). destruct (lookup _ _ _ _ _ _ _ H Ht) as (a & V & Q & _ & Rp).
    exists (m, vs), a. split; [exact E|]. split; [exact V|]. cbn [fst snd].
    pose proof Rp as (R1 & R2 & R3). specialize (R3 eq_refl). split.
    - intros (la & Ga & Gl). unfold ha_find. rewrite R3. destruct (beg a) as [k|] eqn:B; [|discriminate Ga]. destruct R2 as (ex & Y).
      cbn [get_arr] in Ga. rewrite Y in Ga. injection Ga as <-. rewrite R1, app_length in Gl.
      destruct ex as [|z [|z' ex]]; cbn in Gl; try lia. pose proof (nth_error_some_lt _ _ _ Y) as Lk.
      unfold write_at. cbn [get_arr]. rewrite Y. cbn [bind]. rewrite wr_ok by (rewrite app_length; cbn; lia). cbn [bind].
      assert (U : upd (l ++ [z]) (length l) x = l ++ [x]) by (clear; induction l as [|q l IH]; cbn; congruence).
      rewrite U, nth_error_upd_eq by exact Lk. cbn [bind].
      destruct (find_loop_ok eqb x l [] Rf (S (length (l ++ [x]))) start) as (p & P1 & P2); [exact St|rewrite app_length; lia|].
      rewrite P1. cbn [bind]. exists (upd m k (Some (l ++ [x]))), p. split; [reflexivity|]. split; [exact P2|].
      assert (H1 : inv true (m, upd vs i None) (upd ls i None) (k :: X ++ [])).
      { eapply exchange; [exact H|exact V|exact I|]. cbn [owned]. rewrite B. reflexivity. }
      apply rewrite_loose with (l := l ++ [x]) in H1.
      assert (Li : i < length vs) by (eapply nth_error_some_lt; exact V).
      pose proof (exchange true _ _ _ _ (X ++ []) i None (Some a) (Some l) H1 (nth_error_upd_eq _ _ _ Li)) as G.
      rewrite !uu, (us vs i (Some a) V), (us ls i _ Q) in G. eapply inv_shows. apply G.
      + split; [exact R1|]. rewrite B. split; [|intros _; exact R3]. exists [x]. now rewrite nth_error_upd_eq by exact Lk.
      + cbn [owned]. rewrite B. reflexivity.
    - intros NS. unfold ha_find. rewrite R3. destruct (beg a) as [k|] eqn:B; [|reflexivity]. destruct R2 as (ex & Y).
      unfold write_at. cbn [get_arr] in *. rewrite Y in *. cbn [bind]. specialize (NS _ eq_refl). rewrite R1 in NS.
      unfold wr. rewrite NS. replace (length l <? length l) with false by (symmetry; apply Nat.ltb_ge; lia). reflexivity.
  Qed.
  Lemma list_run_app os os' (ls ls' : list (option (list T))) : list_run os ls = Some ls' -> list_run (os ++ os') ls = list_run os' ls'.
  Proof. revert ls. induction os as [|o os IH]; intros ls H; cbn in *; [congruence|]. destruct (list_step ls o); [now apply IH|discriminate H]. Qed.
  (** Who has the spare element. *)
  Lemma new_spare os ls n x : list_run os [] = Some ls ->
    exists s a, a_run (ha_step dflt) (os ++ [New n x]) ([], []) = Ok s /\ nth_error (snd s) (length ls) = Some (Some a) /\ has_spare (fst s) a.
  Proof.
    intros R. destruct (ha_run_ok false os ([], []) [] [] ls (inv_nil _) R) as ((m & vs) & X & E & (F & _) & W); [discriminate|].
    rewrite (a_run_app _ _ _ _ _ E). cbn. do 2 eexists. split; [reflexivity|]. cbn [fst snd]. split.
    - rewrite <- (Forall2_len _ _ _ F). cbn [snd]. apply nth_last.
    - eexists. cbn [beg get_arr cnt]. rewrite nth_last. split; [reflexivity|]. rewrite app_length. cbn. lia.
  Qed.
  Lemma assign_spare os ls i l l0 : list_run os [] = Some ls -> the ls i = Some l0 ->
    exists s a, a_run (ha_step dflt) (os ++ [AssignList i l]) ([], []) = Ok s /\ nth_error (snd s) i = Some (Some a) /\ has_spare (fst s) a.
  Proof.
    intros R Ht. destruct (ha_run_ok false os ([], []) [] [] ls (inv_nil _) R) as ((m & vs) & X & E & H & W); [discriminate|].
    rewrite (a_run_app _ _ _ _ _ E). cbn [a_run ha_step].
    destruct (lookup _ _ _ _ _ _ _ H Ht) as (a & V & Q & Va & Rp). rewrite Va. cbn [bind]. unfold ha_new, new_arr, ha_clear.
    pose proof (create _ _ _ _ _ (l ++ [dflt]) H) as H0.
    assert (H1 : inv false (m ++ [Some (l ++ [dflt])], upd vs i (Some null_arr)) (upd ls i (Some [])) (owned (Some a) ++ length m :: X ++ [])).
    { eapply exchange; [exact H0|exact V|apply null_rep|]. reflexivity. }
    cbn [owned] in H1. destruct (beg a) as [k|] eqn:B.
    - destruct (discard _ _ _ _ _ _ H1) as (m' & D & _ & M'). rewrite D. cbn [bind]. do 2 eexists. split; [reflexivity|]. cbn [fst snd]. unfold set_var.
      split; [apply nth_error_upd_eq; eapply nth_error_some_lt; exact V|]. exists (l ++ [dflt]). cbn [beg cnt get_arr]. subst m'.
      destruct H1 as (_ & N & _). cbn [snd] in N. rewrite nth_error_upd_ne, nth_last.
      + split; [reflexivity|]. rewrite app_length. cbn. lia.
      + intros Z. apply NoDup_app_r in N. inversion N as [|? ? NI _]; subst. apply NI. now left.
    - cbn [del_arr bind]. do 2 eexists. split; [reflexivity|]. cbn [fst snd]. unfold set_var.
      split; [apply nth_error_upd_eq; eapply nth_error_some_lt; exact V|]. exists (l ++ [dflt]). cbn [beg cnt get_arr]. rewrite nth_last.
      split; [reflexivity|]. rewrite app_length. cbn. lia.
  Qed.
  Lemma copy_find eqb os ls j l start x : list_run os [] = Some ls -> the ls j = Some l ->
    exists s a, a_run (ha_step dflt) (os ++ [CopyNew j]) ([], []) = Ok s /\ nth_error (snd s) (length ls) = Some (Some a) /\
      ha_find eqb (fst s) a start x = UB.
  Proof.
    intros R Ht. destruct (ha_run_ok false os ([], []) [] [] ls (inv_nil _) R) as ((m & vs) & X & E & H & W); [discriminate|].
    rewrite (a_run_app _ _ _ _ _ E). cbn [a_run ha_step].
    destruct (lookup _ _ _ _ _ _ _ H Ht) as (a & V & Q & Va & Rp). rewrite Va. cbn [bind]. rewrite (read_rep _ _ _ _ Rp). cbn [bind].
    unfold ha_from, new_arr. do 2 eexists. split; [reflexivity|]. cbn [fst snd]. destruct H as (F & _).
    split; [rewrite <- (Forall2_len _ _ _ F); apply nth_last|]. unfold ha_find, write_at. cbn [fin get_arr]. rewrite nth_last. cbn [bind]. unfold wr.
    replace (length l <? length l) with false by (symmetry; apply Nat.ltb_ge; lia). reflexivity.
  Qed.
  (** The move constructor. *)
  Lemma move_new_breaks os ls j l eqb start x : list_run os [] = Some ls -> without is_move_new os -> the ls j = Some l -> l <> [] ->
    exists s a b, a_run (ha_step dflt) (os ++ [MoveNew j]) ([], []) = Ok s /\
      nth_error (snd s) (length ls) = Some (Some a) /\ nth_error (snd s) j = Some (Some b) /\
      cnt a = length l /\ ha_iterate (fst s) a = UB /\ ha_back (fst s) a = UB /\ ha_find eqb (fst s) a start x = UB /\ ha_empty a = false /\
      cnt b = 0 /\ ha_iterate (fst s) b = UB /\ ha_empty b = false.
  Proof.
    intros R M Ht NE. destruct (ha_run_ok true os ([], []) [] [] ls (inv_nil _) R) as ((m & vs) & X & E & H & W); [intros _; exact M|].
    rewrite (a_run_app _ _ _ _ _ E). cbn [a_run ha_step].
    destruct (lookup _ _ _ _ _ _ _ H Ht) as (a & V & Q & Va & R1 & R2 & R3). rewrite Va. cbn [bind beg fin cnt]. specialize (R3 eq_refl).
    destruct (beg a) as [k|] eqn:B; [|congruence].
    do 3 eexists. split; [reflexivity|]. cbn [fst snd]. destruct H as (F & _). pose proof (Forall2_len _ _ _ F) as Len. cbn [snd] in Len.
    pose proof (nth_error_some_lt _ _ _ V) as Lj.
    split; [rewrite <- Len; unfold set_var; rewrite <- (upd_length vs j (Some (Arr None (fin a) 0))); apply nth_last|].
    split; [unfold set_var; rewrite nth_error_app1 by (rewrite upd_length; exact Lj); apply nth_error_upd_eq; exact Lj|].
    rewrite R3. cbn. auto 10.
  Qed.
  (** Move assignment: the old array is never deleted. *)
  Lemma move_assign_leaks os ls i j la lb os' ls' : list_run os [] = Some ls -> i <> j -> the ls i = Some la -> la <> [] -> the ls j = Some lb ->
    list_run (os ++ MoveAssign i j :: os') [] = Some ls' ->
    exists s, a_run (ha_step dflt) (os ++ MoveAssign i j :: os') ([], []) = Ok s /\ exists k, alive (fst s) k /\
      forall v a, nth_error (snd s) v = Some (Some a) -> beg a <> Some k.
  Proof.
    intros R N Ha NE Hb R'. destruct (ha_run_ok false os ([], []) [] [] ls (inv_nil _) R) as ((m & vs) & X & E & H & W); [discriminate|].
    rewrite (a_run_app _ _ _ _ _ E). rewrite (list_run_app _ _ _ _ R) in R'.
    destruct (lookup _ _ _ _ _ _ _ H Ha) as (a & Vi & Qi & Va & R1 & R2 & R3). destruct (lookup _ _ _ _ _ _ _ H Hb) as (b & V & Q & Vb & Rb).
    destruct (beg a) as [k|] eqn:B; [|congruence].
    cbn [a_run ha_step list_run list_step] in *. rewrite Ha, Hb in R'. rewrite Va, Vb. cbn [bind].
    assert (H1 : inv false (m, upd vs j (Some null_arr)) (upd ls j (Some [])) (owned (Some b) ++ X ++ [])).
    { eapply exchange; [exact H|exact V|apply null_rep|reflexivity]. }
    assert (H2 : inv false (m, upd (upd vs j (Some null_arr)) i (Some b)) (upd (upd ls j (Some [])) i (Some lb)) (k :: X ++ [])).
    { eapply exchange; [exact H1| |exact Rb|].
      - rewrite nth_error_upd_ne by exact N. exact Vi.
      - cbn [owned]. rewrite B. cbn [app]. apply Permutation_middle. }
    destruct (ha_run_ok false os' _ _ _ ls' H2 R') as (s & Y & E2 & (_ & N2 & A2) & _); [discriminate|]. exists s. split; [exact E2|].
    exists k. split; [apply A2; apply in_or_app; right; apply in_or_app; right; now left|].
    intros v c Vv Bc. apply owns_in with (k := k) in Vv; [|exact Bc].
    apply in_split in Vv. destruct Vv as (o1 & o2 & O1). rewrite O1, <- app_assoc in N2. apply NoDup_remove_2 in N2. apply N2.
    apply in_or_app. right. cbn. apply in_or_app. right. apply in_or_app. right. now left.
  Qed.
  Lemma ha_bool_is os ls i l : list_run os [] = Some ls -> the ls i = Some l -> l <> [] ->
    exists s a, a_run (ha_step dflt) os ([], []) = Ok s /\ nth_error (snd s) i = Some (Some a) /\ ha_bool a = false.
  Proof.
    intros R Ha NE. destruct (ha_run_ok false os ([], []) [] [] ls (inv_nil _) R) as ((m & vs) & X & E & H & W); [discriminate|].
    destruct (lookup _ _ _ _ _ _ _ H Ha) as (a & Vi & Qi & Va & R1 & R2 & R3). exists (m, vs), a. split; [exact E|]. split; [exact Vi|].
    unfold ha_bool. destruct (beg a); [reflexivity|congruence].
  Qed.

  (** fixed_array *)
  Lemma fa_get_ok (os : list (aop T)) ls i l : list_run os [] = Some ls -> without is_clear os -> nth_error ls i = Some (Some l) ->
    exists s a, a_run fa_step os ([], []) = Ok s /\ nth_error (snd s) i = Some (Some a) /\
      (forall k x, nth_error l k = Some x -> fa_get (fst s) a k = Ok x) /\
      (forall l' x, l = l' ++ [x] -> fa_back (fst s) a = Ok x).
  Proof.
    intros R M Hi. destruct (fa_run_ok os ([], []) [] [] ls (inv_nil _) R M) as ((m & vs) & E & H).
    assert (Ht : the ls i = Some l) by (unfold the; now rewrite Hi). destruct (lookup _ _ _ _ _ _ _ H Ht) as (a & V & _ & _ & Rp).
    exists (m, vs), a. split; [exact E|]. split; [exact V|]. cbn [fst]. split.
    - intros k x K. destruct (rep_read false m a l k Rp) as (y & Hy & Ry); [eapply nth_error_some_lt; exact K|]. unfold fa_get. congruence.
    - intros l' x ->. unfold fa_back. pose proof Rp as (R1 & _). rewrite R1, app_length. cbn [length]. rewrite Nat.add_1_r. cbn [Nat.eqb]. cbn [Nat.sub]. rewrite Nat.sub_0_r.
      destruct (rep_read _ m a (l' ++ [x]) (length l') Rp) as (y & Y1 & Y2); [rewrite app_length; cbn; lia|]. rewrite nth_last in Y1. congruence.
  Qed.
  Lemma fa_release_ok (os : list (aop T)) ls i l : list_run os [] = Some ls -> without is_clear os -> the ls i = Some l ->
    exists s s' p, a_run fa_step os ([], []) = Ok s /\ fa_release s i = Ok (s', p) /\ shows s' (upd ls i (Some [])) /\
      read_n (fst s') p (length l) = Ok l /\ (forall v a, nth_error (snd s') v = Some (Some a) -> p <> None -> beg a <> p).
  Proof.
    intros R M Ht. destruct (fa_run_ok os ([], []) [] [] ls (inv_nil _) R M) as ((m & vs) & E & H).
    destruct (lookup _ _ _ _ _ _ _ H Ht) as (a & V & Q & Va & Rp).
    assert (H1 : inv false (m, upd vs i (Some null_arr)) (upd ls i (Some [])) (owned (Some a) ++ [])).
    { eapply exchange; [exact H|exact V|apply null_rep|]. rewrite app_nil_r. reflexivity. }
    do 3 eexists. split; [exact E|]. cbn [fa_release]. rewrite Va. cbn [bind]. split; [reflexivity|]. cbn [fst snd].
    split; [eapply inv_shows; exact H1|]. split.
    - rewrite <- (read_rep _ _ _ _ Rp). destruct Rp as (<- & _). reflexivity.
    - intros v b Vv NP B. destruct (beg a) as [k|] eqn:Ba; [|congruence]. destruct H1 as (_ & N & _). cbn [owned snd] in N. rewrite Ba in N.
      apply owns_in with (k := k) in Vv; [|exact B]. cbn [snd] in Vv. apply in_split in Vv. destruct Vv as (o1 & o2 & O1). unfold set_var in O1. rewrite O1, <- app_assoc in N.
      apply NoDup_remove_2 in N. apply N. apply in_or_app. right. apply in_or_app. right. now left.
  Qed.
  Lemma fa_clear_breaks (os : list (aop T)) ls i l : list_run os [] = Some ls -> without is_clear os -> the ls i = Some l -> l <> [] ->
    a_run fa_step (os ++ [ClearA i; Destroy i]) ([], []) = UB /\
    a_run fa_step (os ++ [ClearA i; ClearA i]) ([], []) = UB /\
    (forall j, the ls j <> None -> a_run fa_step (os ++ [ClearA i; CopyAssign i j]) ([], []) = UB) /\
    (forall j, j <> i -> the ls j <> None -> a_run fa_step (os ++ [ClearA i; MoveAssign i j]) ([], []) = UB).
  Proof.
    intros R M Ht NE. destruct (fa_run_ok os ([], []) [] [] ls (inv_nil _) R M) as ((m & vs) & E & H).
    destruct (lookup _ _ _ _ _ _ _ H Ht) as (a & V & Q & Va & Rp). pose proof Rp as (R1 & R2 & _). pose proof (nth_error_some_lt _ _ _ V) as Li.
    destruct (beg a) as [k|] eqn:B; [|congruence]. destruct R2 as (ex & Y). pose proof (nth_error_some_lt _ _ _ Y) as Lk.
    rewrite !(a_run_app _ _ _ _ _ E). cbn [a_run fa_step]. rewrite Va. cbn [bind]. unfold fa_clear. rewrite B. cbn [bind del_arr]. rewrite Y. cbn [bind].
    assert (V' : var (set_var vs i (Arr (Some k) None 0)) i = Ok (Arr (Some k) None 0)) by (unfold var, set_var; now rewrite nth_error_upd_eq by exact Li).
    cbn [fa_step]. rewrite V'. cbn [bind]. unfold fa_clear. cbn [bind beg del_arr]. rewrite nth_error_upd_eq by exact Lk. cbn [bind]. split; [reflexivity|]. split; [reflexivity|].
    assert (Z : forall j, the ls j <> None -> exists b, var (set_var vs i (Arr (Some k) None 0)) j = Ok b /\
      exists l, read_n (upd m k None) (beg b) (cnt b) = Ok l).
    { intros j Hj. destruct (Nat.eq_dec j i) as [->|D]; [exists (Arr (Some k) None 0); split; [exact V'|]; exists []; reflexivity|].
      destruct (the ls j) as [lb|] eqn:Ej; [|congruence]. destruct (lookup _ _ _ _ _ _ _ H Ej) as (b & Vj & Qj & Vbj & Rb).
      exists b. split; [unfold var, set_var in *; rewrite nth_error_upd_ne by exact D; exact Vbj|]. exists lb. rewrite <- (read_rep _ _ _ _ Rb).
      unfold read_n. destruct (cnt b =? 0); [reflexivity|]. destruct (beg b) as [kb|] eqn:Bb; [|reflexivity]. cbn [get_arr].
      rewrite nth_error_upd_ne; [reflexivity|]. intros ->. apply D. symmetry. destruct H as (_ & N & _). cbn [snd] in N. rewrite app_nil_r in N.
      eapply owns_two; [exact N|exact V|exact Vj|exact B|exact Bb]. }
    split.
    - intros j Hj. rewrite (a_run_app _ _ _ _ _ E). cbn [a_run fa_step]. rewrite Va. cbn [bind]. unfold fa_clear. rewrite B. cbn [bind del_arr]. rewrite Y. cbn [bind].
      destruct (Z j Hj) as (b & Vb & lb & Rb). cbn [fa_step]. rewrite Vb. cbn [bind]. rewrite Rb. unfold fa_new, new_arr. cbn [bind]. rewrite V'. cbn [bind]. unfold fa_clear. cbn [bind beg del_arr].
      rewrite nth_error_app1 by (rewrite upd_length; exact Lk). rewrite nth_error_upd_eq by exact Lk. reflexivity.
    - intros j D Hj. rewrite (a_run_app _ _ _ _ _ E). cbn [a_run fa_step]. rewrite Va. cbn [bind]. unfold fa_clear. rewrite B. cbn [bind del_arr]. rewrite Y. cbn [bind].
      destruct (Z j Hj) as (b & Vb & lb & Rb). cbn [fa_step]. rewrite Vb. cbn [bind].
      assert (V2 : var (set_var (set_var vs i (Arr (Some k) None 0)) j null_arr) i = Ok (Arr (Some k) None 0)).
      { unfold var, set_var. rewrite nth_error_upd_ne by congruence. now rewrite nth_error_upd_eq by exact Li. }
      rewrite V2. cbn [bind]. unfold fa_clear. cbn [bind beg del_arr]. rewrite nth_error_upd_eq by exact Lk. reflexivity.
  Qed.

  (** carray *)
  Lemma assign_to_ok (args : list T) : forall (pre mid rest : list T), length mid = length args ->
    assign_to (pre ++ mid ++ rest) (length pre) args = Ok (pre ++ args ++ rest).
  Proof.
    induction args as [|x args IH]; intros pre mid rest H.
    - destruct mid; [reflexivity|discriminate H].
    - destruct mid as [|y mid]; [discriminate H|]. cbn [assign_to app]. rewrite wr_ok by (rewrite app_length; cbn; lia). cbn [bind].
      assert (U : upd (pre ++ y :: mid ++ rest) (length pre) x = (pre ++ [x]) ++ mid ++ rest).
      { clear. induction pre as [|z pre IH]; cbn; [reflexivity|]. now rewrite IH. }
      rewrite U. replace (S (length pre)) with (length (pre ++ [x])) by (rewrite app_length; cbn; lia).
      rewrite IH by (cbn in H; lia). now rewrite <- app_assoc.
  Qed.
  Lemma ca_make_ok (zero : T) n args : length args <= n -> ca_make zero n args = Ok (args ++ repeat zero (n - length args)).
  Proof.
    intros L. unfold ca_make. replace n with (length args + (n - length args)) at 1 by lia. rewrite repeat_app.
    apply (assign_to_ok args [] (repeat zero (length args)) (repeat zero (n - length args))). apply repeat_length.
  Qed.
  Lemma assign_to_over (args : list T) : forall (l : list T) k, k <= length l -> length l < k + length args -> assign_to l k args = UB.
  Proof.
    induction args as [|x args IH]; intros l k K L; cbn in L; [lia|]. cbn [assign_to]. destruct (Nat.eq_dec k (length l)) as [->|D].
    - unfold wr. replace (length l <? length l) with false by (symmetry; apply Nat.ltb_ge; lia). reflexivity.
    - rewrite wr_ok by lia. cbn [bind]. apply IH; rewrite upd_length; lia.
  Qed.
  Lemma ca_make_over (zero : T) n args : n < length args -> ca_make zero n args = UB.
  Proof. intros L. apply assign_to_over; rewrite repeat_length; lia. Qed.
  Lemma ca_at_ok (l : list T) k : ca_at l k = match nth_error l k with Some x => Ok x | None => Throw end.
  Proof.
    unfold ca_at. destruct (k <? length l) eqn:K.
    - apply Nat.ltb_lt in K. destruct (nth_error_ex _ _ K) as (x & X). rewrite X. now apply rd_some.
    - apply Nat.ltb_ge in K. apply nth_error_None in K. now rewrite K.
  Qed.
  Lemma ca_back_ok (l : list T) x : ca_back (l ++ [x]) = Ok x /\ ca_front (x :: l) = Ok x.
  Proof. split; [|reflexivity]. unfold ca_back. rewrite app_length. cbn. rewrite Nat.add_sub. apply rd_some, nth_last. Qed.
  Lemma ca_rloop_ub (l : list T) : forall p n, 0 < p -> p <= length l -> p <= n -> ca_rloop l p 0 n = UB.
  Proof.
    induction p as [|p IH]; intros n P L N; [lia|]. destruct n as [|n]; [lia|]. cbn [ca_rloop Nat.eqb]. destruct p as [|p]; [reflexivity|].
    destruct (nth_error_ex l p) as (x & X); [lia|]. rewrite (rd_some _ _ _ X). cbn [bind]. rewrite IH by lia. reflexivity.
  Qed.
  Lemma ca_reverse_ub (l : list T) : l <> [] -> ca_reverse l = UB.
  Proof. intros N. unfold ca_reverse, ca_rbegin, ca_rend. apply ca_rloop_ub; destruct l; cbn; try congruence; lia. Qed.
  Lemma ca_rfirst_is (l : list T) x y : ca_rfirst (l ++ [x; y]) = Ok x.
  Proof. unfold ca_rfirst, ca_rbegin. rewrite app_length. cbn. replace (length l + 2) with (S (S (length l))) by lia. apply rd_some. rewrite nth_error_app2, Nat.sub_diag by lia. reflexivity. Qed.
End ArraysProofs.

Lemma c206_carray_get_l :
  forall (U : Type) (l : list U) k x, (nth_error l k = Some x -> ca_get l k = Ok x) /\
  length (ca_fill l x) = length l /\ (k < length l -> ca_get (ca_fill l x) k = Ok x).
Proof.
  intros U l k x. split; [intros H; unfold ca_get, rd; now rewrite H|]. split; [apply repeat_length|].
  intros H. unfold ca_get, ca_fill, rd. rewrite nth_error_repeat by exact H. reflexivity.
Qed.
