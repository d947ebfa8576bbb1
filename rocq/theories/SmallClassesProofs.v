(** Proofs about SmallClasses.v. *)
From Verif Require Import Common OldRange SmallClasses SpecSmallClasses.
From Verif Require ErasedProofs.
Open Scope Z_scope.

(** * CFile *)
Lemma nth_error_upd : forall T (l : list T) i j x, nth_error (upd l i x) j = if (j =? i)%nat then (match nth_error l i with Some _ => Some x | None => None end) else nth_error l j.
Proof.
  intros T l. induction l as [|a l IH]; intros i j x.
  - cbn. destruct (j =? i)%nat eqn:E; destruct i, j; reflexivity.
  - destruct i, j; cbn; try reflexivity. apply IH.
Qed.
Lemma get_alive : forall s i, alive s i -> exists p, get_obj s i = Ok p /\ nth_error (c_objs s) i = Some (Some p).
Proof. intros s i [p H]. exists p. unfold get_obj. rewrite H. auto. Qed.

Definition cinv (s : cst) : Prop := forall i f, owns s i f -> is_open s f /\ forall j, owns s j f -> j = i.

Definition close_file (s : cst) (i : nat) (p : option nat) : cst :=
  mk_cst (match p with None => c_files s | Some f => upd (c_files s) f false end) (upd (c_objs s) i (Some None)).
Lemma cf_close_eq : forall s i p, cinv s -> nth_error (c_objs s) i = Some (Some p) -> cf_close s i = Ok (close_file s i p).
Proof.
  intros s i p V H. unfold cf_close, get_obj. rewrite H. cbn [bind]. destruct p as [f|]; [|reflexivity].
  unfold fclose. cbn [set_obj c_files c_objs]. destruct (V i f H) as [Q _]. unfold is_open in Q. rewrite Q. reflexivity.
Qed.
Lemma cf_reset_eq : forall s i p f, cinv s -> nth_error (c_objs s) i = Some (Some p) ->
  cf_reset s i f = Ok (mk_cst (c_files (close_file s i p)) (upd (c_objs s) i (Some f))).
Proof.
  intros s i p f V H. unfold cf_reset, get_obj. rewrite H. cbn [bind]. destruct p as [g|].
  - rewrite (cf_close_eq s i (Some g) V H). cbn [bind]. unfold set_obj, close_file. cbn [c_files c_objs]. now rewrite ErasedProofs.upd_upd.
  - reflexivity.
Qed.
Lemma upd_same_id : forall T (l : list T) i x, nth_error l i = Some x -> upd l i x = l.
Proof. intros T l. induction l as [|a l IH]; intros i x H; destruct i; cbn in *; try congruence. now rewrite IH. Qed.
Lemma move_assign_nothing : forall s d i, alive s d -> alive s i -> cstep s (CMoveAssign d i) = Ok s.
Proof.
  intros s d i D A. destruct (get_alive s i A) as [pi [E1 _]]. destruct D as [p D]. cbn [cstep]. rewrite E1. cbn [bind].
  unfold cf_release, get_obj. rewrite D. cbn [bind]. unfold cf_reset, get_obj. unfold set_obj at 1. cbn [c_objs].
  rewrite nth_error_upd, Nat.eqb_refl, D. cbn [bind]. unfold set_obj. cbn [c_files c_objs]. rewrite ErasedProofs.upd_upd, upd_same_id by exact D. now destruct s.
Qed.

(** What each allowed operation does. *)
Definition effect (s : cst) (o : cop) (s' : cst) : Prop :=
  match o with
  | COpen => s' = mk_cst (c_files s ++ [true]) (c_objs s)
  | CClient f => s' = mk_cst (upd (c_files s) f false) (c_objs s)
  | CMake f => s' = mk_cst (c_files s) (c_objs s ++ [Some f])
  | CMove i => exists p, nth_error (c_objs s) i = Some (Some p) /\ s' = mk_cst (c_files s) (upd (c_objs s) i (Some None) ++ [Some p])
  | CMoveAssign d i => s' = s
  | CRelease i => exists p, nth_error (c_objs s) i = Some (Some p) /\ s' = mk_cst (c_files s) (upd (c_objs s) i (Some None))
  | CReset i f => exists p, nth_error (c_objs s) i = Some (Some p) /\ s' = mk_cst (c_files (close_file s i p)) (upd (c_objs s) i (Some f))
  | CReset0 i | CClose i => exists p, nth_error (c_objs s) i = Some (Some p) /\ s' = close_file s i p
  | CDestroy i => exists p, nth_error (c_objs s) i = Some (Some p) /\ s' = mk_cst (c_files (close_file s i p)) (upd (c_objs s) i None)
  end.
Lemma step_effect : forall s o, cinv s -> allowed s o -> exists s', cstep s o = Ok s' /\ effect s o s'.
Proof.
  intros s o V A. destruct o as [|f|f|i|d i|i|i f|i|i|i]; cbn [allowed] in A.
  - eexists. split; reflexivity.
  - destruct A as [A _]. unfold is_open in A. cbn [cstep]. unfold fclose. rewrite A. eexists. split; reflexivity.
  - eexists. split; reflexivity.
  - destruct (get_alive s i A) as [p [E H]]. cbn [cstep]. rewrite E. eexists. split; [reflexivity|]. exists p. auto.
  - exists s. split; [now apply move_assign_nothing|reflexivity].
  - destruct (get_alive s i A) as [p [E H]]. cbn [cstep]. unfold cf_release. rewrite E. eexists. split; [reflexivity|]. exists p. auto.
  - destruct A as [[p H] _]. cbn [cstep]. rewrite (cf_reset_eq s i p f V H). eexists. split; [reflexivity|]. exists p. auto.
  - destruct A as [p H]. cbn [cstep]. rewrite (cf_close_eq s i p V H). eexists. split; [reflexivity|]. exists p. auto.
  - destruct A as [p H]. cbn [cstep]. rewrite (cf_close_eq s i p V H). eexists. split; [reflexivity|]. exists p. auto.
  - destruct A as [p H]. cbn [cstep]. rewrite (cf_close_eq s i p V H). cbn [bind]. eexists. split; [reflexivity|]. exists p. split; [exact H|].
    unfold close_file. cbn [c_files c_objs]. now rewrite ErasedProofs.upd_upd.
Qed.
Lemma owns_upd : forall fs fs' os i v j f, owns (mk_cst fs (upd os i v)) j f -> (j = i /\ v = Some (Some f)) \/ (j <> i /\ owns (mk_cst fs' os) j f).
Proof.
  intros fs fs' os i v j f H. unfold owns in *. cbn [c_objs] in *. rewrite nth_error_upd in H. destruct (Nat.eqb_spec j i) as [E|N].
  - left. split; [exact E|]. destruct (nth_error os i); congruence.
  - right. auto.
Qed.
Lemma owns_snoc : forall fs fs' os v j f, owns (mk_cst fs (os ++ [v])) j f -> (j = length os /\ v = Some (Some f)) \/ owns (mk_cst fs' os) j f.
Proof.
  intros fs fs' os v j f H. unfold owns in *. cbn [c_objs] in *. destruct (Nat.lt_ge_cases j (length os)) as [L|L].
  - rewrite nth_error_app1 in H by exact L. auto.
  - rewrite nth_error_app2 in H by exact L. left. destruct (j - length os)%nat eqn:D; cbn in H; [split; [lia|congruence]|destruct n; discriminate].
Qed.
Lemma open_upd : forall fs os f g, is_open (mk_cst (upd fs g false) os) f <-> is_open (mk_cst fs os) f /\ f <> g.
Proof.
  intros fs os f g. unfold is_open. cbn [c_files]. rewrite nth_error_upd. destruct (Nat.eqb_spec f g) as [E|N].
  - split; [destruct (nth_error fs g); discriminate|]. intros [_ Q]. contradiction.
  - tauto.
Qed.
Lemma open_close : forall s i p os f, is_open (mk_cst (c_files (close_file s i p)) os) f <-> is_open s f /\ p <> Some f.
Proof.
  intros s i p os f. unfold close_file. cbn [c_files]. destruct p as [g|].
  - rewrite open_upd. unfold is_open. cbn [c_files]. split; intros [A B]; (split; [exact A|congruence]).
  - unfold is_open. cbn [c_files]. split; [intro; split; [assumption|discriminate]|tauto].
Qed.
Lemma owns_conv : forall fs s j f, owns (mk_cst fs (c_objs s)) j f <-> owns s j f.
Proof. reflexivity. Qed.

(** Releasing or replacing what object i holds, in general. *)
Lemma inv_replace : forall s i p v fs, cinv s -> nth_error (c_objs s) i = Some (Some p) ->
  (forall f, is_open s f -> p <> Some f -> nth_error fs f = Some true) ->
  (forall f, v = Some (Some f) -> nth_error fs f = Some true /\ unowned s f) ->
  cinv (mk_cst fs (upd (c_objs s) i v)).
Proof.
  intros s i p v fs V H K N j f W. destruct (owns_upd _ (c_files s) _ _ _ _ _ W) as [[-> E] | [D W']].
  - destruct (N f E) as [Q U]. split; [exact Q|]. intros k Wk. destruct (owns_upd _ (c_files s) _ _ _ _ _ Wk) as [[-> _] | [_ Wk']]; [reflexivity|]. destruct (U k Wk').
  - destruct (V j f W') as [Q U]. split.
    + apply K; [exact Q|]. intros ->. apply D. symmetry. apply U. exact H.
    + intros k Wk. destruct (owns_upd _ (c_files s) _ _ _ _ _ Wk) as [[-> E] | [_ Wk']]; [|exact (U k Wk')].
      destruct (N f E) as [_ U']. destruct (U' j W').
Qed.
Lemma effect_inv : forall s o s', cinv s -> allowed s o -> effect s o s' -> cinv s'.
Proof.
  intros s o s' V A E. destruct o as [|g|g|i|d i|i|i g|i|i|i]; cbn [effect allowed] in *.
  - subst. intros i f W. destruct (V i f W) as [Q U]. split; [|exact U]. unfold is_open in *. cbn [c_files]. rewrite nth_error_app1; [exact Q|]. apply nth_error_Some. congruence.
  - subst. intros i f W. destruct (V i f W) as [Q U]. split; [|exact U]. apply open_upd. split; [exact Q|]. intros ->. destruct A as [_ A]. destruct (A i W).
  - subst. intros i f W. destruct (owns_snoc _ (c_files s) _ _ _ _ W) as [[-> Eg] | W'].
    + injection Eg as ->. destruct A as [Q U]. split; [exact Q|]. intros j Wj. destruct (owns_snoc _ (c_files s) _ _ _ _ Wj) as [[-> _] | Wj']; [reflexivity|]. destruct (U j Wj').
    + destruct (V i f W') as [Q U]. split; [exact Q|]. intros j Wj. destruct (owns_snoc _ (c_files s) _ _ _ _ Wj) as [[-> Eg] | Wj']; [|exact (U j Wj')].
      injection Eg as ->. destruct A as [_ U']. destruct (U' i W').
  - destruct E as [p [H ->]]. intros j f W.
    assert (B : forall k, owns (mk_cst (c_files s) (upd (c_objs s) i (Some None) ++ [Some p])) k f ->
      (k = length (c_objs s) /\ owns s i f) \/ (k <> i /\ owns s k f)).
    { intros k Wk. destruct (owns_snoc _ (c_files s) _ _ _ _ Wk) as [[-> Ep] | Wk'].
      - left. rewrite ErasedProofs.upd_length_e. split; [reflexivity|]. unfold owns. congruence.
      - right. destruct (owns_upd _ (c_files s) _ _ _ _ _ Wk') as [[_ Q] | Q]; [discriminate|exact Q]. }
    destruct (B j W) as [[Ej W'] | [D W']]; (destruct (V _ f W') as [Q U]; split; [exact Q|]; intros k Wk; destruct (B k Wk) as [[Ek Wk'] | [Dk Wk']]).
    + congruence.
    + exfalso. apply Dk. exact (U k Wk').
    + exfalso. apply D. symmetry. exact (U i Wk').
    + exact (U k Wk').
  - subst. exact V.
  - destruct E as [p [H ->]]. apply (inv_replace s i p _ _ V H); [intros f Q _; exact Q|discriminate].
  - destruct E as [p [H ->]]. destruct A as [_ A]. apply (inv_replace s i p _ _ V H).
    + intros f Q D. apply (open_close s i p (c_objs s) f). auto.
    + intros f [=->]. destruct A as [Q U]. split; [|exact U]. apply (open_close s i p (c_objs s) f). split; [exact Q|]. intros ->. exact (U i H).
  - destruct E as [p [H ->]]. apply (inv_replace s i p _ _ V H); [intros f Q D; apply (open_close s i p (c_objs s) f); auto|discriminate].
  - destruct E as [p [H ->]]. apply (inv_replace s i p _ _ V H); [intros f Q D; apply (open_close s i p (c_objs s) f); auto|discriminate].
  - destruct E as [p [H ->]]. apply (inv_replace s i p _ _ V H); [intros f Q D; apply (open_close s i p (c_objs s) f); auto|discriminate].
Qed.
Lemma reachable_inv : forall s, reachable s -> cinv s.
Proof.
  intros s R. induction R as [|s o s' R IH A E].
  - intros i f W. unfold owns in W. destruct i; discriminate.
  - destruct (step_effect s o IH A) as [s1 [E1 F]]. rewrite E in E1. injection E1 as <-. exact (effect_inv s o s' IH A F).
Qed.
Lemma close_iff : forall s o s' f, reachable s -> allowed s o -> cstep s o = Ok s' -> is_open s f ->
  (~ is_open s' f <-> o = CClient f \/ exists i, owns s i f /\ closes_what o i).
Proof.
  intros s o s' f R A E Q. pose proof (reachable_inv s R) as V. destruct (step_effect s o V A) as [s1 [E1 F]]. rewrite E in E1. injection E1 as <-. clear E.
  unfold closes_what. destruct o as [|g|g|i|d i|i|i g|i|i|i]; cbn [effect allowed] in *.
  - subst. split.
    + intro N. exfalso. apply N. unfold is_open in *. cbn [c_files]. rewrite nth_error_app1; [exact Q|]. apply nth_error_Some. congruence.
    + intros [C | [i [_ [C | [C | [C | [g C]]]]]]]; discriminate.
  - subst. rewrite open_upd. split.
    + intro N. left. destruct (Nat.eq_dec f g) as [-> | D]; [reflexivity|]. destruct N. split; assumption.
    + intros [C | [i [_ [C | [C | [C | [h C]]]]]]]; try discriminate. injection C as ->. tauto.
  - subst. split; [intro N; destruct N; exact Q|]. intros [C | [i [_ [C | [C | [C | [h C]]]]]]]; discriminate.
  - destruct F as [p [H ->]]. split; [intro N; destruct N; exact Q|]. intros [C | [j [_ [C | [C | [C | [h C]]]]]]]; discriminate.
  - subst. split; [intro N; destruct N; exact Q|]. intros [C | [j [_ [C | [C | [C | [h C]]]]]]]; discriminate.
  - destruct F as [p [H ->]]. split; [intro N; destruct N; exact Q|]. intros [C | [j [_ [C | [C | [C | [h C]]]]]]]; discriminate.
  - destruct F as [p [H ->]]. rewrite open_close. split.
    + intro N. right. exists i. split; [|right; right; right; exists g; reflexivity]. unfold owns. rewrite H. destruct p as [h|]; [destruct (Nat.eq_dec h f) as [-> | D]; [reflexivity|]|]; destruct N; (split; [exact Q|congruence]).
    + intros [C | [j [W [C | [C | [C | [h C]]]]]]]; try discriminate. injection C as -> ->. unfold owns in W. rewrite H in W. injection W as ->. tauto.
  - destruct F as [p [H ->]]. change (close_file s i p) with (mk_cst (c_files (close_file s i p)) (c_objs (close_file s i p))). rewrite open_close. split.
    + intro N. right. exists i. split; [|right; left; reflexivity]. unfold owns. rewrite H. destruct p as [h|]; [destruct (Nat.eq_dec h f) as [-> | D]; [reflexivity|]|]; destruct N; (split; [exact Q|congruence]).
    + intros [C | [j [W [C | [C | [C | [h C]]]]]]]; try discriminate. injection C as ->. unfold owns in W. rewrite H in W. injection W as ->. tauto.
  - destruct F as [p [H ->]]. change (close_file s i p) with (mk_cst (c_files (close_file s i p)) (c_objs (close_file s i p))). rewrite open_close. split.
    + intro N. right. exists i. split; [|left; reflexivity]. unfold owns. rewrite H. destruct p as [h|]; [destruct (Nat.eq_dec h f) as [-> | D]; [reflexivity|]|]; destruct N; (split; [exact Q|congruence]).
    + intros [C | [j [W [C | [C | [C | [h C]]]]]]]; try discriminate. injection C as ->. unfold owns in W. rewrite H in W. injection W as ->. tauto.
  - destruct F as [p [H ->]]. rewrite open_close. split.
    + intro N. right. exists i. split; [|right; right; left; reflexivity]. unfold owns. rewrite H. destruct p as [h|]; [destruct (Nat.eq_dec h f) as [-> | D]; [reflexivity|]|]; destruct N; (split; [exact Q|congruence]).
    + intros [C | [j [W [C | [C | [C | [h C]]]]]]]; try discriminate. injection C as ->. unfold owns in W. rewrite H in W. injection W as ->. tauto.
Qed.
Lemma owns_upd_other : forall fs os i v j f, j <> i -> nth_error os j = Some (Some (Some f)) -> owns (mk_cst fs (upd os i v)) j f.
Proof. intros fs os i v j f D H. unfold owns. cbn [c_objs]. rewrite nth_error_upd. destruct (Nat.eqb_spec j i); [contradiction|exact H]. Qed.
(** The object holding a file afterwards. *)
Lemma owner_after : forall s o s' i f, reachable s -> allowed s o -> cstep s o = Ok s' -> owns s i f ->
  owns s' i f \/ (o = CMove i /\ owns s' (length (c_objs s)) f) \/ o = CRelease i \/ (closes_what o i /\ ~ is_open s' f).
Proof.
  intros s o s' i f R A E W. pose proof (reachable_inv s R) as V. destruct (V i f W) as [Q U].
  pose proof (close_iff s o s' f R A E Q) as CI. destruct (step_effect s o V A) as [s1 [E1 F]]. rewrite E in E1. injection E1 as <-. clear E.
  assert (CL : closes_what o i -> ~ is_open s' f) by (intro C; apply CI; right; exists i; auto).
  destruct o as [|g|g|k|d k|k|k g|k|k|k]; cbn [effect allowed] in *.
  - subst. left. exact W.
  - subst. left. exact W.
  - subst. left. unfold owns in *. cbn [c_objs]. rewrite nth_error_app1; [exact W|]. apply nth_error_Some. congruence.
  - destruct F as [p [H ->]]. destruct (Nat.eq_dec i k) as [-> | D].
    + right. left. split; [reflexivity|]. unfold owns in *. rewrite H in W. injection W as ->. cbn [c_objs]. rewrite nth_error_app2; rewrite ErasedProofs.upd_length_e; [|lia]. now rewrite Nat.sub_diag.
    + left. unfold owns in *. cbn [c_objs]. rewrite nth_error_app1; [rewrite nth_error_upd; destruct (Nat.eqb_spec i k); [contradiction|exact W]|]. rewrite ErasedProofs.upd_length_e. apply nth_error_Some. congruence.
  - subst. left. exact W.
  - destruct F as [p [H ->]]. destruct (Nat.eq_dec i k) as [-> | D]; [auto|]. left. now apply owns_upd_other.
  - destruct F as [p [H ->]]. destruct (Nat.eq_dec i k) as [-> | D]; [|left; now apply owns_upd_other].
    assert (C : closes_what (CReset k g) k) by (right; right; right; exists g; reflexivity). right. right. right. split; [exact C|exact (CL C)].
  - destruct F as [p [H ->]]. destruct (Nat.eq_dec i k) as [-> | D]; [|left; now apply owns_upd_other].
    assert (C : closes_what (CReset0 k) k) by (right; left; reflexivity). right. right. right. split; [exact C|exact (CL C)].
  - destruct F as [p [H ->]]. destruct (Nat.eq_dec i k) as [-> | D]; [|left; now apply owns_upd_other].
    assert (C : closes_what (CClose k) k) by (left; reflexivity). right. right. right. split; [exact C|exact (CL C)].
  - destruct F as [p [H ->]]. destruct (Nat.eq_dec i k) as [-> | D]; [|left; now apply owns_upd_other].
    assert (C : closes_what (CDestroy k) k) by (right; right; left; reflexivity). right. right. right. split; [exact C|exact (CL C)].
Qed.
(** What the object that was used holds afterwards. *)
Lemma used_after : forall s i, reachable s -> alive s i ->
  (forall f, may_hand_over s f -> exists s', cstep s (CReset i f) = Ok s' /\ nth_error (c_objs s') i = Some (Some f)) /\
  (forall o, o = CMove i \/ o = CRelease i \/ o = CReset0 i \/ o = CClose i -> exists s', cstep s o = Ok s' /\ nth_error (c_objs s') i = Some (Some None)) /\
  exists s', cstep s (CDestroy i) = Ok s' /\ nth_error (c_objs s') i = Some None.
Proof.
  intros s i R A. pose proof (reachable_inv s R) as V. split; [|split].
  - intros f F. destruct (step_effect s (CReset i f) V (conj A F)) as [s' [E [p [H ->]]]]. eexists. split; [exact E|]. cbn [c_objs]. now rewrite nth_error_upd, Nat.eqb_refl, H.
  - intros o O1. assert (AO : allowed s o) by (destruct O1 as [-> | [-> | [-> | ->]]]; exact A). destruct (step_effect s o V AO) as [s' [E F]]. exists s'. split; [exact E|].
    destruct O1 as [-> | [-> | [-> | ->]]]; destruct F as [p [H ->]]; cbn [close_file c_objs].
    + rewrite nth_error_app1; [now rewrite nth_error_upd, Nat.eqb_refl, H|]. rewrite ErasedProofs.upd_length_e. apply nth_error_Some. congruence.
    + now rewrite nth_error_upd, Nat.eqb_refl, H.
    + now rewrite nth_error_upd, Nat.eqb_refl, H.
    + now rewrite nth_error_upd, Nat.eqb_refl, H.
  - destruct (step_effect s (CDestroy i) V A) as [s' [E [p [H ->]]]]. eexists. split; [exact E|]. cbn [c_objs]. now rewrite nth_error_upd, Nat.eqb_refl, H.
Qed.

(** * zip_container *)
Lemma make_variables : forall st cs ls, held st cs ls -> zip_make st (map ZVariable cs) = Ok (st, map (fun c => (c, 0%nat)) cs, combine cs (map (@length Z) ls)).
Proof. intros st cs ls H. induction H as [|c l cs ls E H IH]; [reflexivity|]. cbn [map zip_make combine]. rewrite E, IH. reflexivity. Qed.
Lemma equal_at : forall st cs ls k, held st cs ls -> z_equal st (map (fun c => (c, k)) cs) (combine cs (map (@length Z) ls)) = Ok (forallb (fun l => (k =? length l)%nat) ls).
Proof.
  intros st cs ls k H. induction H as [|c l cs ls E H IH]; [reflexivity|]. cbn [map z_equal combine forallb]. unfold z_elems. cbn [fst snd]. rewrite E. cbn [bind].
  destruct (k =? length l)%nat; [exact IH|reflexivity].
Qed.
Lemma read_at : forall st cs ls k, held st cs ls -> Forall (fun l => (k < length l)%nat) ls -> z_read st (map (fun c => (c, k)) cs) = Ok (row ls k).
Proof.
  intros st cs ls k H. induction H as [|c l cs ls E H IH]; intro F; [reflexivity|]. cbn [map z_read]. unfold z_elems. cbn [fst snd]. rewrite E. cbn [bind].
  unfold rd. rewrite (nth_error_nth' l 0 (Forall_inv F)). cbn [bind]. rewrite (IH (Forall_inv_tail F)). reflexivity.
Qed.
Lemma inc_at : forall st cs ls k, held st cs ls -> Forall (fun l => (k < length l)%nat) ls -> z_inc st (map (fun c => (c, k)) cs) = Ok (map (fun c => (c, S k)) cs).
Proof.
  intros st cs ls k H. induction H as [|c l cs ls E H IH]; intro F; [reflexivity|]. cbn [map z_inc]. unfold z_elems. cbn [fst snd]. rewrite E. cbn [bind].
  destruct (Nat.ltb_spec k (length l)) as [L|L]; [|pose proof (Forall_inv F) as Q; cbn beta in Q; lia]. rewrite (IH (Forall_inv_tail F)). reflexivity.
Qed.
Lemma read_short : forall st cs ls k, held st cs ls -> Exists (fun l => (length l <= k)%nat) ls -> z_read st (map (fun c => (c, k)) cs) = UB.
Proof.
  intros st cs ls k H. induction H as [|c l cs ls E H IH]; intro X; [inversion X|]. cbn [map z_read]. unfold z_elems. cbn [fst snd]. rewrite E. cbn [bind]. unfold rd.
  destruct (nth_error l k) eqn:N; [|reflexivity]. cbn [bind]. rewrite IH; [reflexivity|]. inversion X as [? ? L|? ? X']; [|exact X']. subst. apply nth_error_None in L. congruence.
Qed.
Lemma loop_equal : forall st cs ls n, held st cs ls -> ls <> [] -> Forall (fun l => length l = n) ls -> forall j k fuel, (k + j = n)%nat -> (j < fuel)%nat ->
  z_loop fuel st (map (fun c => (c, k)) cs) (combine cs (map (@length Z) ls)) = Ok (map (row ls) (seq k j)).
Proof.
  intros st cs ls n H NE F. induction j as [|j IH]; intros k fuel E L; (destruct fuel as [|fuel]; [lia|]); cbn [z_loop]; rewrite (equal_at st cs ls k H); cbn [bind].
  - assert (Q : forallb (fun l => (k =? length l)%nat) ls = true). { apply forallb_forall. intros l I1. rewrite Forall_forall in F. rewrite (F l I1). apply Nat.eqb_eq. lia. }
    rewrite Q. reflexivity.
  - assert (Q : forallb (fun l => (k =? length l)%nat) ls = false). { destruct ls as [|l ls]; [congruence|]. cbn [forallb]. rewrite (Forall_inv F). destruct (Nat.eqb_spec k n); [lia|reflexivity]. }
    rewrite Q. assert (S1 : Forall (fun l => (k < length l)%nat) ls) by (eapply Forall_impl; [|exact F]; cbn beta; intros; lia).
    rewrite (read_at st cs ls k H S1). cbn [bind]. rewrite (inc_at st cs ls k H S1). cbn [bind]. rewrite (IH (S k) fuel) by lia. reflexivity.
Qed.
Lemma loop_unequal : forall st cs ls a b, held st cs ls -> In a ls -> In b ls -> (length a < length b)%nat -> Forall (fun l => (length a <= length l)%nat) ls ->
  forall j k fuel, (k + j = length a)%nat -> (j < fuel)%nat ->
  z_loop fuel st (map (fun c => (c, k)) cs) (combine cs (map (@length Z) ls)) = UB.
Proof.
  intros st cs ls a b H Ia Ib Lab M. induction j as [|j IH]; intros k fuel E L; (destruct fuel as [|fuel]; [lia|]); cbn [z_loop]; rewrite (equal_at st cs ls k H); cbn [bind].
  - assert (Q : forallb (fun l => (k =? length l)%nat) ls = false). { apply not_true_iff_false. rewrite forallb_forall. intro C. specialize (C b Ib). apply Nat.eqb_eq in C. lia. }
    rewrite Q. rewrite (read_short st cs ls k H); [reflexivity|]. apply Exists_exists. exists a. split; [exact Ia|lia].
  - assert (Q : forallb (fun l => (k =? length l)%nat) ls = false). { apply not_true_iff_false. rewrite forallb_forall. intro C. specialize (C b Ib). apply Nat.eqb_eq in C. lia. }
    rewrite Q. assert (S1 : Forall (fun l => (k < length l)%nat) ls) by (eapply Forall_impl; [|exact M]; cbn beta; intros; lia).
    rewrite (read_at st cs ls k H S1). cbn [bind]. rewrite (inc_at st cs ls k H S1). cbn [bind]. now rewrite (IH (S k) fuel) by lia.
Qed.
Lemma shortest : forall (ls : list (list Z)), ls <> [] -> exists a, In a ls /\ Forall (fun l => (length a <= length l)%nat) ls.
Proof.
  induction ls as [|l ls IH]; intro N; [congruence|]. destruct ls as [|l2 ls]; [exists l; split; [left; reflexivity|repeat constructor]|].
  destruct IH as [a [Ia F]]; [discriminate|]. destruct (Nat.le_ge_cases (length a) (length l)) as [L|L].
  - exists a. split; [right; exact Ia|constructor; assumption].
  - exists l. split; [left; reflexivity|]. constructor; [lia|]. eapply Forall_impl; [|exact F]. cbn beta. intros. lia.
Qed.

(** Temporaries. *)
Definition dead (st : store) (it : nat * nat) : Prop := exists l, nth_error st (fst it) = Some (false, l).
Lemma make_grows : forall args st st' bs es, zip_make st args = Ok (st', bs, es) -> exists more, st' = st ++ more.
Proof.
  induction args as [|a args IH]; intros st st' bs es E.
  - injection E as <- _ _. exists []. now rewrite app_nil_r.
  - destruct a as [c|l]; cbn [zip_make] in E.
    + destruct (nth_error st c) as [[[|] l]|]; try discriminate. destruct (zip_make st args) as [[[s1 b1] e1]| | |] eqn:Z1; try discriminate. injection E as <- _ _. exact (IH _ _ _ _ Z1).
    + destruct (zip_make (st ++ [(false, l)]) args) as [[[s1 b1] e1]| | |] eqn:Z1; try discriminate. injection E as <- _ _. destruct (IH _ _ _ _ Z1) as [m ->]. exists ((false, l) :: m). now rewrite <- app_assoc.
Qed.
Lemma make_dead : forall args st st' bs es l, zip_make st args = Ok (st', bs, es) -> In (ZTemporary l) args -> Exists (dead st') bs /\ length bs = length es.
Proof.
  assert (LEN : forall args st st' bs es, zip_make st args = Ok (st', bs, es) -> length bs = length es).
  { induction args as [|a args IH]; intros st st' bs es E; [now injection E as _ <- <-|]. destruct a as [c|l]; cbn [zip_make] in E.
    - destruct (nth_error st c) as [[[|] l]|]; try discriminate. destruct (zip_make st args) as [[[s1 b1] e1]| | |] eqn:Z1; try discriminate. injection E as _ <- <-. cbn [length]. f_equal. exact (IH _ _ _ _ Z1).
    - destruct (zip_make (st ++ [(false, l)]) args) as [[[s1 b1] e1]| | |] eqn:Z1; try discriminate. injection E as _ <- <-. cbn [length]. f_equal. exact (IH _ _ _ _ Z1). }
  intros args st st' bs es l E I1. split; [|exact (LEN _ _ _ _ _ E)]. revert st st' bs es E I1. induction args as [|a args IH]; intros st st' bs es E I1; [destruct I1|].
  destruct a as [c|l1]; cbn [zip_make] in E.
  - destruct I1 as [I1|I1]; [discriminate|]. destruct (nth_error st c) as [[[|] lc]|]; try discriminate. destruct (zip_make st args) as [[[s1 b1] e1]| | |] eqn:Z1; try discriminate. injection E as <- <- <-.
    apply Exists_cons_tl. exact (IH _ _ _ _ Z1 I1).
  - destruct (zip_make (st ++ [(false, l1)]) args) as [[[s1 b1] e1]| | |] eqn:Z1; try discriminate. injection E as <- <- <-.
    apply Exists_cons_hd. destruct (make_grows _ _ _ _ _ Z1) as [m ->]. exists l1. cbn [fst]. rewrite <- app_assoc, nth_error_app2, Nat.sub_diag by lia. reflexivity.
Qed.
Lemma elems_cases : forall st x, (exists l, z_elems st x = Ok l) \/ z_elems st x = UB.
Proof. intros st x. unfold z_elems. destruct (nth_error st (fst x)) as [[[|] l]|]; eauto. Qed.
Lemma elems_dead : forall st x, dead st x -> z_elems st x = UB.
Proof. intros st x [l H]. unfold z_elems. now rewrite H. Qed.
Lemma read_dead : forall st a, Exists (dead st) a -> z_read st a = UB.
Proof.
  intros st a. induction a as [|x a IH]; intro X; [inversion X|]. cbn [z_read]. destruct (elems_cases st x) as [[l E] | E]; rewrite E; [|reflexivity]. cbn [bind].
  unfold rd. destruct (nth_error l (snd x)); [|reflexivity]. cbn [bind]. rewrite IH; [reflexivity|]. inversion X as [? ? D|? ? X']; [|exact X']. subst. apply elems_dead in D. congruence.
Qed.
Lemma equal_dead : forall st a b, length a = length b -> Exists (dead st) a -> z_equal st a b = UB \/ z_equal st a b = Ok false.
Proof.
  intros st a. induction a as [|x a IH]; intros b L X; [inversion X|]. destruct b as [|y b]; [discriminate|]. cbn [z_equal].
  destruct (elems_cases st x) as [[l E] | E]; rewrite E; [|left; reflexivity]. cbn [bind]. destruct (elems_cases st y) as [[l' E'] | E']; rewrite E'; [|left; reflexivity]. cbn [bind].
  destruct (snd x =? snd y)%nat; [|right; reflexivity]. apply IH; [cbn in L; lia|]. inversion X as [? ? D|? ? X']; [|exact X']. subst. apply elems_dead in D. congruence.
Qed.
Lemma loop_dead : forall st args st' bs es l fuel, zip_make st args = Ok (st', bs, es) -> In (ZTemporary l) args -> z_loop (S fuel) st' bs es = UB.
Proof.
  intros st args st' bs es l fuel E I1. destruct (make_dead _ _ _ _ _ _ E I1) as [X L]. cbn [z_loop]. destruct (equal_dead _ _ _ L X) as [Q | Q]; rewrite Q; [reflexivity|]. cbn [bind]. now rewrite (read_dead _ _ X).
Qed.

(** * Iterators *)
Lemma random_ok : forall len p o, 0 <= p <= len -> inside len p o -> random_op len p o = Ok (after p o, value_of p o).
Proof.
  intros len p o P N. unfold inside in N. destruct o as [| | | |n|n|n|n]; cbn [random_op target after value_of] in *; unfold it_inc, it_dec, it_add.
  1-4: match goal with |- context [if ?c then _ else _] => replace c with true by lia end; reflexivity.
  - replace ((0 <=? p + n) && (p + n <=? len)) with true by lia. reflexivity.
  - replace ((0 <=? p + - n) && (p + - n <=? len)) with true by lia. cbn [bind]. replace (p + - n) with (p - n) by lia. reflexivity.
  - replace ((0 <=? p + n) && (p + n <=? len)) with true by lia. reflexivity.
  - replace ((0 <=? p + - n) && (p + - n <=? len)) with true by lia. cbn [bind]. replace (p + - n) with (p - n) by lia. reflexivity.
Qed.
Lemma random_out : forall len p o, 0 <= p <= len -> ~ inside len p o -> random_op len p o = UB.
Proof.
  intros len p o P N. unfold inside in N. destruct o as [| | | |n|n|n|n]; cbn [random_op target] in *; unfold it_inc, it_dec, it_add;
  match goal with |- context [if ?c then _ else _] => replace c with false by lia end; reflexivity.
Qed.
Lemma wrap_random : forall len p o, 0 <= p <= len -> len < 2 ^ 63 -> wrap_op len p o = random_op len p o.
Proof.
  intros len p o P L. destruct o as [| | | |n|n|n|n]; try reflexivity.
  - cbn [wrap_op]. destruct (Z.eqb_spec n ptrdiff_min) as [E|E]; [|reflexivity]. symmetry. apply random_out; [exact P|]. unfold inside. cbn [target]. rewrite E. unfold ptrdiff_min. lia.
  - cbn [wrap_op]. destruct (Z.eqb_spec n ptrdiff_min) as [E|E]; [|reflexivity]. symmetry. apply random_out; [exact P|]. unfold inside. cbn [target]. rewrite E. unfold ptrdiff_min. lia.
Qed.

(** * Logic *)
Lemma fold_and : forall l b, fold_left andb l b = true <-> b = true /\ Forall (fun x => x = true) l.
Proof.
  induction l as [|x l IH]; intro b; cbn [fold_left]; [split; [auto|tauto]|]. rewrite IH, andb_true_iff. split; [intros [[A B] F]; auto|]. intros [A F]. inversion F. auto.
Qed.
Lemma fold_or : forall l b, fold_left orb l b = true <-> b = true \/ In true l.
Proof.
  induction l as [|x l IH]; intro b; cbn [fold_left In]; [tauto|]. rewrite IH, orb_true_iff. tauto.
Qed.

(** * The statements of the properties *)

Lemma c314_safe :
  forall s o, reachable s -> allowed s o -> exists s', cstep s o = Ok s'.
Proof.
  intros s o R A. destruct (step_effect s o (reachable_inv s R) A) as [s' [E _]]. exists s'. exact E.
Qed.

Lemma c314_one_owner :
  forall s i j f, reachable s -> owns s i f -> is_open s f /\ (owns s j f -> j = i).
Proof.
  intros s i j f R W. destruct (reachable_inv s R i f W) as [Q U]. split; [exact Q|]. exact (U j).
Qed.

Lemma c314_closed_exactly :
  forall s o s' f, reachable s -> allowed s o -> cstep s o = Ok s' -> is_open s f ->
  (~ is_open s' f <-> o = CClient f \/ exists i, owns s i f /\ closes_what o i).
Proof.
  exact close_iff.
Qed.

Lemma c314_kept :
  forall s o s' i f, reachable s -> allowed s o -> cstep s o = Ok s' -> owns s i f ->
  owns s' i f \/ (o = CMove i /\ owns s' (length (c_objs s)) f) \/ o = CRelease i \/ (closes_what o i /\ ~ is_open s' f).
Proof.
  exact owner_after.
Qed.

Lemma c314_after :
  forall s i, reachable s -> alive s i ->
  (forall f, may_hand_over s f -> exists s', cstep s (CReset i f) = Ok s' /\ nth_error (c_objs s') i = Some (Some f)) /\
  (forall o, o = CMove i \/ o = CRelease i \/ o = CReset0 i \/ o = CClose i -> exists s', cstep s o = Ok s' /\ nth_error (c_objs s') i = Some (Some None)) /\
  exists s', cstep s (CDestroy i) = Ok s' /\ nth_error (c_objs s') i = Some None.
Proof.
  exact used_after.
Qed.

Lemma c314_move_assign_refuted :
  forall s d i, alive s d -> alive s i -> cstep s (CMoveAssign d i) = Ok s.
Proof.
  exact move_assign_nothing.
Qed.

Lemma c315_random :
  forall len p o, 0 <= p <= len -> (inside len p o -> random_op len p o = Ok (after p o, value_of p o)) /\ (~ inside len p o -> random_op len p o = UB).
Proof.
  intros len p o P. split; [exact (random_ok len p o P)|exact (random_out len p o P)].
Qed.

Lemma c315_wrap :
  forall len p o, 0 <= p <= len -> len < 2 ^ 63 -> (inside len p o -> wrap_op len p o = Ok (after p o, value_of p o)) /\ (~ inside len p o -> wrap_op len p o = UB).
Proof.
  intros len p o P L. rewrite (wrap_random len p o P L). split; [exact (random_ok len p o P)|exact (random_out len p o P)].
Qed.

Lemma c315_chain :
  forall op len p a b, (op = random_op len \/ (op = wrap_op len /\ len < 2 ^ 63)) -> 0 <= p <= len -> value_of p a = Self -> inside len p a -> inside len (after p a) b ->
  then_op op p a b = Ok (after (after p a) b).
Proof.
  intros op len p a b O1 P V A B.
assert (E : forall p o, 0 <= p <= len -> inside len p o -> op p o = Ok (after p o, value_of p o)).
{ intros q o Q N. destruct O1 as [-> | [-> L]]; [now apply random_ok|rewrite wrap_random by assumption; now apply random_ok]. }
unfold then_op. rewrite (E p a P A). cbn [bind]. rewrite V. rewrite (E (after p a) b); [reflexivity| |exact B].
unfold inside in A. destruct a; cbn [after target] in *; try lia.
Qed.

Lemma c315_pointer_partial :
  forall len p o, 0 <= p <= len -> o <> OpDec -> o <> OpPostInc -> (forall n, o <> OpMinus n) ->
  exists r, pointer_op len p o = Some r /\ (inside len p o -> r = Ok (after p o, value_of p o)) /\ (~ inside len p o -> r = UB).
Proof.
  intros len p o P D I1 M. exists (random_op len p o). split; [|split; [exact (random_ok len p o P)|exact (random_out len p o P)]].
destruct o as [| | | |n|n|n|n]; try reflexivity; congruence.
Qed.

Lemma c315_pointer_refuted :
  (forall len p, 0 <= p < len -> pointer_op len p OpPostInc = Some (Ok (p + 1, GoneIt))) /\
  (forall len p b, 1 < p <= len -> then_op (fun p o => match pointer_op len p o with Some r => r | None => UB end) p OpDec OpDec = Ok (p - 1) /\
     (0 <= p < len -> then_op (fun p o => match pointer_op len p o with Some r => r | None => UB end) p OpPostInc b = UB)) /\
  (forall len p n, 0 <= p - n <= len -> pointer_const_sub_assign len p n = Ok (p, NewIt (p - n))) /\
  forall len p n, pointer_op len p (OpMinus n) = None.
Proof.
  split; [|split; [|split]].
- intros len p P. cbn [pointer_op]. unfold it_inc. replace ((0 <=? p) && (p <? len)) with true by lia. reflexivity.
- intros len p b P. split.
  + unfold then_op. cbn [pointer_op]. unfold it_dec. replace ((0 <? p) && (p <=? len)) with true by lia. cbn [bind]. replace ((0 <? p - 1) && (p - 1 <=? len)) with true by lia. reflexivity.
  + intro Q. unfold then_op. cbn [pointer_op]. unfold it_inc. replace ((0 <=? p) && (p <? len)) with true by lia. reflexivity.
- intros len p n P. unfold pointer_const_sub_assign, it_add. replace ((0 <=? p + - n) && (p + - n <=? len)) with true by lia. cbn [bind]. replace (p + - n) with (p - n) by lia. reflexivity.
- reflexivity.
Qed.

Lemma c316_checks :
  forall exceptions debug e test,
  is_check exceptions e test tt (daw_throw_on_false exceptions e test) /\
  is_check exceptions e (negb test) tt (daw_throw_on_true exceptions e test) /\
  is_check exceptions e (negb debug || test) tt (dbg_throw_on_false exceptions debug e test) /\
  is_check exceptions e (negb debug || negb test) tt (dbg_throw_on_true exceptions debug e test).
Proof.
  intros [|] [|] e [|]; cbv; repeat split; intros; try reflexivity; congruence.
Qed.

Lemma c316_values :
  forall exceptions debug e p,
  is_check exceptions e (negb (p =? 0)) p (daw_throw_on_null_or_return exceptions e p) /\
  is_check exceptions e (negb debug || negb (p =? 0)) p (dbg_throw_on_null_or_return exceptions debug e p) /\
  forall (T : Type) (v : T) test, is_check exceptions e test v (daw_throw_on_false_or_return exceptions e v test).
Proof.
  intros exceptions debug e p. unfold is_check, daw_throw_on_null_or_return, dbg_throw_on_null_or_return, daw_throw_on_false_or_return, daw_throw.
split; [|split]; [| |intros T v test; destruct test, exceptions; repeat split; intros; cbn in *; congruence]; destruct (p =? 0), debug, exceptions; cbn; repeat split; intros; congruence.
Qed.

Lemma c316_preconditions :
  forall exceptions e c,
  is_check exceptions e c tt (precondition_check exceptions (Some e) c) /\
  (c = true -> precondition_check exceptions None c = Returned tt) /\ (c = false -> precondition_check exceptions None c = Aborted).
Proof.
  intros [|] e [|]; cbv; repeat split; intros; try reflexivity; congruence.
Qed.

Lemma c316_dbg_precondition_refuted :
  forall exceptions e, exceptions = true -> dbg_precondition_check true e false = Aborted /\ ~ is_check exceptions e false tt (dbg_precondition_check true e false).
Proof.
  intros exceptions e ->. split; [reflexivity|]. intros [_ [H _]]. specialize (H eq_refl eq_refl). discriminate.
Qed.

Lemma c316_dbg_precondition :
  forall debug e c, (debug = false \/ c = true -> dbg_precondition_check debug e c = Returned tt) /\ (debug = true -> c = false -> dbg_precondition_check debug e c = Aborted).
Proof.
  intros [|] e [|]; cbv; split; intros; try reflexivity; try congruence; destruct H; congruence.
Qed.

Lemma c316_all :
  forall (T : Type) exceptions e (pred : T -> bool) l1 x l2,
  (forallb pred l1 = true -> assert_all_true exceptions e l1 pred = (Returned tt, length l1)) /\
  (forallb pred l1 = true -> pred x = false -> assert_all_true exceptions e (l1 ++ x :: l2) pred = (daw_throw exceptions e, S (length l1))) /\
  (existsb pred l1 = false -> assert_all_false exceptions e l1 pred = (Returned tt, length l1)) /\
  (existsb pred l1 = false -> pred x = true -> assert_all_false exceptions e (l1 ++ x :: l2) pred = (daw_throw exceptions e, S (length l1))).
Proof.
  intros T exceptions e pred l1 x l2.
assert (B : forall (q : T -> bool) (l0 : list T), existsb q l0 = false -> assert_all_false exceptions e l0 q = (Returned tt, length l0)).
{ intro q. induction l0 as [|y l0 IH]; intro F; [reflexivity|]. cbn [existsb] in F. apply orb_false_iff in F as [F1 F2]. cbn [assert_all_false length]. now rewrite F1, (IH F2). }
assert (C : forall (q : T -> bool) (l0 : list T), existsb q l0 = false -> q x = true -> assert_all_false exceptions e (l0 ++ x :: l2) q = (daw_throw exceptions e, S (length l0))).
{ intro q. induction l0 as [|y l0 IH]; intros F X; cbn [app assert_all_false length]; [now rewrite X|]. cbn [existsb] in F. apply orb_false_iff in F as [F1 F2]. now rewrite F1, (IH F2 X). }
assert (D : forall l, forallb pred l = true -> existsb (fun y => negb (pred y)) l = false).
{ induction l as [|y l IH]; intro F; [reflexivity|]. cbn [forallb existsb] in *. apply andb_true_iff in F as [F1 F2]. now rewrite F1, (IH F2). }
split; [|split; [|split]].
- intro F. apply B. now apply D.
- intros F X. apply C; [now apply D|now rewrite X].
- apply B.
- intros F X. now apply C.
Qed.

Lemma c316_no_exception :
  forall r, (forall e, no_exception r <> Thrown e) /\ (r = Aborted <-> no_exception r = Aborted).
Proof.
  intros [[]|e|]; cbn; split; try (intros e'; discriminate); split; congruence.
Qed.

Lemma c317_rows :
  forall st cs ls n, held st cs ls -> ls <> [] -> Forall (fun l => length l = n) ls ->
  exists bs es, zip_make st (map ZVariable cs) = Ok (st, bs, es) /\
    forall fuel, (n < fuel)%nat -> z_loop fuel st bs es = Ok (map (row ls) (seq 0 n)).
Proof.
  intros st cs ls n H NE F. eexists. eexists. split; [apply make_variables; exact H|]. intros fuel L. apply (loop_equal st cs ls n H NE F n 0 fuel); lia.
Qed.

Lemma c317_unequal_refuted :
  forall st cs ls a b, held st cs ls -> In a ls -> In b ls -> length a <> length b ->
  exists bs es, zip_make st (map ZVariable cs) = Ok (st, bs, es) /\ exists n, forall fuel, (n < fuel)%nat -> z_loop fuel st bs es = UB.
Proof.
  intros st cs ls a b H Ia Ib D. eexists. eexists. split; [apply make_variables; exact H|].
destruct (shortest ls) as [m [Im M]]; [intros ->; destruct Ia|]. exists (length m). intros fuel L. rewrite Forall_forall in M.
assert (B : exists b', In b' ls /\ (length m < length b')%nat).
{ pose proof (M a Ia). pose proof (M b Ib). destruct (Nat.eq_dec (length m) (length a)); [exists b; split; [exact Ib|lia]|exists a; split; [exact Ia|lia]]. }
destruct B as [b' [Ib' Lb]]. apply (loop_unequal st cs ls m b' H Im Ib' Lb) with (j := length m); [rewrite Forall_forall; exact M|lia|lia].
Qed.

Lemma c317_temporary_refuted :
  forall st args st' bs es l fuel, zip_make st args = Ok (st', bs, es) -> In (ZTemporary l) args -> z_loop (S fuel) st' bs es = UB.
Proof.
  exact loop_dead.
Qed.

Lemma c318_get :
  forall sanitize s ops o ts,
  s_get sanitize (srun s (map SAssign ts)) = sanitize (s_fun s) (last ts (s_raw s)) /\
  s_unsafe (srun s (map SAssign ts)) = last ts (s_raw s) /\
  s_get sanitize (srun s (ops ++ SCopy o :: map SAssign ts)) = sanitize (s_fun o) (last ts (s_raw o)) /\
  s_unsafe (srun s (ops ++ SCopy o :: map SAssign ts)) = last ts (s_raw o).
Proof.
  intros sanitize s ops o ts.
assert (B : forall ts0 s, srun s (map SAssign ts0) = mk_sstr (last ts0 (s_raw s)) (s_fun s)).
{ induction ts0 as [|t ts0 IH]; intro s0; [now destruct s0|]. cbn [map srun fold_left]. change (srun (sstep s0 (SAssign t)) (map SAssign ts0) = mk_sstr (last (t :: ts0) (s_raw s0)) (s_fun s0)).
  rewrite IH. cbn [sstep s_raw s_fun]. f_equal. destruct ts0 as [|u ts0]; [reflexivity|]. cbn [last]. clear. revert u. induction ts0 as [|v ts0 IH]; intro u; [reflexivity|]. apply IH. }
assert (C : srun s (ops ++ SCopy o :: map SAssign ts) = srun o (map SAssign ts)).
{ unfold srun. rewrite fold_left_app. reflexivity. }
rewrite C, !B. repeat split; reflexivity.
Qed.

Lemma c319_ordering :
  forall u o o', -128 <= u < 128 -> ~ (-1 <= u <= 1) ->
  (order_to_enum u o = order_to_enum u o' <-> o = o') /\
  (equal_or_equivalent u o = true <-> o = OEqual) /\
  (enum_equal_or_equivalent (order_to_enum u o) = true <-> o = OEqual).
Proof.
  intros u o o' U N. split; [|split].
- unfold order_to_enum. destruct o, o'; cbn [order_repr]; split; intro; try reflexivity; try discriminate; try congruence; lia.
- unfold equal_or_equivalent. destruct o; cbn [order_repr]; split; intro Q; try reflexivity; try discriminate. apply Z.eqb_eq in Q. lia.
- unfold enum_equal_or_equivalent, order_to_enum, to_schar. destruct o; cbn [order_repr]; split; intro Q; try reflexivity; try discriminate.
  apply Z.eqb_eq in Q. destruct (Z.ltb_spec (u mod 256) 128) as [L|L]; pose proof (Z.mod_pos_bound u 256); pose proof (Z.div_mod u 256); lia.
Qed.

Lemma c319_logic :
  forall lhs rhs, (nsc_and lhs rhs = true <-> lhs = true /\ Forall (fun b => b = true) rhs) /\ (nsc_or lhs rhs = true <-> lhs = true \/ In true rhs).
Proof.
  intros lhs rhs. unfold nsc_and, nsc_or. rewrite fold_and, fold_or, in_app_iff, Forall_app. cbn [In]. split.
- split; [intros [_ [A B]]; split; [now inversion B|exact A]|]. intros [A B]. split; [reflexivity|]. split; [exact B|]. now constructor.
- split; [intros [A | [A | [A | []]]]; [discriminate|auto|auto]|]. intros [A | A]; auto.
Qed.
