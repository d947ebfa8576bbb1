(** Proofs about function_ref, function_view and not_null. *)
From Verif Require Import Common RefTools SpecRefTools.
Open Scope Z_scope.

Lemma set_same m a o : set m a o a = o.
Proof. unfold set. rewrite Nat.eqb_refl. reflexivity. Qed.
Lemma set_other m a o b : b <> a -> set m a o b = m b.
Proof. intros H. unfold set. destruct (Nat.eqb_spec b a); [contradiction|reflexivity]. Qed.

Section Calls.
  Variable function : nat -> Z -> Z.
  Variable method : nat -> Z -> Z -> Z.
  Variable stateless : nat -> bool.
  Notation act := (act stateless).
  Notation acts := (acts stateless).
  Notation call := (call function method).

  Lemma act_other m x m' r : act m x = Ok m' -> ~ touches r x -> (forall c s, m r <> Callable c s) -> m' r = m r.
  Proof.
    intros E N C. destruct x; cbn [RefTools.act touches] in *.
    - destruct (m a); try discriminate. injection E as <-. apply set_other. auto.
    - destruct (m a) as [| |c0 s0| |] eqn:A; try discriminate. injection E as <-. apply set_other. intros ->. eapply C. exact A.
    - destruct (m a); try discriminate; injection E as <-; apply set_other; auto.
    - destruct (ref_place (m a)); try discriminate. injection E as <-. apply set_other. auto.
    - destruct (ref_place (m a)); try discriminate. destruct (ref_target m src); try discriminate. injection E as <-. apply set_other. auto.
    - destruct (view_place (m a)); try discriminate. injection E as <-. apply set_other. auto.
    - destruct (view_place (m a)); try discriminate. destruct (view_target stateless m src const_or_rvalue); try discriminate. injection E as <-. apply set_other. auto.
    - destruct (m a); try discriminate. destruct (m src); try discriminate. injection E as <-. apply set_other. auto.
  Qed.
  Lemma acts_bound : forall h m m2 r, acts m h = Ok m2 -> untouched r h -> (forall c s, m r <> Callable c s) -> m2 r = m r.
  Proof.
    induction h as [|x h IH]; intros m m2 r E U C; cbn [RefTools.acts] in E; [injection E as <-; reflexivity|].
    destruct (act m x) as [m1| | |] eqn:A; try discriminate. cbn [bind] in E.
    assert (m1 r = m r) as R by (eapply act_other; eauto; apply U; left; reflexivity).
    rewrite <- R. apply (IH m1 m2 r E); [intros y Y; apply U; right; exact Y|]. rewrite R. exact C.
  Qed.
  Definition class_or_dead (c : nat) (o : object) : Prop := (exists s, o = Callable c s) \/ o = Dead.
  Lemma act_callable m x m' a c : act m x = Ok m' -> class_or_dead c (m a) -> class_or_dead c (m' a).
  Proof.
    intros E C. unfold class_or_dead in *.
    assert (G : forall b o, (b = a -> class_or_dead c o) -> class_or_dead c (set m b o a)).
    { intros b o H. destruct (Nat.eq_dec a b) as [->|N]; [rewrite set_same; apply H; reflexivity|rewrite set_other by exact N; exact C]. }
    unfold class_or_dead in G. destruct x; cbn [RefTools.act] in E.
    - destruct (m a0) eqn:A; try discriminate. injection E as <-. apply G. intros ->. rewrite A in C. destruct C as [(s' & C) | C]; discriminate.
    - destruct (m a0) as [| |c0 s0| |] eqn:A; try discriminate. injection E as <-. apply G. intros ->. rewrite A in C. destruct C as [(s' & C) | C]; [|discriminate]. injection C as -> ->. left. eauto.
    - destruct (m a0); try discriminate; injection E as <-; apply G; auto.
    - destruct (ref_place (m a0)) eqn:A; try discriminate. injection E as <-. apply G. intros ->. destruct C as [(s' & C) | C]; rewrite C in A; discriminate.
    - destruct (ref_place (m a0)) eqn:A; try discriminate. destruct (ref_target m src); try discriminate. injection E as <-. apply G. intros ->. destruct C as [(s' & C) | C]; rewrite C in A; discriminate.
    - destruct (view_place (m a0)) eqn:A; try discriminate. injection E as <-. apply G. intros ->. destruct C as [(s' & C) | C]; rewrite C in A; discriminate.
    - destruct (view_place (m a0)) eqn:A; try discriminate. destruct (view_target stateless m src const_or_rvalue); try discriminate. injection E as <-. apply G. intros ->. destruct C as [(s' & C) | C]; rewrite C in A; discriminate.
    - destruct (m a0) eqn:A; try discriminate. destruct (m src); try discriminate. injection E as <-. apply G. intros ->. rewrite A in C. destruct C as [(s' & C) | C]; discriminate.
  Qed.
  Lemma acts_callable : forall h m m2 a c, acts m h = Ok m2 -> class_or_dead c (m a) -> class_or_dead c (m2 a).
  Proof.
    induction h as [|x h IH]; intros m m2 a c E C; cbn [RefTools.acts] in E; [injection E as <-; exact C|].
    destruct (act m x) as [m1| | |] eqn:A; try discriminate. cbn [bind] in E. eapply IH; eauto. eapply act_callable; eauto.
  Qed.

  (** Through a binding to a callable object. *)
  Lemma call_bound m r a c x n : (m r = FRef (TObj a) \/ m r = FView (TObj a)) -> class_or_dead c (m a) ->
    gives method m a c x (call (S (S n)) m r x).
  Proof.
    intros R C. unfold gives. destruct C as [(s & C) | C].
    - left. exists s. split; [exact C|]. destruct R as [R | R]; cbn [RefTools.call]; rewrite R, C; reflexivity.
    - right. split; [exact C|]. destruct R as [R | R]; cbn [RefTools.call]; rewrite R, C; reflexivity.
  Qed.

  Lemma ref_of_calls m h m1 m2 r a c s x n : m a = Callable c s -> act m (RefOf r a) = Ok m1 -> acts m1 h = Ok m2 -> untouched r h ->
    gives method m2 a c x (call (S (S n)) m2 r x).
  Proof.
    intros A E H U. cbn [RefTools.act] in E. destruct (ref_place (m r)) eqn:P; try discriminate. unfold ref_target in E. rewrite A in E. cbn [bind] in E. injection E as <-.
    assert (NE : a <> r) by (intros ->; rewrite A in P; discriminate).
    apply call_bound.
    - left. rewrite (acts_bound h _ _ r H U); rewrite set_same; [reflexivity|discriminate].
    - apply (acts_callable h _ _ a c H). left. exists s. rewrite set_other by exact NE. exact A.
  Qed.
  Lemma view_of_calls m h m1 m2 r a c s k x n : m a = Callable c s -> stateless c = false -> act m (ViewOf r a k) = Ok m1 -> acts m1 h = Ok m2 -> untouched r h ->
    gives method m2 a c x (call (S (S n)) m2 r x).
  Proof.
    intros A SL E H U. cbn [RefTools.act] in E. destruct (view_place (m r)) eqn:P; try discriminate. unfold view_target in E. rewrite A, SL in E. cbn [bind] in E. injection E as <-.
    assert (NE : a <> r) by (intros ->; rewrite A in P; discriminate).
    apply call_bound.
    - right. rewrite (acts_bound h _ _ r H U); rewrite set_same; [reflexivity|discriminate].
    - apply (acts_callable h _ _ a c H). left. exists s. rewrite set_other by exact NE. exact A.
  Qed.
  Lemma view_of_stateless m h m1 m2 r a c s k x n : m a = Callable c s -> stateless c = true -> act m (ViewOf r a k) = Ok m1 -> acts m1 h = Ok m2 -> untouched r h ->
    call (S n) m2 r x = Ok (method c 0 x).
  Proof.
    intros A SL E H U. cbn [RefTools.act] in E. destruct (view_place (m r)) eqn:P; try discriminate. unfold view_target in E. rewrite A, SL in E. cbn [bind] in E. injection E as <-.
    cbn [RefTools.call]. rewrite (acts_bound h _ _ r H U); rewrite set_same; [reflexivity|discriminate].
  Qed.
  Lemma fun_calls m h m1 m2 r f x n : act m (RefFun r (Some f)) = Ok m1 \/ act m (ViewFun r (Some f)) = Ok m1 -> acts m1 h = Ok m2 -> untouched r h ->
    call (S n) m2 r x = Ok (function f x).
  Proof.
    intros [E | E] H U; cbn [RefTools.act] in E; [destruct (ref_place (m r))|destruct (view_place (m r))]; try discriminate; injection E as <-;
      cbn [RefTools.call]; (rewrite (acts_bound h _ _ r H U); rewrite set_same; [reflexivity|discriminate]).
  Qed.

  (** A copy has the target that the source had. *)
  Definition target_of (o : object) : option target := match o with FRef t | FView t => Some t | _ => None end.
  Lemma ref_copy m h m1 m2 r q t : m q = FRef t -> act m (RefOf r q) = Ok m1 -> acts m1 h = Ok m2 -> untouched r h -> m2 r = FRef t.
  Proof.
    intros Q E H U. cbn [RefTools.act] in E. destruct (ref_place (m r)); try discriminate. unfold ref_target in E. rewrite Q in E. cbn [bind] in E. injection E as <-.
    rewrite (acts_bound h _ _ r H U); rewrite set_same; [reflexivity|discriminate].
  Qed.
  Lemma view_copy m h m1 m2 r q t : m q = FView t -> act m (ViewOf r q true) = Ok m1 \/ act m (ViewAssign r q) = Ok m1 -> acts m1 h = Ok m2 -> untouched r h -> m2 r = FView t.
  Proof.
    intros Q E H U. assert (m1 = set m r (FView t)) as ->.
    { destruct E as [E | E]; cbn [RefTools.act] in E.
      - destruct (view_place (m r)); try discriminate. unfold view_target in E. rewrite Q in E. cbn [bind] in E. congruence.
      - rewrite Q in E. destruct (m r); try discriminate. congruence. }
    rewrite (acts_bound h _ _ r H U); rewrite set_same; [reflexivity|discriminate].
  Qed.
  Lemma view_nonconst m h m1 m2 r q t : m q = FView t -> act m (ViewOf r q false) = Ok m1 -> acts m1 h = Ok m2 -> untouched r h -> m2 r = FView (TObj q).
  Proof.
    intros Q E H U. cbn [RefTools.act] in E. destruct (view_place (m r)); try discriminate. unfold view_target in E. rewrite Q in E. cbn [bind] in E. injection E as <-.
    rewrite (acts_bound h _ _ r H U); rewrite set_same; [reflexivity|discriminate].
  Qed.
  Lemma cycle_loops m a b x : m a = FView (TObj b) -> m b = FView (TObj b) \/ m b = FView (TObj a) -> forall n, call n m a x = OutOfFuel /\ call n m b x = OutOfFuel.
  Proof.
    intros A B. induction n as [|n (IHa & IHb)]; [auto|]. cbn [RefTools.call]. rewrite A. destruct B as [-> | ->]; auto.
  Qed.
End Calls.

(** * not_null *)
Lemma upd_forall {A} (P : A -> Prop) : forall l i x, Forall P l -> P x -> Forall P (upd l i x).
Proof. induction l as [|y l IH]; intros [|i] x F X; cbn [upd]; auto; inversion F; subst; constructor; auto. Qed.
Lemma wr_forall {A} (P : A -> Prop) l i x l' : wr l i x = Ok l' -> Forall P l -> P x -> Forall P l'.
Proof. unfold wr. destruct (i <? length l)%nat; [|discriminate]. intros E F X. injection E as <-. apply upd_forall; assumption. Qed.
Lemma rd_forall {A} (P : A -> Prop) l i x : rd l i = Ok x -> Forall P l -> P x.
Proof. unfold rd. destruct (nth_error l i) eqn:E; [|discriminate]. intros H F. injection H as <-. apply nth_error_In in E. rewrite Forall_forall in F. auto. Qed.
Section NotNull.
  Variable same_array : Z -> Z -> bool.
  Hypothesis arrays : forall p q, same_array p q = true -> q <> 0.
  Lemma nn_act_keeps l x l' : nn_act false same_array l x = Ok l' -> Forall (fun p => p <> 0) l -> Forall (fun p => p <> 0) l'.
  Proof.
    intros E F. destruct x; cbn [nn_act] in E.
    - unfold checked in E. destruct (Z.eqb_spec p 0); [discriminate|]. cbn [bind] in E. injection E as <-. apply Forall_app. auto.
    - unfold assume_not_null in E. destruct (Z.eqb_spec p 0); [discriminate|]. cbn [bind] in E. injection E as <-. apply Forall_app. auto.
    - unfold checked in E. destruct (Z.eqb_spec p 0); [discriminate|]. cbn [bind] in E. eapply wr_forall; eauto.
    - destruct (rd l i) as [x| | |] eqn:R; try discriminate. cbn [bind] in E. injection E as <-. apply Forall_app. split; [exact F|]. constructor; [|constructor]. apply (rd_forall _ _ _ _ R F).
    - destruct (rd l i) as [x| | |] eqn:R; try discriminate. cbn [bind] in E. injection E as <-. apply Forall_app. split; [exact F|]. constructor; [|constructor]. apply (rd_forall _ _ _ _ R F).
    - destruct (rd l i) as [x| | |] eqn:R; try discriminate. cbn [bind] in E. destruct (assume_not_null x); try discriminate. cbn [bind] in E. destruct (same_array x (x + n)) eqn:S; [|discriminate]. eapply wr_forall; eauto.
    - destruct (rd l i) as [x| | |] eqn:R; try discriminate. cbn [bind] in E. destruct (assume_not_null x); try discriminate. cbn [bind] in E. destruct (same_array x (x + n)) eqn:S; [|discriminate].
      destruct (wr l i (x + n)) eqn:W; try discriminate. cbn [bind] in E. injection E as <-. apply Forall_app. split; [eapply wr_forall; eauto|]. constructor; [|constructor]. apply (rd_forall _ _ _ _ R F).
  Qed.
  Lemma nn_acts_keeps : forall xs l l', nn_acts false same_array l xs = Ok l' -> Forall (fun p => p <> 0) l -> Forall (fun p => p <> 0) l'.
  Proof.
    induction xs as [|x xs IH]; intros l l' E F; cbn [nn_acts] in E; [injection E as <-; exact F|].
    destruct (nn_act false same_array l x) eqn:A; try discriminate. cbn [bind] in E. eapply IH; eauto. eapply nn_act_keeps; eauto.
  Qed.
End NotNull.
Lemma nn_get_ok l i p : nth_error l i = Some p -> p <> 0 -> nn_get l i = Ok p.
Proof. intros E N. unfold nn_get, rd. rewrite E. cbn [bind]. unfold assume_not_null. destruct (Z.eqb_spec p 0); [contradiction|reflexivity]. Qed.

(** * The statements of the properties *)

Lemma c298_calls :
  forall (function : nat -> Z -> Z) (method : nat -> Z -> Z -> Z) (stateless : nat -> bool) m h m1 m2 r a c s x n,
  m a = Callable c s -> act stateless m (RefOf r a) = Ok m1 -> acts stateless m1 h = Ok m2 -> untouched r h ->
  gives method m2 a c x (call function method (S (S n)) m2 r x).
Proof.
  intros. eapply ref_of_calls; eauto.
Qed.

Lemma c298_pointer :
  forall (function : nat -> Z -> Z) (method : nat -> Z -> Z -> Z) (stateless : nat -> bool) m h m1 m2 r f x n,
  act stateless m (RefFun r (Some f)) = Ok m1 -> acts stateless m1 h = Ok m2 -> untouched r h -> call function method (S n) m2 r x = Ok (function f x).
Proof.
  intros function method stateless m h m1 m2 r f x n E. eapply fun_calls; eauto.
Qed.

Lemma c298_copy :
  forall (function : nat -> Z -> Z) (method : nat -> Z -> Z -> Z) (stateless : nat -> bool) m h m1 m2 r q a c s x n,
  m q = FRef (TObj a) -> m a = Callable c s -> act stateless m (RefOf r q) = Ok m1 -> acts stateless m1 h = Ok m2 -> untouched r h ->
  gives method m2 a c x (call function method (S (S n)) m2 r x).
Proof.
  intros function method stateless m h m1 m2 r q a c s x n Q A E H U. apply call_bound; [left; eapply ref_copy; eauto|]. eapply acts_callable; eauto. eapply act_callable; eauto. left. eauto.
Qed.

Lemma c298_null_pointer :
  forall (function : nat -> Z -> Z) (method : nat -> Z -> Z -> Z) (stateless : nat -> bool) m h m1 m2 r x n,
  act stateless m (RefFun r None) = Ok m1 \/ act stateless m (ViewFun r None) = Ok m1 -> acts stateless m1 h = Ok m2 -> untouched r h -> call function method (S n) m2 r x = UB.
Proof.
  intros function method stateless m h m1 m2 r x n [E | E] H U; cbn [act] in E; [destruct (ref_place (m r))|destruct (view_place (m r))]; try discriminate; injection E as <-; cbn [call]; (rewrite (acts_bound stateless h _ _ r H U); rewrite set_same; [reflexivity|discriminate]).
Qed.

Lemma c299_calls :
  forall (function : nat -> Z -> Z) (method : nat -> Z -> Z -> Z) (stateless : nat -> bool) m h m1 m2 r a c s k x n,
  m a = Callable c s -> act stateless m (ViewOf r a k) = Ok m1 -> acts stateless m1 h = Ok m2 -> untouched r h ->
  (stateless c = false -> gives method m2 a c x (call function method (S (S n)) m2 r x)) /\
  (stateless c = true -> call function method (S n) m2 r x = Ok (method c 0 x)).
Proof.
  intros function method stateless m h m1 m2 r a c s k x n A E H U. split; intros L; [eapply view_of_calls; eauto|eapply view_of_stateless; eauto].
Qed.

Lemma c299_pointer :
  forall (function : nat -> Z -> Z) (method : nat -> Z -> Z -> Z) (stateless : nat -> bool) m h m1 m2 r f x n,
  act stateless m (ViewFun r (Some f)) = Ok m1 -> acts stateless m1 h = Ok m2 -> untouched r h -> call function method (S n) m2 r x = Ok (function f x).
Proof.
  intros function method stateless m h m1 m2 r f x n E. eapply fun_calls; eauto.
Qed.

Lemma c299_copy :
  forall (function : nat -> Z -> Z) (method : nat -> Z -> Z -> Z) (stateless : nat -> bool) m h m1 m2 r q a c s x n,
  m q = FView (TObj a) -> m a = Callable c s -> act stateless m (ViewOf r q true) = Ok m1 \/ act stateless m (ViewAssign r q) = Ok m1 ->
  acts stateless m1 h = Ok m2 -> untouched r h ->
  gives method m2 a c x (call function method (S (S n)) m2 r x).
Proof.
  intros function method stateless m h m1 m2 r q a c s x n Q A E H U. apply call_bound; [right; eapply view_copy; eauto|]. eapply acts_callable; eauto. destruct E as [E | E]; (eapply act_callable; [exact E|left; eauto]).
Qed.

Lemma c299_copy_refuted :
  forall (function : nat -> Z -> Z) (method : nat -> Z -> Z -> Z) (stateless : nat -> bool) m h m1 m2 r q t x,
  m q = FView t -> act stateless m (ViewOf r q false) = Ok m1 -> acts stateless m1 h = Ok m2 -> untouched r h ->
  (forall n, call function method (S n) m2 r x = call function method n m2 q x) /\
  (m2 q = Dead -> forall n, call function method (S (S n)) m2 r x = UB) /\
  (forall m3, q <> r -> act stateless m2 (ViewAssign q r) = Ok m3 -> forall n, call function method n m3 q x = OutOfFuel).
Proof.
  intros function method stateless m h m1 m2 r q t x Q E H U. pose proof (view_nonconst stateless m h m1 m2 r q t Q E H U) as R. split; [|split].
  - intros n. cbn [call]. rewrite R. reflexivity.
  - intros D n. cbn [call]. rewrite R, D. reflexivity.
  - intros m3 N A n. cbn [act] in A. rewrite R in A. destruct (m2 q); try discriminate. injection A as <-.
    apply (cycle_loops function method (set m2 q (FView (TObj q))) q q x); [|left]; apply set_same.
Qed.

Lemma c300_never_null :
  forall same_array, (forall p q, same_array p q = true -> q <> 0) -> forall xs l, nn_acts false same_array [] xs = Ok l ->
  forall i p, nth_error l i = Some p -> p <> 0 /\ nn_get l i = Ok p.
Proof.
  intros sa S xs l E i p H. assert (p <> 0) as N. { pose proof (nn_acts_keeps sa S xs [] l E (Forall_nil _)) as F. rewrite Forall_forall in F. apply F. eapply nth_error_In; eauto. } split; [exact N|]. apply nn_get_ok; assumption.
Qed.

Lemma c300_refuses :
  forall moves same_array l i, nn_act moves same_array l (NnNew 0) = Throw /\ nn_act moves same_array l (NnAssign i 0) = Throw /\
  forall p, p <> 0 -> nn_act moves same_array l (NnNew p) = Ok (l ++ [p]).
Proof.
  intros moves sa l i. split; [reflexivity|]. split; [reflexivity|]. intros p H. cbn [nn_act]. unfold checked. destruct (Z.eqb_spec p 0); [contradiction|reflexivity].
Qed.

Lemma c300_pointer_operations :
  forall l i j p q, nth_error l i = Some p -> nth_error l j = Some q -> p <> 0 -> q <> 0 ->
  nn_sub l i j = Ok (p - q) /\ (nn_eq l i j = Ok true <-> p = q) /\ (nn_lt l i j = Ok true <-> p < q).
Proof.
  intros l i j p q I J P Q. unfold nn_sub, nn_eq, nn_lt. rewrite (nn_get_ok l i p I P), (nn_get_ok l j q J Q). cbn [bind]. split; [reflexivity|]. split.
  - destruct (Z.eqb_spec p q); split; intros H; try congruence.
  - destruct (Z.ltb_spec p q) as [L|L]; split; intros H; try congruence; lia.
Qed.

Lemma c300_moved_from_refuted :
  forall same_array xs l i p, nn_acts true same_array [] xs = Ok l -> nth_error l i = Some p -> p <> 0 ->
  exists l', nn_acts true same_array [] (xs ++ [NnMove i]) = Ok l' /\ nth_error l' i = Some 0 /\ nn_get l' i = UB.
Proof.
  intros sa xs l i p E I P.
  assert (G : forall xs0 l0 l1 y, nn_acts true sa l0 xs0 = Ok l1 -> nn_acts true sa l0 (xs0 ++ [y]) = (l2 <- nn_act true sa l1 y ;; Ok l2)).
  { induction xs0 as [|x0 xs0 IH]; intros l0 l1 y H; cbn [nn_acts app] in *; [injection H as <-; reflexivity|]. destruct (nn_act true sa l0 x0); try discriminate. cbn [bind] in *. apply IH. exact H. }
  rewrite (G _ _ _ (NnMove i) E). cbn [nn_act]. unfold rd. rewrite I. cbn [bind]. unfold wr. assert (i < length l)%nat as L by (apply nth_error_Some; congruence). destruct (Nat.ltb_spec i (length l)) as [L2|L2]; [|lia]. cbn [bind].
  eexists. split; [reflexivity|].
  assert (N : nth_error (upd l i 0 ++ [p]) i = Some 0). { clear - L. revert i L. induction l as [|y l IH]; intros [|i] L; cbn in *; try lia; [reflexivity|]. apply IH. lia. }
  split; [exact N|]. unfold nn_get, rd. rewrite N. reflexivity.
Qed.
