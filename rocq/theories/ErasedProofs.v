(** Proofs about type-erased iterators and pointer wrappers. *)
From Verif Require Import Common Erased SpecErased.
Open Scope Z_scope.

(** * Lists *)
Lemma upd_length_e : forall T (l : list T) i x, length (upd l i x) = length l.
Proof. induction l as [|y l IH]; intros [|i] x; cbn; auto. Qed.
Lemma nth_upd_same : forall T (l : list T) i x d, (i < length l)%nat -> nth i (upd l i x) d = x.
Proof. induction l as [|y l IH]; intros [|i] x d L; cbn in *; try lia; [reflexivity|]. apply IH. lia. Qed.
Lemma nth_upd_other : forall T (l : list T) i j x d, i <> j -> nth i (upd l j x) d = nth i l d.
Proof.
  induction l as [|y l IH]; intros i [|j] x d N; cbn; [reflexivity|reflexivity| |].
  - destruct i; [congruence|reflexivity].
  - destruct i as [|i]; [reflexivity|]. apply IH. congruence.
Qed.
Lemma nth_app_last : forall T (l : list T) x d, nth (length l) (l ++ [x]) d = x.
Proof. intros. rewrite app_nth2 by lia. rewrite Nat.sub_diag. reflexivity. Qed.
Lemma nth_app_other : forall T (l : list T) i x d, i <> length l -> nth i (l ++ [x]) d = nth i l d.
Proof.
  intros T l i x d N. destruct (Nat.lt_ge_cases i (length l)) as [L|L].
  - apply app_nth1. exact L.
  - rewrite !nth_overflow; [reflexivity|exact L|]. rewrite app_length. cbn. lia.
Qed.
Lemma nth_error_upd_same : forall T (l : list T) i x, (i < length l)%nat -> nth_error (upd l i x) i = Some x.
Proof. induction l as [|y l IH]; intros [|i] x L; cbn in *; try lia; [reflexivity|]. apply IH. lia. Qed.
Lemma nth_error_upd_other : forall T (l : list T) i j x, i <> j -> nth_error (upd l j x) i = nth_error l i.
Proof.
  induction l as [|y l IH]; intros i [|j] x N; cbn; [reflexivity|reflexivity| |].
  - destruct i; [congruence|reflexivity].
  - destruct i as [|i]; [reflexivity|]. apply IH. congruence.
Qed.

Definition cnt {T} (f : T -> bool) (l : list T) : nat := length (filter f l).
Lemma cnt_app : forall T f (l : list T) x, cnt f (l ++ [x]) = (cnt f l + Nat.b2n (f x))%nat.
Proof.
  intros. unfold cnt. rewrite filter_app, app_length. cbn. destruct (f x); reflexivity.
Qed.
Lemma cnt_upd : forall T f (l : list T) i x y, nth_error l i = Some y ->
  (cnt f (upd l i x) + Nat.b2n (f y) = cnt f l + Nat.b2n (f x))%nat.
Proof.
  unfold cnt. induction l as [|z l IH]; intros [|i] x y N; try discriminate; cbn [upd filter].
  - injection N as ->. destruct (f x), (f y); cbn; lia.
  - specialize (IH i x y N). destruct (f z); cbn [length]; lia.
Qed.
Lemma nth_val_lt : forall (a : list aval) i, val a i <> Dead -> (i < length a)%nat.
Proof.
  intros a i N. destruct (Nat.lt_ge_cases i (length a)) as [L|L]; [exact L|].
  exfalso. apply N. unfold val. apply nth_overflow. exact L.
Qed.
Lemma val_nth_error : forall (a : list aval) i, (i < length a)%nat -> nth_error a i = Some (val a i).
Proof. intros. apply nth_error_nth'. assumption. Qed.

(** * The invariant *)
Definition is_cell (c : option (nat * Z)) : bool := match c with Some _ => true | None => false end.
Definition is_at (v : aval) : bool := match v with At _ _ => true | _ => false end.

Definition rel (hp : heap) (oh : option handle) (v : aval) : Prop :=
  match v with
  | Dead => oh = None
  | Moved => exists vt, oh = Some (mk_handle None vt)
  | At ty pos => exists p, oh = Some (mk_handle (Some p) ty) /\ nth_error hp p = Some (Some (ty, pos))
  end.
Definition optr (oh : option handle) : option nat :=
  match oh with Some h => h_ptr h | None => None end.

Record inv (s : ist) (a : list aval) (lost : nat) : Prop := mk_inv {
  inv_len : length (i_hs s) = length a;
  inv_rel : forall i, rel (i_heap s) (nth i (i_hs s) None) (val a i);
  inv_own : forall i j p, optr (nth i (i_hs s) None) = Some p -> optr (nth j (i_hs s) None) = Some p -> i = j;
  inv_cnt : cnt is_cell (i_heap s) = (cnt is_at a + lost)%nat }.

Lemma get_h_nth : forall s i, get_h s i = match nth i (i_hs s) None with Some h => Ok h | None => UB end.
Proof.
  intros s i. unfold get_h. destruct (nth_error (i_hs s) i) as [oh|] eqn:N.
  - rewrite (nth_error_nth _ _ _ N). reflexivity.
  - rewrite nth_overflow by (apply nth_error_None; exact N). reflexivity.
Qed.
Lemma rel_app : forall hp c oh v, rel hp oh v -> rel (hp ++ [c]) oh v.
Proof.
  intros hp c oh [| |ty pos] H; cbn in *; try exact H. destruct H as (p & E & N). exists p.
  split; [exact E|]. rewrite nth_error_app1; [exact N|]. apply nth_error_Some. congruence.
Qed.
Lemma rel_upd : forall hp p c oh v, rel hp oh v -> optr oh <> Some p -> rel (upd hp p c) oh v.
Proof.
  intros hp p c oh [| |ty pos] H D; cbn in *; try exact H. destruct H as (q & E & N). exists q.
  split; [exact E|]. rewrite nth_error_upd_other; [exact N|]. subst oh. cbn in D. congruence.
Qed.
Lemma rel_ptr_lt : forall hp oh v p, rel hp oh v -> optr oh = Some p -> (p < length hp)%nat.
Proof.
  intros hp oh [| |ty pos] p H D; cbn in H.
  - subst oh. discriminate.
  - destruct H as (vt & ->). discriminate.
  - destruct H as (q & -> & N). cbn in D. injection D as ->. apply nth_error_Some. congruence.
Qed.
Lemma cell_ok : forall hp p ty pos, nth_error hp p = Some (Some (ty, pos)) -> cell hp ty (Some p) = Ok (p, pos).
Proof. intros. unfold cell. rewrite H, Nat.eqb_refl. reflexivity. Qed.

(** A new iterator at the end, on a new object. *)
Lemma inv_push : forall s a lost ty pos, inv s a lost ->
  inv (mk_ist (i_heap s ++ [Some (ty, pos)]) (i_hs s ++ [Some (mk_handle (Some (length (i_heap s))) ty)]))
      (a ++ [At ty pos]) lost.
Proof.
  intros s a lost ty pos [L R D C]. constructor; cbn [i_heap i_hs].
  - rewrite !app_length, L. reflexivity.
  - intros i. unfold val. destruct (Nat.eq_dec i (length a)) as [E|E].
    + rewrite E at 2. rewrite nth_app_last. rewrite <- L in E. rewrite E, nth_app_last.
      cbn. exists (length (i_heap s)). split; [reflexivity|]. rewrite nth_error_app2, Nat.sub_diag by lia. reflexivity.
    + rewrite (nth_app_other _ a) by exact E. rewrite nth_app_other by congruence. apply rel_app. apply R.
  - assert (F : forall i, optr (nth i (i_hs s) None) <> Some (length (i_heap s))).
    { intros i E. pose proof (rel_ptr_lt _ _ _ _ (R i) E). lia. }
    intros i j p Hi Hj.
    destruct (Nat.eq_dec i (length (i_hs s))) as [Ei|Ei], (Nat.eq_dec j (length (i_hs s))) as [Ej|Ej].
    + congruence.
    + exfalso. rewrite Ei, nth_app_last in Hi. rewrite nth_app_other in Hj by exact Ej.
      cbn in Hi. injection Hi as <-. exact (F j Hj).
    + exfalso. rewrite Ej, nth_app_last in Hj. rewrite nth_app_other in Hi by exact Ei.
      cbn in Hj. injection Hj as <-. exact (F i Hi).
    + rewrite nth_app_other in Hi, Hj by assumption. exact (D i j p Hi Hj).
  - rewrite !cnt_app, C. cbn. lia.
Qed.

(** The iterator moves on in its object. *)
Lemma inv_set : forall s a lost i p ty pos pos', inv s a lost ->
  nth i (i_hs s) None = Some (mk_handle (Some p) ty) -> nth_error (i_heap s) p = Some (Some (ty, pos)) ->
  val a i = At ty pos ->
  inv (mk_ist (upd (i_heap s) p (Some (ty, pos'))) (i_hs s)) (upd a i (At ty pos')) lost.
Proof.
  intros s a lost i p ty pos pos' [L R D C] H N V.
  assert (Li : (i < length a)%nat) by (apply nth_val_lt; congruence).
  assert (Lp : (p < length (i_heap s))%nat) by (apply nth_error_Some; congruence).
  constructor; cbn [i_heap i_hs].
  - rewrite upd_length_e. exact L.
  - intros j. unfold val. destruct (Nat.eq_dec j i) as [->|E].
    + rewrite nth_upd_same by exact Li. rewrite H. cbn. exists p. split; [reflexivity|].
      apply nth_error_upd_same. exact Lp.
    + rewrite nth_upd_other by exact E. apply rel_upd; [apply R|].
      intros Q. apply E. apply (D j i p Q). rewrite H. reflexivity.
  - exact D.
  - pose proof (cnt_upd _ is_cell _ _ (Some (ty, pos')) _ N) as C1.
    pose proof (cnt_upd _ is_at _ _ (At ty pos') _ (val_nth_error _ _ Li)) as C2.
    rewrite V in C2. cbn in C1, C2. lia.
Qed.

(** An iterator gives up its object. *)
Lemma inv_free : forall s a lost i p ty pos, inv s a lost ->
  nth i (i_hs s) None = Some (mk_handle (Some p) ty) -> nth_error (i_heap s) p = Some (Some (ty, pos)) ->
  val a i = At ty pos ->
  inv (mk_ist (upd (i_heap s) p None) (upd (i_hs s) i None)) (upd a i Dead) lost.
Proof.
  intros s a lost i p ty pos [L R D C] H N V.
  assert (Li : (i < length a)%nat) by (apply nth_val_lt; congruence).
  constructor; cbn [i_heap i_hs].
  - rewrite !upd_length_e. exact L.
  - intros j. unfold val. destruct (Nat.eq_dec j i) as [->|E].
    + rewrite !nth_upd_same by lia. reflexivity.
    + rewrite !nth_upd_other by exact E. apply rel_upd; [apply R|].
      intros Q. apply E. apply (D j i p Q). rewrite H. reflexivity.
  - intros j k q Hj Hk.
    destruct (Nat.eq_dec j i) as [->|Ej]; [rewrite nth_upd_same in Hj by lia; discriminate|].
    destruct (Nat.eq_dec k i) as [->|Ek]; [rewrite nth_upd_same in Hk by lia; discriminate|].
    rewrite nth_upd_other in Hj, Hk by assumption. exact (D j k q Hj Hk).
  - pose proof (cnt_upd _ is_cell _ _ None _ N) as C1.
    pose proof (cnt_upd _ is_at _ _ Dead _ (val_nth_error _ _ Li)) as C2.
    rewrite V in C2. cbn in C1, C2. lia.
Qed.

(** A handle without object is replaced by one without, or by nothing. *)
Lemma inv_clear : forall s a lost i oh v, inv s a lost -> val a i = Moved ->
  (v = Dead /\ oh = None) \/ (v = Moved /\ exists vt, oh = Some (mk_handle None vt)) ->
  inv (mk_ist (i_heap s) (upd (i_hs s) i oh)) (upd a i v) lost.
Proof.
  intros s a lost i oh v [L R D C] V X.
  assert (Li : (i < length a)%nat) by (apply nth_val_lt; congruence).
  assert (O1 : optr oh = None) by (destruct X as [(_ & ->) | (_ & vt & ->)]; reflexivity).
  assert (A1 : is_at v = false) by (destruct X as [(-> & _) | (-> & _)]; reflexivity).
  constructor; cbn [i_heap i_hs].
  - rewrite !upd_length_e. exact L.
  - intros j. unfold val. destruct (Nat.eq_dec j i) as [->|E].
    + rewrite !nth_upd_same by lia. destruct X as [(-> & ->) | (-> & vt & ->)]; cbn; eauto.
    + rewrite !nth_upd_other by exact E. apply R.
  - intros j k q Hj Hk.
    destruct (Nat.eq_dec j i) as [->|Ej]; [rewrite nth_upd_same in Hj by lia; congruence|].
    destruct (Nat.eq_dec k i) as [->|Ek]; [rewrite nth_upd_same in Hk by lia; congruence|].
    rewrite nth_upd_other in Hj, Hk by assumption. exact (D j k q Hj Hk).
  - pose proof (cnt_upd _ is_at _ _ v _ (val_nth_error _ _ Li)) as C2.
    rewrite V, A1 in C2. cbn in C2. lia.
Qed.

(** A new object for the handle [d], which has none. *)
Lemma inv_give : forall s a lost d ty pos, inv s a lost -> val a d = Moved ->
  inv (mk_ist (i_heap s ++ [Some (ty, pos)]) (upd (i_hs s) d (Some (mk_handle (Some (length (i_heap s))) ty))))
      (upd a d (At ty pos)) lost.
Proof.
  intros s a lost d ty pos [L R D C] V.
  assert (Ld : (d < length a)%nat) by (apply nth_val_lt; congruence).
  assert (F : forall i, optr (nth i (i_hs s) None) <> Some (length (i_heap s))).
  { intros i E. pose proof (rel_ptr_lt _ _ _ _ (R i) E). lia. }
  constructor; cbn [i_heap i_hs].
  - rewrite !upd_length_e. exact L.
  - intros j. unfold val. destruct (Nat.eq_dec j d) as [->|E].
    + rewrite !nth_upd_same by lia. cbn. exists (length (i_heap s)). split; [reflexivity|].
      rewrite nth_error_app2, Nat.sub_diag by lia. reflexivity.
    + rewrite !nth_upd_other by exact E. apply rel_app. apply R.
  - intros j k q Hj Hk.
    destruct (Nat.eq_dec j d) as [Ej|Ej], (Nat.eq_dec k d) as [Ek|Ek].
    + congruence.
    + exfalso. subst j. rewrite nth_upd_same in Hj by lia. cbn in Hj. injection Hj as <-.
      rewrite nth_upd_other in Hk by exact Ek. exact (F k Hk).
    + exfalso. subst k. rewrite nth_upd_same in Hk by lia. cbn in Hk. injection Hk as <-.
      rewrite nth_upd_other in Hj by exact Ej. exact (F j Hj).
    + rewrite nth_upd_other in Hj, Hk by assumption. exact (D j k q Hj Hk).
  - pose proof (cnt_upd _ is_at _ _ (At ty pos) _ (val_nth_error _ _ Ld)) as C2.
    rewrite V in C2. rewrite cnt_app, C. cbn in *. lia.
Qed.

(** An object is forgotten: the handle that had it becomes a moved-from one. *)
Lemma inv_forget : forall s a lost i vt ty pos, inv s a lost -> val a i = At ty pos ->
  inv (mk_ist (i_heap s) (upd (i_hs s) i (Some (mk_handle None vt)))) (upd a i Moved) (Datatypes.S lost).
Proof.
  intros s a lost i vt ty pos [L R D C] V.
  assert (Li : (i < length a)%nat) by (apply nth_val_lt; congruence).
  constructor; cbn [i_heap i_hs].
  - rewrite !upd_length_e. exact L.
  - intros j. unfold val. destruct (Nat.eq_dec j i) as [->|E].
    + rewrite !nth_upd_same by lia. cbn. eauto.
    + rewrite !nth_upd_other by exact E. apply R.
  - intros j k q Hj Hk.
    destruct (Nat.eq_dec j i) as [->|Ej]; [rewrite nth_upd_same in Hj by lia; discriminate|].
    destruct (Nat.eq_dec k i) as [->|Ek]; [rewrite nth_upd_same in Hk by lia; discriminate|].
    rewrite nth_upd_other in Hj, Hk by assumption. exact (D j k q Hj Hk).
  - pose proof (cnt_upd _ is_at _ _ Moved _ (val_nth_error _ _ Li)) as C2.
    rewrite V in C2. cbn in C2. lia.
Qed.

(** A handle without object takes over that of another. *)
Lemma inv_take : forall s a lost d i h, inv s a lost -> d <> i -> val a d = Moved ->
  nth i (i_hs s) None = Some h ->
  inv (mk_ist (i_heap s) (upd (upd (i_hs s) d (Some h)) i (Some (mk_handle None (h_vt h)))))
      (upd (upd a d (val a i)) i Moved) lost.
Proof.
  intros s a lost d i h [L R D C] N V H.
  assert (Ld : (d < length a)%nat) by (apply nth_val_lt; congruence).
  assert (VI : val a i <> Dead).
  { intros E. pose proof (R i) as Q. rewrite E, H in Q. discriminate. }
  pose proof (nth_val_lt _ _ VI) as Li.
  constructor; cbn [i_heap i_hs].
  - rewrite !upd_length_e. exact L.
  - intros j. unfold val. destruct (Nat.eq_dec j i) as [->|E].
    + rewrite !nth_upd_same by (rewrite ?upd_length_e; lia). cbn. eauto.
    + rewrite !(nth_upd_other _ _ j i) by exact E. destruct (Nat.eq_dec j d) as [->|E2].
      * rewrite !nth_upd_same by lia. rewrite <- H. apply R.
      * rewrite !nth_upd_other by exact E2. apply R.
  - assert (P : forall j q, optr (nth j (upd (upd (i_hs s) d (Some h)) i (Some (mk_handle None (h_vt h)))) None) = Some q ->
      (j = d /\ optr (nth i (i_hs s) None) = Some q) \/ (j <> d /\ j <> i /\ optr (nth j (i_hs s) None) = Some q)).
    { intros j q Hj. destruct (Nat.eq_dec j i) as [->|E].
      - rewrite nth_upd_same in Hj by (rewrite upd_length_e; lia). discriminate.
      - rewrite nth_upd_other in Hj by exact E. destruct (Nat.eq_dec j d) as [->|E2].
        + left. rewrite nth_upd_same in Hj by lia. rewrite H. split; [reflexivity|exact Hj].
        + right. rewrite nth_upd_other in Hj by exact E2. tauto. }
    intros j k q Hj Hk. apply P in Hj. apply P in Hk.
    destruct Hj as [(-> & Hj) | (J1 & J2 & Hj)], Hk as [(-> & Hk) | (K1 & K2 & Hk)].
    + reflexivity.
    + exfalso. apply K2. exact (D k i q Hk Hj).
    + exfalso. apply J2. exact (D j i q Hj Hk).
    + exact (D j k q Hj Hk).
  - pose proof (cnt_upd _ is_at _ _ (val a i) _ (val_nth_error _ _ Ld)) as C2.
    assert (Li' : nth_error (upd a d (val a i)) i = Some (val a i))
      by (rewrite nth_error_upd_other by congruence; apply val_nth_error; exact Li).
    pose proof (cnt_upd _ is_at _ _ Moved _ Li') as C3.
    rewrite V in C2. cbn in C2, C3. lia.
Qed.

Lemma upd_upd : forall T (l : list T) i x y, upd (upd l i x) i y = upd l i y.
Proof. induction l as [|z l IH]; intros [|i] x y; cbn; [reflexivity..|]. f_equal. apply IH. Qed.
Lemma upd_app_l : forall T (l : list T) i x y, (i < length l)%nat -> upd (l ++ [y]) i x = upd l i x ++ [y].
Proof. induction l as [|z l IH]; intros [|i] x y L; cbn in *; try lia; [reflexivity|]. f_equal. apply IH. lia. Qed.

(** Every allowed operation runs and keeps the invariant. *)
Lemma step_inv : forall s a lost o a' lost', inv s a lost -> spec_step (a, lost) o = Some (a', lost') ->
  exists s', istep s o = Ok s' /\ inv s' a' lost'.
Proof.
  intros s a lost o a' lost' K E. pose proof K as [L R D C].
  destruct o as [ty pos | i | i | d i | d i | i | i | i]; cbn [spec_step] in E.
  - injection E as <- <-. eexists. split; [reflexivity|]. apply inv_push. exact K.
  - destruct (val a i) as [| |ty pos] eqn:V; try discriminate. injection E as <- <-.
    pose proof (R i) as Q. rewrite V in Q. destruct Q as (p & H & N).
    cbn [istep]. rewrite get_h_nth, H. cbn [bind]. unfold op_clone. cbn [h_ptr h_vt].
    rewrite (cell_ok _ _ _ _ N). cbn [bind]. eexists. split; [reflexivity|]. apply inv_push. exact K.
  - pose proof (R i) as Q.
    assert (V : val a i <> Dead) by (intros V; rewrite V in E; discriminate).
    assert (E' : a' = upd a i Moved ++ [val a i] /\ lost' = lost)
      by (destruct (val a i); [discriminate|injection E as <- <-; split; reflexivity..]).
    destruct E' as (-> & ->). clear E.
    assert (exists h, nth i (i_hs s) None = Some h) as (h & H).
    { destruct (val a i) as [| |ty pos]; [congruence| |].
      - destruct Q as (vt & ->). eauto.
      - destruct Q as (p & -> & _). eauto. }
    cbn [istep]. rewrite get_h_nth, H. cbn [bind]. eexists. split; [reflexivity|].
    pose proof (nth_val_lt _ _ V) as Li.
    (* first a new moved-from handle, then it takes over *)
    assert (K1 : inv (mk_ist (i_heap s) (i_hs s ++ [Some (mk_handle None 0%nat)])) (a ++ [Moved]) lost).
    { constructor; cbn [i_heap i_hs].
      - rewrite !app_length, L. reflexivity.
      - intros j. unfold val. destruct (Nat.eq_dec j (length a)) as [Ej|Ej].
        + rewrite Ej at 2. rewrite nth_app_last. rewrite <- L in Ej. rewrite Ej, nth_app_last. cbn. eauto.
        + rewrite (nth_app_other _ a) by exact Ej. rewrite nth_app_other by congruence. apply R.
      - intros j k q Hj Hk.
        destruct (Nat.eq_dec j (length (i_hs s))) as [Ej|Ej]; [rewrite Ej, nth_app_last in Hj; discriminate|].
        destruct (Nat.eq_dec k (length (i_hs s))) as [Ek|Ek]; [rewrite Ek, nth_app_last in Hk; discriminate|].
        rewrite nth_app_other in Hj, Hk by assumption. exact (D j k q Hj Hk).
      - rewrite cnt_app. cbn. lia. }
    assert (H1 : nth i (i_hs (mk_ist (i_heap s) (i_hs s ++ [Some (mk_handle None 0%nat)]))) None = Some h).
    { cbn [i_hs]. rewrite nth_app_other by lia. exact H. }
    assert (V1 : val (a ++ [Moved]) (length a) = Moved) by (unfold val; apply nth_app_last).
    assert (V2 : val (a ++ [Moved]) i = val a i) by (unfold val; apply nth_app_other; lia).
    assert (N1 : length a <> i) by lia.
    pose proof (inv_take _ _ _ (length a) i h K1 N1 V1 H1) as K2. rewrite V2 in K2. cbn [i_heap i_hs] in K2.
    assert (UA : forall T (l : list T) x y, upd (l ++ [x]) (length l) y = l ++ [y])
      by (clear; intros T l x y; induction l as [|z l IH]; cbn; [reflexivity|]; f_equal; exact IH).
    rewrite UA in K2. rewrite <- L in K2 at 1. rewrite UA in K2.
    rewrite !upd_app_l in K2 by lia. exact K2.
  - assert (VD : val a d <> Dead) by (intros V; rewrite V in E; discriminate).
    assert (VI : val a i <> Dead) by (intros V; rewrite V in E; destruct (val a d); discriminate).
    assert (exists hd, nth d (i_hs s) None = Some hd) as (hd & Hd).
    { pose proof (R d) as Q. destruct (val a d) as [| |ty pos]; [congruence| |].
      - destruct Q as (vt & ->). eauto.
      - destruct Q as (p & -> & _). eauto. }
    assert (exists hi, nth i (i_hs s) None = Some hi) as (hi & Hi).
    { pose proof (R i) as Q. destruct (val a i) as [| |ty pos]; [congruence| |].
      - destruct Q as (vt & ->). eauto.
      - destruct Q as (p & -> & _). eauto. }
    cbn [istep]. rewrite !get_h_nth, Hd, Hi. cbn [bind].
    destruct (Nat.eqb_spec d i) as [->|N].
    { exists s. split; [reflexivity|].
      destruct (val a i) as [| |ty pos]; [congruence| |]; injection E as <- <-; exact K. }
    destruct (val a i) as [| |ty pos] eqn:V2; [congruence|destruct (val a d); discriminate|].
    pose proof (R i) as Q. rewrite V2 in Q. destruct Q as (p & H & NE).
    rewrite Hi in H. injection H as ->.
    unfold op_clone. cbn [h_ptr h_vt]. rewrite (cell_ok _ _ _ _ NE). cbn [bind].
    destruct (val a d) as [| |ty' pos'] eqn:V1; [congruence| |].
    + injection E as <- <-. pose proof (R d) as Q. rewrite V1 in Q. destruct Q as (vt & Q).
      rewrite Hd in Q. injection Q as ->. cbn [op_del h_ptr bind]. eexists. split; [reflexivity|].
      apply inv_give; assumption.
    + destruct (Nat.eqb_spec ty' ty) as [->|NT]; [|discriminate]. injection E as <- <-.
      pose proof (R d) as Q. rewrite V1 in Q. destruct Q as (q & Q & NQ).
      rewrite Hd in Q. injection Q as ->. cbn [op_del h_ptr].
      assert (Lq : (q < length (i_heap s))%nat) by (apply nth_error_Some; congruence).
      rewrite (cell_ok _ q ty pos') by (rewrite nth_error_app1 by exact Lq; exact NQ).
      cbn [bind]. eexists. split; [reflexivity|]. rewrite upd_app_l by exact Lq.
      assert (Ld : (d < length a)%nat) by (apply nth_val_lt; congruence).
      (* the old object is freed, then a new one given *)
      pose proof (inv_free s a lost d q ty pos' K Hd NQ V1) as K1.
      assert (K2 : inv (mk_ist (upd (i_heap s) q None) (upd (i_hs s) d (Some (mk_handle None 0%nat)))) (upd a d Moved) lost).
      { destruct K1 as [L1 R1 D1 C1]. cbn [i_heap i_hs] in *. constructor; cbn [i_heap i_hs].
        - rewrite !upd_length_e. exact L.
        - intros j. unfold val. destruct (Nat.eq_dec j d) as [->|Ej].
          + rewrite !nth_upd_same by lia. cbn. eauto.
          + rewrite !nth_upd_other by exact Ej. pose proof (R1 j) as Q. unfold val in Q.
            rewrite !nth_upd_other in Q by exact Ej. exact Q.
        - intros j k r Hj Hk.
          destruct (Nat.eq_dec j d) as [->|Ej]; [rewrite nth_upd_same in Hj by lia; discriminate|].
          destruct (Nat.eq_dec k d) as [->|Ek]; [rewrite nth_upd_same in Hk by lia; discriminate|].
          rewrite nth_upd_other in Hj, Hk by assumption. exact (D j k r Hj Hk).
        - pose proof (cnt_upd _ is_at _ _ Dead _ (val_nth_error _ _ Ld)) as A1.
          pose proof (cnt_upd _ is_at _ _ Moved _ (val_nth_error _ _ Ld)) as A2.
          cbn in A1, A2. lia. }
      assert (V3 : val (upd a d Moved) d = Moved) by (unfold val; apply nth_upd_same; exact Ld).
      pose proof (inv_give _ _ _ d ty pos K2 V3) as K3. cbn [i_heap i_hs] in K3.
      rewrite !upd_upd, upd_length_e in K3. exact K3.
  - assert (VD : val a d <> Dead) by (intros V; rewrite V in E; discriminate).
    assert (VI : val a i <> Dead) by (intros V; rewrite V in E; destruct (val a d); discriminate).
    assert (exists hd, nth d (i_hs s) None = Some hd) as (hd & Hd).
    { pose proof (R d) as Q. destruct (val a d) as [| |ty pos]; [congruence| |].
      - destruct Q as (vt & ->). eauto.
      - destruct Q as (p & -> & _). eauto. }
    assert (exists hi, nth i (i_hs s) None = Some hi) as (hi & Hi).
    { pose proof (R i) as Q. destruct (val a i) as [| |ty pos]; [congruence| |].
      - destruct Q as (vt & ->). eauto.
      - destruct Q as (p & -> & _). eauto. }
    cbn [istep]. rewrite !get_h_nth, Hd, Hi. cbn [bind].
    destruct (Nat.eqb_spec d i) as [->|N].
    { exists s. split; [reflexivity|].
      destruct (val a i) as [| |ty pos]; [congruence| |]; injection E as <- <-; exact K. }
    eexists. split; [reflexivity|].
    destruct (val a d) as [| |ty' pos'] eqn:V1; [congruence| |].
    + assert (E' : a' = upd (upd a d (val a i)) i Moved /\ lost' = lost)
        by (destruct (val a i); [congruence|injection E as <- <-; split; reflexivity..]).
      destruct E' as (-> & ->). apply inv_take; assumption.
    + assert (E' : a' = upd (upd a d (val a i)) i Moved /\ lost' = Datatypes.S lost)
        by (destruct (val a i); [congruence|injection E as <- <-; split; reflexivity..]).
      destruct E' as (-> & ->).
      pose proof (inv_forget s a lost d 0%nat ty' pos' K V1) as K1.
      assert (Ld : (d < length a)%nat) by (apply nth_val_lt; congruence).
      assert (V3 : val (upd a d Moved) d = Moved) by (unfold val; apply nth_upd_same; exact Ld).
      assert (H3 : nth i (upd (i_hs s) d (Some (mk_handle None 0%nat))) None = Some hi)
        by (rewrite nth_upd_other by congruence; exact Hi).
      assert (V4 : val (upd a d Moved) i = val a i) by (unfold val; apply nth_upd_other; congruence).
      pose proof (inv_take _ _ _ d i hi K1 N V3 H3) as K2. cbn [i_heap i_hs] in K2.
      rewrite V4, !upd_upd in K2. exact K2.
  - destruct (val a i) as [| |ty pos] eqn:V; try discriminate. injection E as <- <-.
    pose proof (R i) as Q. rewrite V in Q. destruct Q as (p & H & N).
    cbn [istep]. rewrite get_h_nth, H. cbn [bind]. unfold op_inc. cbn [h_ptr h_vt].
    rewrite (cell_ok _ _ _ _ N). cbn [bind]. eexists. split; [reflexivity|].
    exact (inv_set _ _ _ _ _ _ _ _ K H N V).
  - destruct (val a i) as [| |ty pos] eqn:V; try discriminate. injection E as <- <-.
    pose proof (R i) as Q. rewrite V in Q. destruct Q as (p & H & N).
    cbn [istep]. rewrite get_h_nth, H. cbn [bind]. unfold op_clone, op_inc. cbn [h_ptr h_vt].
    rewrite (cell_ok _ _ _ _ N). cbn [bind].
    assert (Lp : (p < length (i_heap s))%nat) by (apply nth_error_Some; congruence).
    rewrite (cell_ok _ p ty pos) by (rewrite nth_error_app1 by exact Lp; exact N).
    cbn [bind]. eexists. split; [reflexivity|]. rewrite upd_app_l by exact Lp.
    pose proof (inv_set _ _ _ _ _ _ _ (pos + 1) K H N V) as K1.
    pose proof (inv_push _ _ _ ty pos K1) as K2. cbn [i_heap i_hs] in K2.
    rewrite upd_length_e in K2. exact K2.
  - pose proof (R i) as Q. destruct (val a i) as [| |ty pos] eqn:V; try discriminate; injection E as <- <-.
    + destruct Q as (vt & H). cbn [istep]. rewrite get_h_nth, H. cbn [bind op_del h_ptr].
      eexists. split; [reflexivity|]. apply inv_clear; [exact K|exact V|]. left. split; reflexivity.
    + destruct Q as (p & H & N). cbn [istep]. rewrite get_h_nth, H. cbn [bind op_del h_ptr h_vt].
      rewrite (cell_ok _ _ _ _ N). cbn [bind]. eexists. split; [reflexivity|].
      exact (inv_free _ _ _ _ _ _ _ K H N V).
Qed.

Lemma run_inv : forall ops s a lost a' lost', inv s a lost -> spec_run (a, lost) ops = Some (a', lost') ->
  exists s', irun s ops = Ok s' /\ inv s' a' lost'.
Proof.
  induction ops as [|o ops IH]; intros s a lost a' lost' K E; cbn [spec_run irun] in *.
  - injection E as <- <-. eauto.
  - destruct (spec_step (a, lost) o) as [(a1, lost1)|] eqn:Q; [|discriminate].
    destruct (step_inv _ _ _ _ _ _ K Q) as (s1 & R1 & K1). rewrite R1. cbn [bind].
    exact (IH _ _ _ _ _ K1 E).
Qed.
Lemma inv0 : inv ist0 [] 0.
Proof.
  constructor; cbn; try reflexivity.
  - intros [|i]; reflexivity.
  - intros [|i] j p H; discriminate.
Qed.

Lemma read_inv : forall s a lost i ty pos, inv s a lost -> val a i = At ty pos -> iread s i = Ok pos.
Proof.
  intros s a lost i ty pos K V. pose proof (inv_rel _ _ _ K i) as Q. rewrite V in Q.
  destruct Q as (p & H & N). unfold iread. rewrite get_h_nth, H. cbn [bind h_vt h_ptr].
  rewrite (cell_ok _ _ _ _ N). reflexivity.
Qed.

(** * The statements of the properties *)

Lemma c305_values :
  forall ops a lost, spec_run ([], 0%nat) ops = Some (a, lost) ->
  exists s, irun ist0 ops = Ok s /\ length (i_hs s) = length a /\
    (forall i ty pos, val a i = At ty pos -> iread s i = Ok pos) /\
    (forall checked i j ty p ty2 q, val a i = At ty p -> val a j = At ty2 q ->
       (ty = ty2 -> iequal checked s i j = Ok (p =? q)) /\
       (ty <> ty2 -> iequal true s i j = Throw /\ iequal false s i j = UB)).
Proof.
  intros ops a lost E. destruct (run_inv _ _ _ _ _ _ inv0 E) as (s & R & K). exists s. split; [exact R|].
  split; [exact (inv_len _ _ _ K)|]. split.
  - intros i ty pos V. exact (read_inv _ _ _ _ _ _ K V).
  - intros checked i j ty p ty2 q V W.
    pose proof (inv_rel _ _ _ K i) as Q. rewrite V in Q. destruct Q as (x & H & N).
    pose proof (inv_rel _ _ _ K j) as Q. rewrite W in Q. destruct Q as (y & H2 & N2).
    unfold iequal. rewrite !get_h_nth, H, H2. cbn [bind h_vt h_ptr]. split.
    + intros <-. rewrite Nat.eqb_refl. cbn [negb]. rewrite andb_false_r.
      rewrite (cell_ok _ _ _ _ N), (cell_ok _ _ _ _ N2). reflexivity.
    + intros NE. replace (Nat.eqb ty ty2) with false by (symmetry; apply Nat.eqb_neq; exact NE).
      cbn [negb andb]. split; [reflexivity|]. rewrite (cell_ok _ _ _ _ N). cbn [bind].
      unfold cell. rewrite N2. replace (Nat.eqb ty2 ty) with false by (symmetry; apply Nat.eqb_neq; congruence).
      reflexivity.
Qed.

Lemma c305_no_leak :
  forall ops a, spec_run ([], 0%nat) ops = Some (a, 0%nat) ->
  exists s, irun ist0 ops = Ok s /\ ilive s = engaged a /\
    (Forall (fun v => v = Dead) a -> ilive s = 0%nat).
Proof.
  intros ops a E. destruct (run_inv _ _ _ _ _ _ inv0 E) as (s & R & K). exists s. split; [exact R|].
  pose proof (inv_cnt _ _ _ K) as C. rewrite Nat.add_0_r in C.
  assert (X : ilive s = engaged a) by exact C. split; [exact X|].
  intros F. rewrite X. unfold engaged. clear - F. induction F as [|v a -> F IH]; [reflexivity|]. exact IH.
Qed.

Lemma c305_move_assign_leak_refuted :
  forall ops a lost, spec_run ([], 0%nat) ops = Some (a, lost) ->
  exists s, irun ist0 ops = Ok s /\ ilive s = (engaged a + lost)%nat.
Proof.
  intros ops a lost E. destruct (run_inv _ _ _ _ _ _ inv0 E) as (s & R & K). exists s. split; [exact R|].
  exact (inv_cnt _ _ _ K).
Qed.

Lemma c305_copy_assign_type_refuted :
  forall ops a lost d i ty p ty2 q, spec_run ([], 0%nat) ops = Some (a, lost) ->
  val a d = At ty p -> val a i = At ty2 q -> ty <> ty2 ->
  exists s, irun ist0 ops = Ok s /\ istep s (ICopyAssign d i) = UB.
Proof.
  intros ops a lost d i ty p ty2 q E V W NE. destruct (run_inv _ _ _ _ _ _ inv0 E) as (s & R & K).
  exists s. split; [exact R|].
  pose proof (inv_rel _ _ _ K d) as Q. rewrite V in Q. destruct Q as (x & H & N).
  pose proof (inv_rel _ _ _ K i) as Q. rewrite W in Q. destruct Q as (y & H2 & N2).
  cbn [istep]. rewrite !get_h_nth, H, H2. cbn [bind].
  destruct (Nat.eqb_spec d i) as [->|ND]; [exfalso; congruence|].
  unfold op_clone. cbn [h_ptr h_vt]. rewrite (cell_ok _ _ _ _ N2). cbn [bind op_del].
  unfold cell. rewrite nth_error_app1 by (apply nth_error_Some; congruence). rewrite N.
  replace (Nat.eqb ty ty2) with false by (symmetry; apply Nat.eqb_neq; exact NE). reflexivity.
Qed.

Lemma c306_and_then :
  forall (R : Type) (empty : R) (f : ptr -> R) p,
  (forall a, p = Some a -> and_then empty p f = (f p, [p])) /\ (p = None -> and_then empty p f = (empty, [])).
Proof.
  intros R empty f p. split; [intros a ->; reflexivity|intros ->; reflexivity].
Qed.

Lemma c306_or_else :
  forall (f : unit -> ptr) p q called, or_else p f = (q, called) ->
  (called = true <-> p = None) /\ (p <> None -> q = p) /\ (p = None -> q = f tt) /\
  (f tt <> None -> q <> None).
Proof.
  intros f p q called E. destruct p as [a|]; cbn in E; injection E as <- <-.
  - split; [split; discriminate|]. split; [reflexivity|]. split; [discriminate|]. intros _. discriminate.
  - split; [split; reflexivity|]. split; [congruence|]. split; [reflexivity|]. intros H. exact H.
Qed.

Lemma c306_transform_partial :
  forall (R : Type) (f : ptr -> R) p a, p = Some a -> transform p f = (f p, [p]).
Proof.
  intros R f p a ->. reflexivity.
Qed.

Lemma c306_transform_null_refuted :
  forall (R : Type) (f : ptr -> R), transform None f = (f None, [None]).
Proof.
  reflexivity.
Qed.

Lemma c306_observer :
  forall (T : Type) (mem : Z -> T) checked p q,
  obs_release p = (p, None) /\ obs_reset p q = q /\
  (forall a, p = Some a -> obs_deref checked mem p = Ok (mem a)) /\
  (p = None -> obs_deref true mem p = Throw /\ obs_deref false mem p = UB).
Proof.
  intros T mem checked p q. split; [reflexivity|]. split; [reflexivity|].
  split; [intros a ->; reflexivity|intros ->; split; reflexivity].
Qed.

Lemma c306_order :
  forall p q r,
  (obs_cmp p q = Eq <-> addr_of p = addr_of q) /\
  (obs_cmp p q = Lt <-> obs_cmp q p = Gt) /\
  (obs_cmp p q = Lt -> obs_cmp q r = Lt -> obs_cmp p r = Lt) /\
  ((forall a, p = Some a -> 0 < a) -> p <> None -> obs_cmp None p = Lt).
Proof.
  intros p q r. assert (X : forall p q, obs_cmp p q = (addr_of p ?= addr_of q)).
  { intros x y. unfold obs_cmp. destruct (Z.eqb_spec (addr_of x) (addr_of y)) as [E|E].
    - rewrite E, Z.compare_refl. reflexivity.
    - destruct (Z.ltb_spec (addr_of x) (addr_of y)) as [L|L].
      + symmetry. apply Z.compare_lt_iff. exact L.
      + symmetry. apply Z.compare_gt_iff. lia. }
  rewrite !X. split; [apply Z.compare_eq_iff|]. split; [|split].
  - rewrite Z.compare_gt_iff, Z.compare_lt_iff. reflexivity.
  - rewrite !Z.compare_lt_iff. lia.
  - intros H N. rewrite Z.compare_lt_iff. destruct p as [a|]; [|congruence]. cbn. apply H. reflexivity.
Qed.

Lemma c307_rw_ref :
  forall (T : Type) (mem : Z -> T) a b x,
  load mem (rw_get a) = Ok (mem a) /\
  (exists mem2, store mem (rw_get a) x = Ok mem2 /\ load mem2 (rw_get a) = Ok x /\
     (forall c, c <> a -> mem2 c = mem c)) /\
  rw_get (rw_assign a b) = InMemory b.
Proof.
  intros T mem a b x. split; [reflexivity|]. split; [|reflexivity]. eexists. split; [reflexivity|].
  split; [cbn; rewrite Z.eqb_refl; reflexivity|]. intros c N.
  replace (c =? a) with false by (symmetry; apply Z.eqb_neq; exact N). reflexivity.
Qed.

Lemma c307_prop_const_ptr :
  forall this p d q,
  pcp_sub (pcp_add p d) d = p /\ pcp_diff (pcp_add p d) p = d /\ pcp_add q (pcp_diff p q) = p /\
  fst (pcp_pre_inc this p) = pcp_add p 1 /\ snd (pcp_pre_inc this p) = InMemory this /\
  fst (pcp_post_inc this p) = pcp_add p 1 /\ fst (pcp_post_dec this p) = pcp_sub p 1.
Proof.
  intros. unfold pcp_sub, pcp_add, pcp_diff, pcp_pre_inc, pcp_post_inc, pcp_post_dec. cbn [fst snd].
  split; [lia|]. split; [lia|]. split; [lia|]. repeat split.
Qed.

Lemma c307_postfix_refuted :
  forall (T : Type) (mem : Z -> T) this p,
  load mem (snd (pcp_post_inc this p)) = UB /\ load mem (snd (pcp_post_dec this p)) = UB.
Proof.
  intros; split; reflexivity.
Qed.

Lemma c307_poly_var_refuted :
  forall (T : Type) (mem : Z -> T) a,
  load mem (pv_arrow a) = Ok (mem a) /\ load mem (pv_star a) = UB.
Proof.
  intros; split; reflexivity.
Qed.
