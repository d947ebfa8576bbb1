(** The breadth first walk reaches nodes in order of distance. *)
From Coq Require Import ZifyBool.
From Verif Require Import Common CommonProofs Ints Graph SpecGraph GraphProofs GraphWalkProofs.
Open Scope Z_scope.

Section Bfs.
Context {T : Type}.
Variables (dbg : bool) (g : graph T) (a : agraph T) (ord : nat -> list Z -> list Z).
Hypothesis R : grep g a.
Hypothesis HO : forall k, any_order (ord k).
Variable start : Z.

Definition layered (tr : list Z) : Prop :=
  forall l1 x l2, tr = l1 ++ x :: l2 -> ~ In x l1 -> forall y, In y l1 ->
  forall dx, path_len a start dx x -> exists dy, (dy <= dx)%nat /\ path_len a start dy y.

(** [lp]: the pending nodes with the number of edges by which they were found. *)
Definition binv (lev : nat) (lp : list (Z * nat)) (trace : list Z) : Prop :=
  (forall x l, In (x, l) lp -> (lev <= l <= S lev)%nat /\ path_len a start l x /\ a_has a x = true) /\
  (exists h t, map snd lp = repeat lev h ++ repeat (S lev) t) /\
  (forall x, In x trace -> exists d, (d <= lev)%nat /\ path_len a start d x) /\
  (In start trace \/ In (start, O) lp) /\
  (forall u v d, In u trace -> path_len a start d u -> a_edge a u v = true ->
     In v trace \/ exists l, (l <= S d)%nat /\ In (v, l) lp) /\
  layered trace.

Lemma pending lev lp trace d v : binv lev lp trace -> path_len a start d v ->
  In v trace \/ exists w l, (l <= d)%nat /\ In (w, l) lp.
Proof.
  intros (B1 & B2 & B3 & B4 & B5 & B6) P. induction P as [|d u v P IH E].
  - destruct B4 as [B4 | B4]; [auto|]. right. exists start, O. auto.
  - destruct IH as [IH | (w & l & L & I)].
    + destruct (B5 u v d IH P E) as [H | (l & L & I)]; [auto|]. right. exists v, l. auto.
    + right. exists w, l. auto.
Qed.

Lemma layered_snoc lev x l lp trace :
  binv lev ((x, l) :: lp) trace -> l = lev -> layered (trace ++ [x]).
Proof.
  intros B -> l1 z l2. destruct l2 as [|w l3 _] using rev_ind; intros Eq NI y Hy dx P.
  - apply app_inj_tail in Eq. destruct Eq as (<- & <-).
    destruct (pending _ _ _ dx x B P) as [H | (w & k & L & I)]; [contradiction|].
    destruct B as (B1 & B2 & B3 & _). apply B1 in I. destruct (B3 y Hy) as (dy & L2 & Py).
    exists dy. split; [lia | assumption].
  - rewrite app_comm_cons, app_assoc in Eq. apply app_inj_tail in Eq. destruct Eq as (Eq & _).
    destruct B as (_ & _ & _ & _ & _ & B6). exact (B6 l1 z l3 Eq NI y Hy dx P).
Qed.

Lemma binv_step lev x l lp trace visited c :
  (forall y, In y visited <-> In y trace) ->
  binv lev ((x, l) :: lp) trace -> l = lev -> children a (set_insert x visited) x c ->
  binv lev (lp ++ map (fun y => (y, S lev)) c) (trace ++ [x]).
Proof.
  intros HV B -> HC. pose proof (layered_snoc lev x lev lp trace B eq_refl) as LS.
  pose proof (fun d v => pending lev _ trace d v B) as PD.
  destruct B as (B1 & (h & t & B2) & B3 & B4 & B5 & B6).
  destruct (B1 x lev (or_introl eq_refl)) as (_ & Px & Hx).
  assert (IC : forall y k, In (y, k) (map (fun y => (y, S lev)) c) <-> In y c /\ k = S lev).
  { intros y k. rewrite in_map_iff. split.
    - intros (z & Q & I). injection Q as <- <-. auto.
    - intros (I & ->). exists y. auto. }
  split; [|split; [|split; [|split; [|split]]]].
  - intros y k. rewrite in_app_iff, IC. intros [I | [I ->]]; [apply B1; now right|].
    apply HC in I. destruct I as (E & _). split; [lia|]. split.
    + exact (path_step a start lev x y Px E).
    + apply (edge_has g a R x y E).
  - destruct h as [|h].
    + exfalso. destruct t as [|t]; cbn in B2; [discriminate|]. injection B2 as B2 _. lia.
    + cbn in B2. injection B2 as B2. exists h, (t + length c)%nat.
      rewrite map_app, B2, map_map. cbn [snd]. rewrite repeat_app, app_assoc. do 2 f_equal.
      clear. induction c; cbn; [reflexivity | now f_equal].
  - intros y. rewrite in_app_iff. intros [I | [<- | []]]; [auto|]. exists lev. auto.
  - rewrite !in_app_iff. cbn. destruct B4 as [B4 | [B4 | B4]]; auto. injection B4 as <- _. auto.
  - intros u v d. rewrite in_app_iff. intros I P E.
    assert (EV : forall k, In (v, k) ((x, lev) :: lp) -> In v (trace ++ [x]) \/ In (v, k) (lp ++ map (fun y => (y, S lev)) c)).
    { intros k [Q | Q]; rewrite !in_app_iff; cbn; [|auto]. injection Q as <- _. auto. }
    assert (U : In u trace \/ (u = x /\ ~ In x trace)).
    { destruct I as [I | [<- | []]]; [auto|]. destruct (in_dec Z.eq_dec x trace); auto. }
    destruct U as [I' | (-> & NX)].
    + destruct (B5 u v d I' P E) as [H | (k & L & H)]; [rewrite in_app_iff; auto|].
      destruct (EV k H) as [H' | H']; [auto|]. right. exists k. auto.
    + assert (lev <= d)%nat.
      { destruct (PD d x P) as [H | (w & k & L & H)]; [contradiction|]. apply B1 in H. lia. }
      destruct (in_dec Z.eq_dec v (set_insert x visited)) as [J | J].
      * left. rewrite set_insert_in, HV in J. rewrite in_app_iff. cbn. intuition.
      * right. exists (S lev). split; [lia|]. rewrite in_app_iff, IC. right. split; [|reflexivity]. apply HC. auto.
  - exact LS.
Qed.

Lemma binv_next lev lp trace x l : binv lev ((x, l) :: lp) trace -> exists lev', lev' = l /\ binv lev' ((x, l) :: lp) trace.
Proof.
  intros (B1 & (h & t & B2) & B3 & B4 & B5 & B6). exists l. split; [reflexivity|].
  destruct h as [|h]; cbn in B2.
  - destruct t as [|t]; cbn in B2; [discriminate|]. injection B2 as -> B2.
    split; [|split; [|split; [|split; [|split]]]]; auto.
    + intros y k I. destruct (B1 y k I) as (L & Q). split; [|exact Q].
      destruct I as [I | I]; [injection I as <- <-; lia|].
      assert (In k (map snd lp)) as J by (change k with (snd (y, k)); now apply in_map).
      rewrite B2 in J. apply repeat_spec in J. lia.
    + exists (S t), O. cbn. rewrite B2, app_nil_r. reflexivity.
    + intros y Hy. destruct (B3 y Hy) as (d & L & P). exists d. split; [lia | assumption].
  - injection B2 as -> B2. split; [assumption|]. split; [|auto]. exists (S h), t. cbn. now rewrite B2.
Qed.

Lemma bfs_layered : forall fuel lev visited lp trace tr,
  (forall y, In y visited <-> In y trace) -> binv lev lp trace ->
  walk_loop (fun rest c => rest ++ c) ord dbg g fuel visited (map fst lp) trace = Ok tr -> layered tr.
Proof.
  induction fuel as [|fuel IH]; intros lev visited lp trace tr HV B E.
  - destruct lp; [|discriminate]. injection E as <-. apply B.
  - destruct lp as [|[x l] lp].
    { injection E as <-. apply B. }
    destruct (binv_next lev lp trace x l B) as (lev' & -> & B').
    assert (Hx : a_has a x = true) by (destruct B as (B1 & _); apply (B1 x l); now left).
    cbn [map fst] in E.
    destruct (walk_step dbg g a (fun rest c => rest ++ c) ord R HO visited x (map fst lp) trace Hx) as (c & HC & _ & ST).
    rewrite ST in E.
    pose proof (binv_step l x l lp trace visited c HV B' eq_refl HC) as B2.
    apply (IH l (set_insert x visited) (lp ++ map (fun y => (y, S l)) c) (trace ++ [x]) tr).
    + intros y. rewrite set_insert_in, in_app_iff, HV. cbn. intuition.
    + exact B2.
    + rewrite map_app, map_map. cbn [fst]. rewrite map_id. exact E.
Qed.

Lemma bfs_distance fuel tr : a_has a start = true -> bfs_walk ord dbg g fuel start = Ok tr -> layered tr.
Proof.
  intros HS E. apply (bfs_layered fuel O [] [(start, O)] [] tr); [tauto | | exact E].
  split; [|split; [|split; [|split; [|split]]]].
  - intros x l [Q | []]. injection Q as <- <-. split; [lia|]. split; [constructor | assumption].
  - exists 1%nat, O. reflexivity.
  - intros x [].
  - right. now left.
  - intros u v d [].
  - intros l1 x l2 Q. destruct l1; discriminate.
Qed.
End Bfs.
