(** Proofs about topological_sorted_walk. *)
From Coq Require Import ZifyBool.
From Verif Require Import Common CommonProofs Ints Graph SpecGraph GraphProofs GraphWalkProofs.
Open Scope Z_scope.
Local Arguments Z.mul : simpl never.
Local Arguments Z.add : simpl never.
Local Arguments Z.sub : simpl never.
Local Arguments Z.pow : simpl never.
Local Arguments Z.of_nat : simpl never.

Definition ex_list (ex : list (Z * list Z)) (k : Z) : list Z :=
  match ex_find ex k with Some l => l | None => [] end.

Lemma ex_find_set ex k l j : ex_find (ex_set ex k l) j = if j =? k then Some l else ex_find ex j.
Proof.
  induction ex as [|[k' l'] ex IH]; cbn.
  - destruct (j =? k); reflexivity.
  - destruct (Z.eqb_spec k k') as [-> | E]; cbn.
    + destruct (j =? k'); reflexivity.
    + rewrite IH. destruct (Z.eqb_spec j k') as [-> |]; [|reflexivity].
      now replace (k' =? k) with false by lia.
Qed.

Lemma exclude_in ex from to c f :
  In f (ex_list (exclude_edge ex from to) c) <-> In f (ex_list ex c) \/ (c = to /\ f = from).
Proof.
  unfold exclude_edge, ex_list. rewrite ex_find_set. destruct (Z.eqb_spec c to) as [-> | NE].
  - destruct (ex_find ex to) as [l|]; cbn.
    + destruct (set_mem from l) eqn:M.
      * apply set_mem_spec in M. split; [auto|]. intros [H | [_ ->]]; auto.
      * rewrite in_app_iff. cbn. intuition.
    + intuition.
  - intuition.
Qed.

Lemma exclude_some ex from to : exists l, ex_find (exclude_edge ex from to) to = Some l.
Proof. unfold exclude_edge. rewrite ex_find_set, Z.eqb_refl. eauto. Qed.

Lemma fold_erase_in l : forall s y, In y (fold_left (fun s x => set_erase x s) l s) <-> In y s /\ ~ In y l.
Proof.
  induction l as [|x l IH]; intros s y; cbn [fold_left In]; [tauto|].
  rewrite IH, set_erase_in. intuition.
Qed.

Section Topo.
Context {T : Type}.
Variables (dbg : bool) (g : graph T) (a : agraph T).
Hypothesis R : grep g a.

Notation E u v := (a_edge a u v = true).

Lemma has_parent_ok ex id l :
  a_has a id = true -> ex_find ex id = Some l ->
  exists b, has_parent_nodes dbg g ex id = Ok b /\ (b = false <-> forall p, E p id -> In p l).
Proof.
  intros H F. destruct (get_ok dbg g a id R (has_some a id H)) as (n & G & _ & NV & NO & NI & EO & EI).
  unfold has_parent_nodes. rewrite G. cbn [bind]. destruct (is_nil (gin n)) eqn:N.
  - exists false. split; [reflexivity|]. split; [|reflexivity]. intros _ p Hp. exfalso.
    apply is_nil_iff with (x := p) in N. apply N, EI, Hp.
  - rewrite F. eexists. split; [reflexivity|]. rewrite negb_false_iff, is_nil_iff. split.
    + intros Q p Hp. specialize (Q p). rewrite fold_erase_in, EI in Q.
      destruct (in_dec Z.eq_dec p l); [assumption | tauto].
    + intros Q x. rewrite fold_erase_in, EI. intros (H1 & H2). auto.
Qed.

Definition ready (done : list Z) (x : Z) : Prop := a_has a x = true /\ forall p, E p x -> In p done.

Definition tinv (ex : list (Z * list Z)) (roots trace : list Z) : Prop :=
  NoDup (trace ++ roots) /\
  (forall c f, In f (ex_list ex c) <-> In f trace /\ E f c) /\
  (forall x, In x (trace ++ roots) <-> ready trace x) /\
  parents_first a trace.

Lemma edge_nodes u v : E u v -> a_has a u = true /\ a_has a v = true.
Proof. exact (edge_has g a R u v). Qed.

Lemma topo_children_ok node trace rest ex0 :
  tinv ex0 (node :: rest) trace ->
  forall cs don ex roots,
  (forall c, In c cs -> E node c) -> NoDup (don ++ cs) ->
  NoDup (trace ++ node :: roots) ->
  (forall c f, In f (ex_list ex c) <-> (In f trace /\ E f c) \/ (f = node /\ In c don)) ->
  (forall x, In x (trace ++ node :: roots) <->
     ready trace x \/ (In x don /\ ready (trace ++ [node]) x)) ->
  exists ex' roots',
    topo_children dbg g node cs ex roots = Ok (ex', roots') /\
    NoDup (trace ++ node :: roots') /\
    (forall c f, In f (ex_list ex' c) <-> (In f trace /\ E f c) \/ (f = node /\ In c (don ++ cs))) /\
    (forall x, In x (trace ++ node :: roots') <->
       ready trace x \/ (In x (don ++ cs) /\ ready (trace ++ [node]) x)).
Proof.
  intros (I1 & I2 & I3 & I4).
  assert (NT : ~ In node trace).
  { apply NoDup_remove_2 in I1. rewrite in_app_iff in I1. tauto. }
  induction cs as [|c cs IH]; intros don ex roots HC ND N1 HX HR.
  - exists ex, roots. rewrite app_nil_r. cbn [topo_children]. auto.
  - cbn [topo_children].
    assert (Ec : E node c) by (apply HC; now left).
    destruct (edge_nodes _ _ Ec) as (_ & Hc).
    destruct (exclude_some ex node c) as (l & Fl).
    destruct (has_parent_ok (exclude_edge ex node c) c l Hc Fl) as (b & -> & HB). cbn [bind].
    assert (HX' : forall c0 f, In f (ex_list (exclude_edge ex node c) c0) <->
        (In f trace /\ E f c0) \/ (f = node /\ In c0 (don ++ [c]))).
    { intros c0 f. rewrite exclude_in, HX, in_app_iff. cbn. intuition. }
    assert (HB' : b = false <-> ready (trace ++ [node]) c).
    { rewrite HB. unfold ready. split.
      - intros Q. split; [assumption|]. intros p Hp. specialize (Q p Hp).
        assert (In p (ex_list (exclude_edge ex node c) c)) as Q' by (unfold ex_list; now rewrite Fl).
        apply HX' in Q'. rewrite in_app_iff. cbn. intuition.
      - intros (_ & Q) p Hp. specialize (Q p Hp). rewrite in_app_iff in Q.
        assert (In p (ex_list (exclude_edge ex node c) c)) as Q'.
        { apply HX'. rewrite in_app_iff. cbn in *. intuition. }
        unfold ex_list in Q'. now rewrite Fl in Q'. }
    assert (NR : ~ ready trace c) by (intros (_ & Q); apply NT, Q, Ec).
    assert (ND' : ~ In c don).
    { apply NoDup_remove_2 in ND. rewrite in_app_iff in ND. tauto. }
    replace (don ++ c :: cs) with ((don ++ [c]) ++ cs) by now rewrite <- app_assoc.
    apply IH.
    + intros c0 H0. apply HC. now right.
    + now rewrite <- app_assoc.
    + destruct b; [assumption|]. 
      assert (Permutation (c :: trace ++ node :: roots) (trace ++ node :: c :: roots)) as PM.
      { rewrite (Permutation_middle trace (node :: roots) c). apply Permutation_app_head. apply perm_swap. }
      apply (Permutation_NoDup PM). constructor; [|assumption].
      rewrite HR. tauto.
    + exact HX'.
    + intros x. assert (QQ : In x (trace ++ node :: (if b then roots else c :: roots)) <->
                   In x (trace ++ node :: roots) \/ (x = c /\ b = false)).
      { rewrite !in_app_iff. destruct b; cbn; intuition. }
      rewrite QQ, HR, HB', (in_app_iff don [c]). cbn [In]. split.
      * intros [[Q | [Q1 Q2]] | [-> Q]]; auto.
      * intros [Q | [[Q1 | [<- | []]] Q2]]; auto.
Qed.

Lemma ready_mono l1 l2 x : (forall y, In y l1 -> In y l2) -> ready l1 x -> ready l2 x.
Proof. intros H (Q1 & Q2). split; auto. Qed.

Variables (ord : list Z -> list Z) (ordr ordc : nat -> list Z -> list Z).
Hypothesis HO : any_order ord.
Hypothesis HR : forall k, any_order (ordr k).
Hypothesis HC : forall k, any_order (ordc k).

Lemma require_all_ok ids : (forall i, In i ids -> a_has a i = true) -> g_require_all dbg g ids = Ok tt.
Proof.
  induction ids as [|i ids IH]; intros H; cbn [g_require_all]; [reflexivity|].
  rewrite (require_ok dbg g a i R) by (apply has_some, H; now left). cbn [bind]. apply IH.
  intros. apply H. now right.
Qed.

Lemma parents_first_snoc tr x : parents_first a tr -> (forall p, E p x -> In p tr) -> parents_first a (tr ++ [x]).
Proof.
  intros H HX l1 y l2. destruct l2 as [|z l3 _] using rev_ind; intros Eq p Hp.
  - apply app_inj_tail in Eq. destruct Eq as (<- & <-). auto.
  - rewrite app_comm_cons, app_assoc in Eq. apply app_inj_tail in Eq. destruct Eq as (Eq & _).
    exact (H l1 y l3 Eq p Hp).
Qed.

Lemma topo_parts ex node rest trace :
  tinv ex (node :: rest) trace ->
  exists n ex' roots', g_get dbg g node = Ok n /\ nrep a node n /\ g_require_all dbg g (gout n) = Ok tt /\
    topo_children dbg g node (ordc (length trace) (gout n)) ex rest = Ok (ex', roots') /\
    tinv ex' (ordr (S (length trace)) roots') (trace ++ [node]).
Proof.
  intros I. pose proof I as (I1 & I2 & I3 & I4).
  assert (RN : ready trace node) by (apply I3; rewrite in_app_iff; cbn; auto).
  destruct RN as (Hn & Pn).
  destruct (get_ok dbg g a node R (has_some a node Hn)) as (n & G & _ & NV & NO & NI & EO & EI).
  exists n.
  destruct (topo_children_ok node trace rest ex I (ordc (length trace) (gout n)) [] ex rest)
    as (ex' & roots' & TC & N' & X' & R').
  - intros c Hc. rewrite (ord_in _ _ c (HC _)) in Hc. now apply EO.
  - cbn. apply ord_nodup; [apply HC | assumption].
  - assumption.
  - intros c f. rewrite I2. cbn. tauto.
  - intros x. rewrite I3. cbn. tauto.
  - exists ex', roots'. split; [exact G|]. split; [repeat (split; [assumption|]); assumption|]. split.
    { apply require_all_ok. intros i Hi. apply EO in Hi. apply (edge_nodes _ _ Hi). }
    split; [exact TC|].
    assert (CH : forall x, In x ([] ++ ordc (length trace) (gout n)) <-> E node x).
    { intros x. cbn. rewrite (ord_in _ _ x (HC _)). apply EO. }
    assert (PM : Permutation (trace ++ node :: roots') ((trace ++ [node]) ++ ordr (S (length trace)) roots')).
    { rewrite <- app_assoc. cbn. apply Permutation_app_head, perm_skip, HR. }
    split; [|split; [|split]].
    + exact (Permutation_NoDup PM N').
    + intros c f. rewrite X', CH, in_app_iff. cbn. intuition; subst; auto.
    + intros x. transitivity (In x (trace ++ node :: roots')).
      { split; apply Permutation_in; [apply Permutation_sym|]; assumption. }
      rewrite R', CH. split.
      * intros [H | [_ H]]; [|assumption]. revert H. apply ready_mono. intros. apply in_app_iff. auto.
      * intros (H1 & H2). destruct (a_edge a node x) eqn:En; [right; split; [reflexivity | split; assumption]|].
        left. split; [assumption|]. intros p Hp. specialize (H2 p Hp). rewrite in_app_iff in H2. cbn in H2.
        destruct H2 as [H2 | [H2 | []]]; [assumption|]. subst p. congruence.
    + now apply parents_first_snoc.
Qed.

Lemma topo_step fuel ex node rest trace :
  tinv ex (node :: rest) trace ->
  exists ex' roots',
    topo_loop ordr ordc dbg g (S fuel) ex (node :: rest) trace =
    topo_loop ordr ordc dbg g fuel ex' roots' (trace ++ [node]) /\
    tinv ex' roots' (trace ++ [node]).
Proof.
  intros I. destruct (topo_parts ex node rest trace I) as (n & ex' & roots' & G & _ & Q & C & I').
  exists ex', (ordr (S (length trace)) roots'). cbn [topo_loop]. rewrite G. cbn [bind]. rewrite Q. cbn [bind].
  rewrite C. cbn [bind]. split; [reflexivity | exact I'].
Qed.

Lemma topo_loop_ok : forall fuel ex roots trace,
  tinv ex roots trace -> (length (gnodes g) <= fuel + length trace)%nat ->
  exists ex' tr, topo_loop ordr ordc dbg g fuel ex roots trace = Ok tr /\ tinv ex' [] tr.
Proof.
  induction fuel as [|fuel IH]; intros ex roots trace I L.
  - destruct roots as [|node rest]; [exists ex, trace; auto|]. exfalso.
    assert (length (trace ++ node :: rest) <= length (map fst (gnodes g)))%nat.
    { apply NoDup_incl_length; [apply I|]. intros x Hx. apply I in Hx. apply (rep_has_keys g a x R), Hx. }
    rewrite app_length, map_length in H. cbn in H. lia.
  - destruct roots as [|node rest]; [exists ex, trace; auto|].
    destruct (topo_step fuel ex node rest trace I) as (ex' & roots' & -> & I').
    apply (IH ex' roots' _ I'). rewrite app_length. cbn. lia.
Qed.

(** The closed set: which nodes have all their ancestors in the trace. *)
Lemma closed_acyclic tr :
  (forall x, In x tr <-> ready tr x) -> parents_first a tr ->
  forall x, In x tr <-> a_has a x = true /\ forall c, reaches a c x -> ~ on_cycle a c.
Proof.
  intros HI PF x. split.
  - intros Hx. split; [now apply HI|].
    assert (PRE : forall l1 l2, tr = l1 ++ l2 -> forall y, In y l1 -> forall c, reaches a c y -> ~ on_cycle a c).
    { induction l1 as [|z l1 IH] using rev_ind; intros l2 Eq y Hy c RC; [destruct Hy|].
      rewrite <- app_assoc in Eq. cbn in Eq.
      rewrite in_app_iff in Hy. destruct Hy as [Hy | [<- | []]]; [exact (IH _ Eq y Hy c RC)|].
      assert (PZ : forall p, E p z -> forall c, reaches a c p -> ~ on_cycle a c).
      { intros p Hp. apply (IH _ Eq p). exact (PF l1 z l2 Eq p Hp). }
      intros CY. inversion RC as [|v w RC' EV]; subst.
      - pose proof CY as (w & Ew & RW). inversion RW as [|v w' RW' EV]; subst.
        + apply (PZ z Ew z); [constructor | assumption].
        + apply (PZ v EV z); [|assumption]. exact (reaches_left a z w v Ew RW').
      - exact (PZ v EV c RC' CY). }
    intros c RC. apply (PRE tr [] (eq_sym (app_nil_r tr)) x Hx c RC).
  - intros (Hx & NC). destruct (in_dec Z.eq_dec x tr) as [I | NI]; [assumption|]. exfalso.
    assert (PRED : forall y, a_has a y = true -> ~ In y tr -> exists p, E p y /\ ~ In p tr).
    { intros y Hy NY. destruct (rep_find g a y R (has_some a y Hy)) as (n & _ & _ & _ & _ & _ & EI).
      destruct (existsb (fun p => negb (set_mem p tr)) (gin n)) eqn:EX.
      - apply existsb_exists in EX. destruct EX as (p & Hp & Np). exists p. split; [now apply EI|].
        apply set_mem_false. now apply negb_true_iff.
      - exfalso. apply NY, HI. split; [assumption|]. intros p Hp. apply EI in Hp.
        destruct (in_dec Z.eq_dec p tr) as [I | I]; [assumption|]. exfalso.
        assert (existsb (fun p => negb (set_mem p tr)) (gin n) = true) as X; [|congruence].
        apply existsb_exists. exists p. split; [assumption|]. apply negb_true_iff. now apply set_mem_false. }
    assert (CH : forall k, exists y l, length l = k /\ NoDup (y :: l) /\
              (forall z, In z (y :: l) -> a_has a z = true /\ ~ In z tr /\ reaches a y z) /\ reaches a y x).
    { induction k as [|k IH].
      - exists x, []. split; [reflexivity|]. split; [constructor; [intros [] | constructor]|].
        split; [|constructor]. intros z [<- | []]. split; [assumption|]. split; [assumption | constructor].
      - destruct IH as (y & l & Ll & ND & HZ & RX).
        destruct (HZ y (or_introl eq_refl)) as (Hy & NY & _).
        destruct (PRED y Hy NY) as (p & Ep & Np).
        exists p, (y :: l). split; [cbn; congruence|].
        assert (NIp : ~ In p (y :: l)).
        { intros I. destruct (HZ p I) as (_ & _ & RP). apply (NC p).
          - exact (reaches_left a p y x Ep RX).
          - exists y. auto. }
        split; [now constructor|]. split; [|exact (reaches_left a p y x Ep RX)].
        intros z [<- | Hz].
        + split; [apply (edge_nodes _ _ Ep)|]. split; [assumption | constructor].
        + destruct (HZ z Hz) as (Q1 & Q2 & Q3). split; [assumption|]. split; [assumption|].
          exact (reaches_left a p y z Ep Q3). }
    destruct (CH (length (gnodes g))) as (y & l & Ll & ND & HZ & _).
    assert (length (y :: l) <= length (map fst (gnodes g)))%nat as LE.
    { apply NoDup_incl_length; [assumption|]. intros z Hz. apply (rep_has_keys g a z R). now apply HZ. }
    rewrite map_length in LE. cbn in LE. lia.
Qed.

Lemma topo_ok fuel : (length (gnodes g) <= fuel)%nat ->
  exists tr, topological_sorted_walk ord ordr ordc dbg g fuel = Ok tr /\ NoDup tr /\ parents_first a tr /\
    forall x, In x tr <-> a_has a x = true /\ forall c, reaches a c x -> ~ on_cycle a c.
Proof.
  intros L. unfold topological_sorted_walk.
  destruct (find_roots_ok ord dbg g a HO R) as (r & -> & NR & Hr). cbn [bind].
  rewrite require_all_ok by (intros i Hi; now apply Hr). cbn [bind].
  destruct (topo_loop_ok fuel [] (ordr O (rev r)) []) as (ex' & tr & Et & I).
  - assert (PM : forall x, In x (ordr O (rev r)) <-> In x r).
    { intros x. rewrite (ord_in _ _ x (HR _)). symmetry. apply in_rev. }
    split; [|split; [|split]].
    + cbn. apply ord_nodup; [apply HR|]. now apply NoDup_rev.
    + intros c f. cbn. tauto.
    + intros x. cbn [app]. rewrite PM, Hr. unfold ready. split; intros (H1 & H2); (split; [assumption|]).
      * intros p Hp. rewrite H2 in Hp. discriminate.
      * intros u. apply not_true_is_false. intros Hu. exact (H2 u Hu).
    + intros l1 x l2 Eq. destruct l1; discriminate.
  - cbn. lia.
  - exists tr. split; [assumption|]. destruct I as (I1 & I2 & I3 & I4). rewrite app_nil_r in *.
    split; [assumption|]. split; [assumption|]. now apply closed_acyclic.
Qed.

Lemma topo_acyclic fuel : (length (gnodes g) <= fuel)%nat -> acyclic a ->
  exists tr, topological_sorted_walk ord ordr ordc dbg g fuel = Ok tr /\ NoDup tr /\ parents_first a tr /\
    forall x, In x tr <-> a_has a x = true.
Proof.
  intros L A. destruct (topo_ok fuel L) as (tr & Et & N & P & H). exists tr.
  split; [assumption|]. split; [assumption|]. split; [assumption|]. intros x. rewrite H.
  split; [tauto|]. intros Hx. split; [assumption|]. intros c _ (w & Ew & Rw). exact (A c w Ew Rw).
Qed.

Lemma reverse_topo_ok fuel : (length (gnodes g) <= fuel)%nat ->
  exists tr, topological_sorted_walk ord ordr ordc dbg g fuel = Ok tr /\
    reverse_topological_sorted_walk ord ordr ordc dbg g fuel = Ok (rev tr).
Proof.
  intros L. destruct (topo_ok fuel L) as (tr & Et & N & P & H). exists tr. split; [assumption|].
  unfold reverse_topological_sorted_walk. rewrite Et. cbn [bind].
  rewrite require_all_ok; [reflexivity|]. intros i Hi. apply in_rev in Hi. now apply H.
Qed.
End Topo.
