(** Proofs about mst. *)
From Coq Require Import ZifyBool.
From Verif Require Import Common CommonProofs Ints Graph SpecGraph GraphProofs GraphWalkProofs.
Open Scope Z_scope.
Local Arguments Z.mul : simpl never.
Local Arguments Z.add : simpl never.
Local Arguments Z.sub : simpl never.
Local Arguments Z.pow : simpl never.
Local Arguments Z.of_nat : simpl never.

Section Mst.
Context {T : Type}.
Implicit Types (g : graph T) (a : agraph T) (n : gnode T).

Inductive treach (te : list (Z * Z)) (r : Z) : Z -> Prop :=
| t_self : treach te r r
| t_step : forall u v, treach te r u -> In (u, v) te -> treach te r v.

Lemma treach_cons te r e v : treach te r v -> treach (e :: te) r v.
Proof. intros H. induction H; [constructor | econstructor; [eassumption | now right]]. Qed.

Section Loop.
Variables (dbg : bool) (ord : nat -> list Z -> list Z) (r : Z) (a0 : agraph T).
Hypothesis HO : forall k, any_order (ord k).

Record minv g a (visited : list Z) (path : list (option Z * Z)) (te : list (Z * Z)) : Prop := {
  m_rep : grep g a;
  m_node : forall k, a_node a k = a_node a0 k;
  m_out : forall u v, ~ In u visited -> a_edge a u v = a_edge a0 u v;
  m_in : forall u v, In u visited -> (a_edge a u v = true <-> In (u, v) te \/ In (Some u, v) path);
  m_sub : forall u v, a_edge a u v = true -> a_edge a0 u v = true;
  m_nodup : NoDup path;
  m_path : forall p, In p path -> exists u v, p = (Some u, v) /\ In u visited /\ ~ In (u, v) te;
  m_all : forall u v, In u visited -> a_edge a0 u v = true -> In v visited \/ In (Some u, v) path;
  m_te : forall u v, In (u, v) te -> In u visited /\ In v visited /\ v <> r;
  m_fun : forall u u' v, In (u, v) te -> In (u', v) te -> u = u';
  m_par : forall v, In v visited -> v <> r -> exists u, In (u, v) te;
  m_reach : forall v, In v visited -> treach te r v;
  m_root : In r visited
}.

Lemma map_find_keys g a k : grep g a -> a_has a k = true -> In k (map fst (gnodes g)).
Proof. intros R. apply (rep_has_keys g a k R). Qed.

Lemma minv_visited g a visited p cur rest te :
  minv g a visited ((Some p, cur) :: rest) te -> In cur visited ->
  exists g' a', g_remove_directed dbg g p cur = Ok g' /\ minv g' a' visited rest te /\
    map fst (gnodes g') = map fst (gnodes g).
Proof.
  intros M V. destruct M as [M1 M2 M3 M4 M5 M6 M7 M8 M9 M10 M11 M12 M13].
  assert (HP : In p visited /\ ~ In (p, cur) te).
  { destruct (M7 _ (or_introl eq_refl)) as (u & v & Q & H1 & H2). injection Q as <- <-. auto. }
  destruct HP as (Vp & Tp).
  assert (Ep : a_edge a p cur = true) by (apply M4; [assumption | right; now left]).
  pose proof (edge_has g a M1 p cur Ep) as (Hp & Hc).
  inversion M6 as [|x l N1 N2]; subst.
  destruct (step_rep (fun l => l) dbg g a (GRemoveDirected p cur) []
     {| a_next := a_next a; a_node := a_node a;
        a_edge := fun x y => negb (edge_is p cur x y) && a_edge a x y |}) as (g' & Eg & R').
  { intros l; apply Permutation_refl. }
  { assumption. }
  { cbn [agraph_step]. rewrite Hp, Hc. reflexivity. }
  cbn [graph_step] in Eg. destruct (g_remove_directed dbg g p cur) as [g1| | |] eqn:E1; try discriminate.
  cbn [bind] in Eg. injection Eg as <-.
  exists g1. eexists. split; [reflexivity|]. split.
  - constructor; [exact R' |..]; cbn [a_node a_edge]; try assumption.
    + intros u v NU. rewrite <- (M3 u v NU).
      replace (edge_is p cur u v) with false; [reflexivity|]. unfold edge_is.
      symmetry. apply andb_false_iff. left. apply Z.eqb_neq. intros ->. auto.
    + intros u v Vu. rewrite andb_true_iff, edge_is_not, (M4 u v Vu). cbn [In]. split.
      * intros (X & [Y | [Y | Y]]); auto. injection Y as <- <-. tauto.
      * intros [X | X]; (split; [|auto]); intros (-> & ->); auto.
    + intros u v. rewrite andb_true_iff. intros (_ & X). auto.
    + intros q Hq. apply M7. now right.
    + intros u v Vu Ev. destruct (M8 u v Vu Ev) as [X | [X | X]]; auto. injection X as <- <-. auto.
  - unfold g_remove_directed in E1. 
    repeat match type of E1 with
    | bind ?x _ = Ok _ => let q := fresh "q" in let Eq := fresh "Eq" in
        destruct x as [q| | |] eqn:Eq; cbn [bind] in E1; try discriminate
    end.
    assert (U : forall h h' k f, g_update dbg h k f = Ok h' -> map fst (gnodes h') = map fst (gnodes (T := T) h)).
    { intros h h' k f. unfold g_update. destruct (g_get dbg h k); cbn [bind]; intros Q; try discriminate.
      injection Q as <-. apply map_set_keys. }
    apply U in E1. apply U in Eq1. congruence.
Qed.

Lemma minv_new g a visited p cur rest te n k :
  minv g a visited ((Some p, cur) :: rest) te -> ~ In cur visited -> nrep a cur n ->
  minv g a (set_insert cur visited) (rev (map (fun i => (Some cur, i)) (ord k (gout n))) ++ rest)
       ((p, cur) :: te).
Proof.
  intros M V NR. destruct M as [M1 M2 M3 M4 M5 M6 M7 M8 M9 M10 M11 M12 M13].
  destruct NR as (NV & NO & NI & EO & EI).
  assert (HP : In p visited /\ ~ In (p, cur) te).
  { destruct (M7 _ (or_introl eq_refl)) as (u & v & Q & H1 & H2). injection Q as <- <-. auto. }
  destruct HP as (Vp & Tp). inversion M6 as [|x l N1 N2]; subst.
  assert (NEW : forall q, In q (rev (map (fun i => (Some cur, i)) (ord k (gout n)))) <->
                 exists v, q = (Some cur, v) /\ a_edge a cur v = true).
  { intros q. rewrite <- in_rev, in_map_iff. split.
    - intros (v & <- & Hv). rewrite (ord_in _ _ v (HO _)) in Hv. exists v. split; [reflexivity|]. now apply EO.
    - intros (v & -> & Hv). exists v. split; [reflexivity|]. rewrite (ord_in _ _ v (HO _)). now apply EO. }
  assert (RS : forall u v, In (Some u, v) rest -> In u visited /\ ~ In (u, v) te).
  { intros u v Hq. destruct (M7 (Some u, v) (or_intror Hq)) as (u' & v' & Q & H1 & H2). injection Q as <- <-. auto. }
  constructor; try assumption.
  - intros u v. rewrite set_insert_in. intros X. apply M3. tauto.
  - intros u v. rewrite set_insert_in, in_app_iff, NEW. cbn [In]. intros [-> | Vu].
    + split.
      * intros X. right. left. eauto.
      * intros [[X | X] | [(w & X & Y) | X]].
        -- injection X as -> ->. contradiction.
        -- apply M9 in X. tauto.
        -- injection X as <-. assumption.
        -- apply RS in X. tauto.
    + rewrite (M4 u v Vu). cbn [In]. split.
      * intros [X | [X | X]]; auto. injection X as <- <-. auto.
      * intros [[X | X] | [(w & X & Y) | X]]; auto.
        -- injection X as <- <-. auto.
        -- injection X as -> ->. contradiction.
  - apply NoDup_app_intro.
    + apply NoDup_rev. apply FinFun.Injective_map_NoDup.
      * intros x y Q. now injection Q.
      * apply ord_nodup; [apply HO | assumption].
    + assumption.
    + intros q Hq HN. apply NEW in HN. destruct HN as (v & -> & _). apply RS in Hq. tauto.
  - intros q. rewrite in_app_iff, NEW. intros [(v & -> & Ev) | Hq].
    + exists cur, v. split; [reflexivity|]. split; [apply set_insert_in; auto|]. cbn.
      intros [X | X]; [injection X as -> ->; contradiction|]. apply M9 in X. tauto.
    + destruct (M7 q (or_intror Hq)) as (u & v & -> & H1 & H2). exists u, v. split; [reflexivity|].
      split; [apply set_insert_in; auto|]. cbn. intros [X | X]; [|auto]. injection X as -> ->. contradiction.
  - intros u v. rewrite !set_insert_in, in_app_iff, NEW. intros [-> | Vu] Ev.
    + right. left. exists v. split; [reflexivity|]. now rewrite (M3 cur v V).
    + destruct (M8 u v Vu Ev) as [X | [X | X]]; auto. injection X as <- <-. auto.
  - intros u v. rewrite !set_insert_in. intros [X | X].
    + injection X as <- <-. split; [auto|]. split; [auto|]. intros ->. contradiction.
    + apply M9 in X. tauto.
  - intros u u' v [X | X] [Y | Y].
    + congruence.
    + injection X as <- <-. apply M9 in Y. tauto.
    + injection Y as <- <-. apply M9 in X. tauto.
    + eauto.
  - intros v. rewrite set_insert_in. intros [-> | Vv] NE.
    + exists p. now left.
    + destruct (M11 v Vv NE) as (u & X). exists u. now right.
  - intros v. rewrite set_insert_in. intros [-> | Vv].
    + apply (t_step _ r p cur); [apply treach_cons; auto | now left].
    + apply treach_cons. auto.
  - apply set_insert_in. auto.
Qed.

Lemma mst_loop_ends : forall u i g a visited path te,
  (unvisited g visited <= u)%nat -> (length path <= i)%nat -> minv g a visited path te ->
  exists k g' a' visited' te', minv g' a' visited' [] te' /\
    forall fuel, (k <= fuel)%nat -> mst_loop ord dbg g fuel visited path = Ok g'.
Proof.
  induction u as [u IHu] using lt_wf_ind. induction i as [i IHi] using lt_wf_ind.
  intros g a visited path te LU LI M. destruct path as [|[q cur] rest].
  { exists O, g, a, visited, te. split; [assumption|]. intros [|fuel] _; reflexivity. }
  assert (QP : exists p, q = Some p /\ In p visited).
  { destruct (m_path _ _ _ _ _ M _ (or_introl eq_refl)) as (x & y & Q & H & _). injection Q as -> ->. eauto. }
  destruct QP as (p & -> & Vp).
  destruct (set_mem cur visited) eqn:MV.
  - apply set_mem_spec in MV.
    destruct (minv_visited g a visited p cur rest te M MV) as (g1 & a1 & E1 & M1 & K1).
    destruct (IHi (length rest)) with (4 := M1) as (k & g' & a' & v' & te' & M' & F'); try (cbn in LI; lia).
    { unfold unvisited in *. now rewrite K1. }
    exists (S k), g', a', v', te'. split; [assumption|]. intros [|fuel] L; [lia|].
    cbn [mst_loop]. apply set_mem_spec in MV. rewrite MV, E1. cbn [bind]. apply F'. lia.
  - pose proof MV as MV'. apply set_mem_false in MV.
    assert (Ep : a_edge a p cur = true) by (apply M; [assumption | right; now left]).
    pose proof (edge_has g a (m_rep _ _ _ _ _ M) p cur Ep) as (_ & Hc).
    destruct (get_ok dbg g a cur (m_rep _ _ _ _ _ M) (has_some a cur Hc)) as (n & G & _ & NR).
    pose proof (minv_new g a visited p cur rest te n (length (set_insert cur visited)) M MV NR) as M'.
    destruct (IHu (unvisited g (set_insert cur visited))) with (4 := M')
      (i := length (rev (map (fun i => (Some cur, i)) (ord (length (set_insert cur visited)) (gout n))) ++ rest))
      as (k & g' & a' & v' & te' & M2 & F'); try lia.
    { pose proof (unvisited_lt g a (m_rep _ _ _ _ _ M) visited cur Hc MV'). lia. }
    exists (S k), g', a', v', te'. split; [assumption|]. intros [|fuel] L; [lia|].
    cbn [mst_loop]. rewrite MV', (require_ok dbg g a cur (m_rep _ _ _ _ _ M) (has_some a cur Hc)). cbn [bind].
    rewrite G. cbn [bind]. apply F'. lia.
Qed.

Lemma minv_start g n k : grep g a0 -> nrep a0 r n ->
  minv g a0 [r] (rev (map (fun i => (Some r, i)) (ord k (gout n))) ++ []) [].
Proof.
  intros R (NV & NO & NI & EO & EI). rewrite app_nil_r.
  assert (NEW : forall q, In q (rev (map (fun i => (Some r, i)) (ord k (gout n)))) <->
                 exists v, q = (Some r, v) /\ a_edge a0 r v = true).
  { intros q. rewrite <- in_rev, in_map_iff. split.
    - intros (v & <- & Hv). rewrite (ord_in _ _ v (HO _)) in Hv. exists v. split; [reflexivity|]. now apply EO.
    - intros (v & -> & Hv). exists v. split; [reflexivity|]. rewrite (ord_in _ _ v (HO _)). now apply EO. }
  constructor; auto.
  - intros u v [<- | []]. rewrite NEW. cbn. split; [eauto|]. intros [[] | (w & X & Y)]. now injection X as <-.
  - apply NoDup_rev. apply FinFun.Injective_map_NoDup.
    + intros x y Q. now injection Q.
    + apply ord_nodup; [apply HO | assumption].
  - intros q Hq. apply NEW in Hq. destruct Hq as (v & -> & _). exists r, v. cbn. auto.
  - intros u v [<- | []] Ev. right. apply NEW. eauto.
  - intros u v [].
  - intros u u' v [].
  - intros v [<- | []]. congruence.
  - intros v [<- | []]. constructor.
  - now left.
Qed.

Lemma minv_spans g a visited te : minv g a visited [] te -> spans a0 r a.
Proof.
  intros [M1 M2 M3 M4 M5 M6 M7 M8 M9 M10 M11 M12 M13].
  assert (ED : forall u v, In (u, v) te -> a_edge a u v = true).
  { intros u v X. apply M4; [now apply M9 in X | auto]. }
  assert (TR : forall v, treach te r v -> reaches a r v).
  { intros v X. induction X as [|u v X IH Y]; [constructor|]. apply (reach_step a r u v IH). auto. }
  assert (V1 : forall v, reaches a0 r v <-> In v visited).
  { intros v. split.
    - intros X. induction X as [|u v X IH Y]; [assumption|]. destruct (M8 u v IH Y) as [Z1 | []]. assumption.
    - intros X. apply M12, TR in X. induction X as [|u v X IH Y]; [constructor|]. apply (reach_step a0 r u v IH). auto. }
  split; [assumption|]. split; [assumption|]. split; [|split; [|split]].
  - intros u v H. rewrite V1. destruct (in_dec Z.eq_dec u visited) as [I | I]; [auto|].
    left. now rewrite M3.
  - intros v. rewrite V1. split.
    + intros X. apply V1. induction X as [|u v X IH Y]; [constructor|]. apply (reach_step a0 r u v IH). auto.
    + auto.
  - intros v Hv NE. apply V1 in Hv. destruct (M11 v Hv NE) as (u & Hu). exists u.
    split; [apply V1; now apply M9 in Hu|]. split; [auto|].
    intros u' Hu' Eu'. apply V1 in Hu'. apply (M4 u' v Hu') in Eu'. destruct Eu' as [Eu' | []]. eauto.
  - intros u Hu. apply V1 in Hu. apply not_true_is_false. intros X. apply (M4 u r Hu) in X.
    destruct X as [X | []]. apply M9 in X. tauto.
Qed.
End Loop.

Lemma mst_one dbg ord r g a0 :
  (forall k, any_order (ord k)) -> grep g a0 -> a_has a0 r = true ->
  exists k g' a', grep g' a' /\ spans a0 r a' /\
    forall fuel, (k <= fuel)%nat -> mst_loop ord dbg g fuel [] [(None, r)] = Ok g'.
Proof.
  intros HO R Hr.
  destruct (get_ok dbg g a0 r R (has_some a0 r Hr)) as (n & G & _ & NR).
  pose proof (minv_start ord r a0 HO g n (length (set_insert r [])) R NR) as M.
  destruct (mst_loop_ends dbg ord r a0 HO _ _ g a0 _ _ _ (le_n _) (le_n _) M)
    as (k & g' & a' & v' & te' & M' & F').
  exists (S k), g', a'. split; [apply M'|]. split; [exact (minv_spans r a0 g' a' v' te' M')|].
  intros [|fuel] L; [lia|]. cbn [mst_loop set_mem existsb].
  rewrite (require_ok dbg g a0 r R (has_some a0 r Hr)). cbn [bind]. rewrite G. cbn [bind].
  apply F'. lia.
Qed.

(** A node reachable from one of the roots stays so when one root's part is cut
    down. *)
Lemma spans_covers a r a' (rs : list Z) : spans a r a' -> In r rs ->
  forall v, (exists q, In q rs /\ reaches a q v) <-> (exists q, In q rs /\ reaches a' q v).
Proof.
  intros (S1 & S2 & S3 & S4 & S5 & S6) Hr v. split.
  - intros (q & Hq & RQ).
    assert (K : reaches a r v \/ reaches a' q v).
    { induction RQ as [|x y RQ IH Ey]; [right; constructor|].
      destruct IH as [IH | IH]; [left; exact (reach_step a r x y IH Ey)|].
      destruct (S3 x y Ey) as [E' | RX]; [right; exact (reach_step a' q x y IH E')|].
      left. exact (reach_step a r x y RX Ey). }
    destruct K as [K | K]; [|eauto]. exists r. split; [assumption|]. now apply S4.
  - intros (q & Hq & RQ). exists q. split; [assumption|].
    induction RQ as [|x y RQ IH Ey]; [constructor|]. apply (reach_step a q x y IH). auto.
Qed.

Lemma mst_roots_ok dbg ord : (forall k, any_order (ord k)) -> forall todo rs g a,
  grep g a -> (forall q, In q todo -> In q rs /\ a_has a q = true) ->
  exists k g' a', grep g' a' /\ (forall x, a_node a' x = a_node a x) /\
    (forall u v, a_edge a' u v = true -> a_edge a u v = true) /\
    (forall v, (exists q, In q rs /\ reaches a q v) <-> (exists q, In q rs /\ reaches a' q v)) /\
    forall fuel, (k <= fuel)%nat -> mst_roots ord dbg g fuel todo = Ok g'.
Proof.
  intros HO. induction todo as [|r todo IH]; intros rs g a R HT.
  - exists O, g, a. split; [assumption|]. split; [reflexivity|]. split; [auto|]. split; [tauto|]. reflexivity.
  - destruct (HT r (or_introl eq_refl)) as (Hr & Hn).
    destruct (mst_one dbg ord r g a HO R Hn) as (k1 & g1 & a1 & R1 & SP & F1).
    pose proof SP as (P1 & P2 & P3 & P4 & P5 & P6).
    destruct (IH rs g1 a1 R1) as (k2 & g2 & a2 & R2 & N2 & E2 & C2 & F2).
    { intros q Hq. destruct (HT q (or_intror Hq)) as (X & Y). split; [assumption|].
      unfold a_has in *. now rewrite P1. }
    exists (k1 + k2)%nat, g2, a2. split; [assumption|]. split; [congruence|]. split; [auto|]. split.
    + intros v. rewrite <- C2. apply (spans_covers a r a1 rs SP Hr).
    + intros fuel L. cbn [mst_roots]. rewrite F1 by lia. cbn [bind]. apply F2. lia.
Qed.

Lemma mst_ok dbg ordn ord g a : any_order ordn -> (forall k, any_order (ord k)) -> grep g a ->
  exists k g' a', grep g' a' /\ (forall x, a_node a' x = a_node a x) /\
    (forall u v, a_edge a' u v = true -> a_edge a u v = true) /\
    (forall v, (exists q, is_root a q /\ reaches a q v) <-> (exists q, is_root a q /\ reaches a' q v)) /\
    forall fuel, (k <= fuel)%nat -> mst ordn ord dbg g fuel = Ok g'.
Proof.
  intros HN HO R. destruct (find_roots_ok ordn dbg g a HN R) as (rs & E & _ & HR).
  destruct (mst_roots_ok dbg ord HO rs rs g a R) as (k & g' & a' & R' & N' & E' & C' & F').
  { intros q Hq. split; [assumption|]. now apply HR. }
  exists k, g', a'. split; [assumption|]. split; [assumption|]. split; [assumption|]. split.
  - intros v. specialize (C' v). unfold is_root.
    split; intros (q & Hq & RQ).
    + destruct C' as [C' _]. destruct C' as (q' & Hq' & RQ'); [exists q; split; [now apply HR | assumption]|].
      exists q'. split; [now apply HR | assumption].
    + destruct C' as [_ C']. destruct C' as (q' & Hq' & RQ'); [exists q; split; [now apply HR | assumption]|].
      exists q'. split; [now apply HR | assumption].
  - intros fuel L. unfold mst. rewrite E. cbn [bind]. now apply F'.
Qed.

Lemma mst_single dbg ordn ord g a r : any_order ordn -> (forall k, any_order (ord k)) -> grep g a ->
  is_root a r -> (forall q, is_root a q -> q = r) ->
  exists k g' a', grep g' a' /\ spans a r a' /\
    forall fuel, (k <= fuel)%nat -> mst ordn ord dbg g fuel = Ok g'.
Proof.
  intros HN HO R Hr HU. destruct (find_roots_ok ordn dbg g a HN R) as (rs & E & ND & HR).
  assert (rs = [r]) as ->.
  { assert (In r rs) as I by now apply HR.
    assert (A : forall q, In q rs -> q = r) by (intros q Hq; apply HU; now apply HR).
    destruct rs as [|x rs]; [destruct I|]. rewrite (A x) in * by now left.
    destruct rs as [|y rs]; [reflexivity|]. exfalso. inversion ND as [|z l X Y]; subst. apply X.
    left. apply A. right. now left. }
  destruct (mst_one dbg ord r g a HO R) as (k & g' & a' & R' & SP & F'); [apply Hr|].
  exists k, g', a'. split; [assumption|]. split; [assumption|]. intros fuel L.
  unfold mst. rewrite E. cbn [bind mst_roots]. rewrite F' by assumption. reflexivity.
Qed.
End Mst.
