(** The statements about graphs in terms of histories, and the counterexamples. *)
From Coq Require Import ZifyBool.
From Verif Require Import Common CommonProofs Ints Graph SpecGraph GraphProofs GraphWalkProofs GraphTopoProofs GraphMstProofs GraphBfsProofs.
Open Scope Z_scope.
Local Arguments Z.mul : simpl never.
Local Arguments Z.add : simpl never.
Local Arguments Z.sub : simpl never.
Local Arguments Z.pow : simpl never.
Local Arguments Z.of_nat : simpl never.

Section End.
Context {T : Type}.
Implicit Types (g : graph T) (a : agraph T).

Lemma built_rep dbg g a : built dbg g a -> grep g a.
Proof.
  intros (ord & os & ids & HO & HA & HG).
  destruct (history_rep ord dbg os ids a HO HA) as (g' & HG' & R). rewrite HG in HG'. now injection HG' as <-.
Qed.

Lemma histories ord dbg (os : list (graph_op T)) ids a : any_order ord -> agraph_run a_empty os = Some (ids, a) ->
  exists g, graph_run ord dbg g_empty os = Ok (ids, g) /\ graph_shows dbg g a.
Proof.
  intros HO H. destruct (history_rep ord dbg os ids a HO H) as (g & E & R). exists g.
  split; [assumption | now apply rep_shows].
Qed.

Lemma symmetric dbg g a u v nu : built dbg g a -> g_get dbg g u = Ok nu ->
  (In v (gout nu) -> exists nv, g_get dbg g v = Ok nv /\ In u (gin nv)) /\
  (In v (gin nu) -> exists nv, g_get dbg g v = Ok nv /\ In u (gout nv)).
Proof.
  intros B G. apply built_rep in B.
  assert (Hu : a_has a u = true).
  { unfold g_get in G. destruct (g_require dbg g u); cbn [bind] in G; try discriminate.
    destruct (id_value dbg u) as [k| | |] eqn:K; cbn [bind] in G; try discriminate.
    assert (k = u) as ->. { unfold id_value in K. destruct (dbg_check _ _); cbn [bind] in K; congruence. }
    destruct (map_find (gnodes g) u) as [n|] eqn:F; [|discriminate].
    destruct B as (_ & _ & _ & R4 & _). destruct (R4 u n F) as (V & _). unfold a_has. now rewrite V. }
  destruct (get_ok dbg g a u B (has_some a u Hu)) as (n & G' & _ & _ & _ & _ & EO & EI).
  rewrite G in G'. injection G' as <-.
  split; intros HI; [apply EO in HI | apply EI in HI]; destruct (edge_has g a B _ _ HI) as (H1 & H2);
    [destruct (get_ok dbg g a v B (has_some a v H2)) as (nv & Gv & _ & _ & _ & _ & EO' & EI') |
     destruct (get_ok dbg g a v B (has_some a v H1)) as (nv & Gv & _ & _ & _ & _ & EO' & EI')];
    exists nv; (split; [assumption|]); [now apply EI' | now apply EO'].
Qed.

Lemma ids_fresh ord dbg (os : list (graph_op T)) ids a g : any_order ord -> agraph_run a_empty os = Some (ids, a) ->
  graph_run ord dbg g_empty os = Ok (ids, g) ->
  NoDup ids /\ forall i, In i ids -> 0 <= i < 2 ^ 64 - 1.
Proof.
  intros HO HA HG. destruct (agraph_ids os _ _ _ HA) as (_ & N & B).
  destruct (history_rep ord dbg os ids a HO HA) as (g' & _ & R). split; [assumption|].
  intros i Hi. apply B in Hi. destruct R as (_ & R2 & _). cbn in Hi. lia.
Qed.

Lemma require_absent g a k : grep g a -> a_has a k = false -> g_require true g k = Throw.
Proof.
  intros R H. unfold g_require. destruct (Z.eq_dec k NO_ID) as [-> | NE].
  - unfold g_has_node, id_value, dbg_check. rewrite Z.eqb_refl. reflexivity.
  - rewrite (has_node_ok true g a k R NE). cbn [bind]. rewrite H. reflexivity.
Qed.

Lemma debug_reports ord g a o : built true g a -> agraph_step a o = None -> graph_step ord true g o = Throw.
Proof.
  intros B H. apply built_rep in B.
  assert (RQ : forall u, a_has a u = true -> g_require true g u = Ok tt)
    by (intros u Hu; now apply (require_ok true g a u B), has_some).
  destruct o; cbn [agraph_step graph_step] in *.
  - destruct (Z.ltb_spec (a_next a) (2 ^ 64 - 1)); [discriminate|].
    destruct B as (B1 & B2 & _). unfold g_add_node, dbg_check, NO_ID. rewrite B1.
    replace (a_next a =? 2 ^ 64 - 1) with true by lia. reflexivity.
  - unfold g_add_directed. destruct (a_has a u) eqn:Hu; [destruct (a_has a v) eqn:Hv; [discriminate|]|].
    + rewrite RQ by assumption. cbn [bind]. now rewrite (require_absent g a v B Hv).
    + now rewrite (require_absent g a u B Hu).
  - unfold g_add_undirected. destruct (a_has a u) eqn:Hu; [destruct (a_has a v) eqn:Hv; [discriminate|]|].
    + rewrite RQ by assumption. cbn [bind]. now rewrite (require_absent g a v B Hv).
    + now rewrite (require_absent g a u B Hu).
  - unfold g_remove_node. destruct (a_has a u) eqn:Hu; [discriminate|]. now rewrite (require_absent g a u B Hu).
  - unfold g_remove_directed. destruct (a_has a u) eqn:Hu; [destruct (a_has a v) eqn:Hv; [discriminate|]|].
    + rewrite RQ by assumption. cbn [bind]. now rewrite (require_absent g a v B Hv).
    + now rewrite (require_absent g a u B Hu).
  - unfold g_remove_edges. destruct (a_has a u) eqn:Hu; [destruct (a_has a v) eqn:Hv; [discriminate|]|].
    + rewrite RQ by assumption. cbn [bind]. now rewrite (require_absent g a v B Hv).
    + now rewrite (require_absent g a u B Hu).
Qed.

Lemma topo_built ord ordr ordc dbg g a :
  any_order ord -> (forall k, any_order (ordr k)) -> (forall k, any_order (ordc k)) -> built dbg g a ->
  forall fuel, g_size g <= Z.of_nat fuel ->
  exists tr, topological_sorted_walk ord ordr ordc dbg g fuel = Ok tr /\ NoDup tr /\ parents_first a tr /\
    forall x, In x tr <-> a_has a x = true /\ forall c, reaches a c x -> ~ on_cycle a c.
Proof.
  intros H1 H2 H3 B fuel L. apply built_rep in B. unfold g_size in L. apply topo_ok; auto. lia.
Qed.

Lemma topo_acyclic_built ord ordr ordc dbg g a :
  any_order ord -> (forall k, any_order (ordr k)) -> (forall k, any_order (ordc k)) -> built dbg g a -> acyclic a ->
  forall fuel, g_size g <= Z.of_nat fuel ->
  exists tr, topological_sorted_walk ord ordr ordc dbg g fuel = Ok tr /\ NoDup tr /\ parents_first a tr /\
    forall x, In x tr <-> a_has a x = true.
Proof.
  intros H1 H2 H3 B A fuel L. apply built_rep in B. unfold g_size in L. apply topo_acyclic; auto. lia.
Qed.

Lemma reverse_built ord ordr ordc dbg g a :
  any_order ord -> (forall k, any_order (ordr k)) -> (forall k, any_order (ordc k)) -> built dbg g a ->
  forall fuel, g_size g <= Z.of_nat fuel ->
  exists tr, topological_sorted_walk ord ordr ordc dbg g fuel = Ok tr /\
    reverse_topological_sorted_walk ord ordr ordc dbg g fuel = Ok (rev tr).
Proof.
  intros H1 H2 H3 B fuel L. apply built_rep in B. unfold g_size in L. apply reverse_topo_ok with (a := a); auto. lia.
Qed.

Lemma mst_built dbg ordn ord g a : any_order ordn -> (forall k, any_order (ord k)) -> built dbg g a ->
  exists k g' a', graph_shows dbg g' a' /\ (forall x, a_node a' x = a_node a x) /\
    (forall u v, a_edge a' u v = true -> a_edge a u v = true) /\
    (forall v, (exists q, is_root a q /\ reaches a q v) <-> (exists q, is_root a q /\ reaches a' q v)) /\
    forall fuel, (k <= fuel)%nat -> mst ordn ord dbg g fuel = Ok g'.
Proof.
  intros H1 H2 B. apply built_rep in B. destruct (mst_ok dbg ordn ord g a H1 H2 B) as (k & g' & a' & R & Q).
  exists k, g', a'. split; [now apply rep_shows | assumption].
Qed.

Lemma mst_single_built dbg ordn ord g a r : any_order ordn -> (forall k, any_order (ord k)) -> built dbg g a ->
  is_root a r -> (forall q, is_root a q -> q = r) ->
  exists k g' a', graph_shows dbg g' a' /\ spans a r a' /\
    forall fuel, (k <= fuel)%nat -> mst ordn ord dbg g fuel = Ok g'.
Proof.
  intros H1 H2 B H3 H4. apply built_rep in B.
  destruct (mst_single dbg ordn ord g a r H1 H2 B H3 H4) as (k & g' & a' & R & Q).
  exists k, g', a'. split; [now apply rep_shows | assumption].
Qed.

Lemma bfs_built dbg g a ord start : built dbg g a -> (forall k, any_order (ord k)) -> a_has a start = true ->
  exists k tr, (forall v, In v tr <-> reaches a start v) /\
    forall fuel, (k <= fuel)%nat -> bfs_walk ord dbg g fuel start = Ok tr.
Proof. intros B. exact (bfs_reach dbg g a ord start (built_rep dbg g a B)). Qed.

Lemma dfs_built dbg g a ord start : built dbg g a -> (forall k, any_order (ord k)) -> a_has a start = true ->
  exists k tr, (forall v, In v tr <-> reaches a start v) /\
    forall fuel, (k <= fuel)%nat -> dfs_walk ord dbg g fuel start = Ok tr.
Proof. intros B. exact (dfs_reach dbg g a ord start (built_rep dbg g a B)). Qed.

Lemma bfs_once_built dbg g a ord start fuel tr :
  built dbg g a -> (forall k, any_order (ord k)) -> a_has a start = true ->
  (forall u v w, w <> start -> reaches a start u -> reaches a start v ->
     a_edge a u w = true -> a_edge a v w = true -> u = v) ->
  bfs_walk ord dbg g fuel start = Ok tr -> NoDup tr.
Proof. intros B. exact (bfs_once dbg g a ord start fuel tr (built_rep dbg g a B)). Qed.

Lemma dfs_once_built dbg g a ord start fuel tr :
  built dbg g a -> (forall k, any_order (ord k)) -> a_has a start = true ->
  (forall u v w, w <> start -> reaches a start u -> reaches a start v ->
     a_edge a u w = true -> a_edge a v w = true -> u = v) ->
  dfs_walk ord dbg g fuel start = Ok tr -> NoDup tr.
Proof. intros B. exact (dfs_once dbg g a ord start fuel tr (built_rep dbg g a B)). Qed.

Lemma bfs_distance_built dbg g a ord start fuel tr :
  built dbg g a -> (forall k, any_order (ord k)) -> a_has a start = true ->
  bfs_walk ord dbg g fuel start = Ok tr ->
  forall l1 x l2, tr = l1 ++ x :: l2 -> ~ In x l1 -> forall y, In y l1 ->
  forall dx, path_len a start dx x -> exists dy, (dy <= dx)%nat /\ path_len a start dy y.
Proof. intros B HO HS E. exact (bfs_distance dbg g a ord (built_rep dbg g a B) HO start fuel tr HS E). Qed.

Lemma find_built ord dbg g a (p : T -> bool) : any_order ord -> built dbg g a ->
  exists r, g_find ord dbg g (fun n => p (gval n)) = Ok r /\ NoDup r /\
    forall k, In k r <-> exists x, a_node a k = Some x /\ p x = true.
Proof. intros HO B. exact (find_value_ok ord dbg g a p HO (built_rep dbg g a B)). Qed.

Lemma find_by_value_built ord dbg g a x (cmp : T -> T -> bool) : any_order ord -> built dbg g a ->
  exists r, g_find_by_value ord dbg g x cmp = Ok r /\ NoDup r /\
    forall k, In k r <-> exists y, a_node a k = Some y /\ cmp y x = true.
Proof. intros HO B. exact (find_value_ok ord dbg g a (fun y => cmp y x) HO (built_rep dbg g a B)). Qed.

Lemma find_roots_built ord dbg g a : any_order ord -> built dbg g a ->
  exists r, g_find_roots ord dbg g = Ok r /\ NoDup r /\
    forall k, In k r <-> a_has a k = true /\ forall u, a_edge a u k = false.
Proof. intros HO B. exact (find_roots_ok ord dbg g a HO (built_rep dbg g a B)). Qed.

Lemma find_leaves_built ord dbg g a : any_order ord -> built dbg g a ->
  exists r, g_find_leaves ord dbg g = Ok r /\ NoDup r /\
    forall k, In k r <-> a_has a k = true /\ forall v, a_edge a k v = false.
Proof. intros HO B. exact (find_leaves_ok ord dbg g a HO (built_rep dbg g a B)). Qed.
End End.

(** ** Handles *)
Lemma h_ne_spec a b : h_ne a b = true <-> a <> b.
Proof.
  unfold h_ne. destruct a as [g1 i1], b as [g2 i2]. cbn.
  rewrite orb_true_iff, !negb_true_iff, !Z.eqb_neq. split.
  - intros [H | H] E; injection E; auto.
  - intros H. destruct (Z.eq_dec i1 i2) as [-> |]; [|auto]. right. intros ->. auto.
Qed.

Lemma h_eq_spec a b :
  (h_eq a b = true <-> hid a = hid b \/ hgraph a = hgraph b) /\
  (hgraph a = hgraph b -> hid a <> hid b -> h_eq a b = true /\ h_ne a b = true).
Proof.
  assert (Q : h_eq a b = true <-> hid a = hid b \/ hgraph a = hgraph b)
    by (unfold h_eq; rewrite orb_true_iff, !Z.eqb_eq; reflexivity).
  split; [exact Q|]. intros H1 H2. split; [apply Q; auto|]. apply h_ne_spec. congruence.
Qed.

(** ** Counterexamples *)

Definition op_list := list (graph_op Z).

(** 0 -> 1, 0 -> 2, 1 -> 2, 2 -> 1. *)
Definition pair_ops : op_list :=
  [GAddNode 10; GAddNode 11; GAddNode 12; GAddDirected 0 1; GAddDirected 0 2; GAddUndirected 1 2].

Definition pair_graph : graph Z := Eval vm_compute in
  match graph_run (fun l => l) false g_empty pair_ops with Ok (_, g) => g | _ => g_empty end.

Lemma pair_run ord dbg : graph_run ord dbg g_empty pair_ops = Ok ([0; 1; 2], pair_graph).
Proof. destruct dbg; vm_compute; reflexivity. Qed.

Lemma order_1 ord (x : Z) : any_order ord -> ord [x] = [x].
Proof. intros H. apply Permutation_length_1_inv. apply H. Qed.

Lemma order_2 ord (x y : Z) : any_order ord -> ord [x; y] = [x; y] \/ ord [x; y] = [y; x].
Proof. intros H. apply Permutation_length_2_inv. apply H. Qed.

Lemma order_0 ord : any_order ord -> ord [] = [].
Proof. intros H. apply Permutation_nil. apply H. Qed.

Lemma pair_bfs ord dbg fuel : (forall k, any_order (ord k)) -> (4 <= fuel)%nat ->
  exists x y, bfs_walk ord dbg pair_graph fuel 0 = Ok [0; x; y; y].
Proof.
  intros HO L. destruct fuel as [|[|[|[|fuel]]]]; try lia. clear L. unfold bfs_walk.
  destruct dbg; lazy;
    (destruct (order_2 (ord 0%nat) 2 1 (HO _)) as [-> | ->]; lazy;
     [rewrite (order_1 (ord 1%nat) 1 (HO _)) | rewrite (order_1 (ord 1%nat) 2 (HO _))]; lazy;
     rewrite (order_0 (ord 2%nat) (HO _)); lazy; rewrite (order_0 (ord 3%nat) (HO _));
     [exists 2, 1 | exists 1, 2]; destruct fuel; reflexivity).
Qed.

Lemma pair_dfs ord dbg fuel : (forall k, any_order (ord k)) -> (4 <= fuel)%nat ->
  exists x y, dfs_walk ord dbg pair_graph fuel 0 = Ok [0; x; y; y].
Proof.
  intros HO L. destruct fuel as [|[|[|[|fuel]]]]; try lia. clear L. unfold dfs_walk.
  destruct dbg; lazy;
    (destruct (order_2 (ord 0%nat) 2 1 (HO _)) as [-> | ->]; lazy;
     [rewrite (order_1 (ord 1%nat) 2 (HO _)) | rewrite (order_1 (ord 1%nat) 1 (HO _))]; lazy;
     rewrite (order_0 (ord 2%nat) (HO _)); lazy; rewrite (order_0 (ord 3%nat) (HO _));
     [exists 1, 2 | exists 2, 1]; destruct fuel; reflexivity).
Qed.

Lemma id_order : any_order (fun l => l).
Proof. intros l. apply Permutation_refl. Qed.

Lemma pair_built dbg : exists a, built dbg pair_graph a /\ a_has a 0 = true.
Proof.
  eexists. split.
  - exists (fun l => l), pair_ops, [0; 1; 2]. split; [exact id_order|].
    split; [reflexivity | apply pair_run].
  - reflexivity.
Qed.

Lemma twice dbg : exists (g : graph Z) (a : agraph Z) start, built dbg g a /\ a_has a start = true /\
  forall ord fuel, (forall k, any_order (ord k)) -> (4 <= fuel)%nat ->
    (exists x y, bfs_walk ord dbg g fuel start = Ok [start; x; y; y]) /\
    (exists x y, dfs_walk ord dbg g fuel start = Ok [start; x; y; y]).
Proof.
  destruct (pair_built dbg) as (a & B & H). exists pair_graph, a, 0. split; [assumption|]. split; [assumption|].
  intros ord fuel HO L. split; [now apply pair_bfs | now apply pair_dfs].
Qed.

(** Two roots with a common child. *)
Definition vee_ops : op_list := [GAddNode 10; GAddNode 11; GAddNode 12; GAddDirected 0 2; GAddDirected 1 2].

Definition vee_graph : graph Z := Eval vm_compute in
  match graph_run (fun l => l) false g_empty vee_ops with Ok (_, g) => g | _ => g_empty end.

Lemma vee_mst dbg : exists a, built dbg vee_graph a /\
  a_edge a 0 2 = true /\ a_edge a 1 2 = true /\
  mst (fun l => l) (fun _ l => l) dbg vee_graph 10 = Ok vee_graph.
Proof.
  eexists. split; [|split; [|split]].
  - exists (fun l => l), vee_ops, [0; 1; 2]. split; [exact id_order|].
    split; [reflexivity|]. destruct dbg; (vm_compute; reflexivity).
  - reflexivity.
  - reflexivity.
  - destruct dbg; (vm_compute; reflexivity).
Qed.

Lemma two_roots dbg : exists (g : graph Z) a,
  built dbg g a /\ a_edge a 0 2 = true /\ a_edge a 1 2 = true /\
  mst (fun l => l) (fun _ l => l) dbg g 10 = Ok g.
Proof. exists vee_graph. exact (vee_mst dbg). Qed.

(** *** Empty handles and their order *)

Lemma h_empty_spec h : (h_empty h = true <-> hgraph h = 0 \/ hid h = NO_ID) /\ h_bool h = negb (h_empty h).
Proof.
  unfold h_empty, h_bool. split.
  - rewrite orb_true_iff, !Z.eqb_eq. reflexivity.
  - rewrite negb_orb. reflexivity.
Qed.

Lemma h_lt_ok dbg a b : hgraph a = hgraph b -> h_lt dbg a b = Ok (hid a <? hid b).
Proof. intros E. unfold h_lt. rewrite E, Z.eqb_refl. destruct dbg; reflexivity. Qed.

Lemma h_lt_spec dbg a b : hgraph a = hgraph b ->
  exists r, h_lt dbg a b = Ok r /\ (r = true <-> hid a < hid b) /\
    (a = b \/ h_lt dbg a b = Ok true \/ h_lt dbg b a = Ok true).
Proof.
  intros E. rewrite !h_lt_ok by auto. exists (hid a <? hid b). split; [reflexivity|].
  split; [apply Z.ltb_lt|]. destruct (Z.lt_total (hid a) (hid b)) as [H | [H | H]].
  - right. left. f_equal. apply Z.ltb_lt. assumption.
  - left. destruct a, b. cbn in *. congruence.
  - right. right. f_equal. apply Z.ltb_lt. assumption.
Qed.

Lemma c49_empty_l :
  forall (T : Type) dbg (g : graph T) a, built dbg g a -> (g_is_empty g = true <-> forall k, a_has a k = false).
Proof.
  intros T dbg g a BB.
  pose proof (built_rep dbg g a BB) as R. pose proof (fun k => rep_has_keys g a k R) as K. unfold g_is_empty, g_size. rewrite Z.eqb_eq. split.
  - intros L k. destruct (a_has a k) eqn:H; [|reflexivity]. apply K in H. destruct (gnodes g); [destruct H|cbn [length] in L; lia].
  - intros H. destruct (gnodes g) as [|[k nd] r] eqn:G; [reflexivity|]. pose proof (proj1 (K k) (or_introl eq_refl)) as Q. rewrite H in Q. discriminate.
Qed.
