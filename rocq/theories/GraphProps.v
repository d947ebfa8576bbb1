(** C49-C53, C77-C79: the directed graph and its walks. *)
From Verif Require Import Common Ints Graph SpecGraph GraphProofs GraphWalkProofs GraphTopoProofs
  GraphMstProofs GraphBfsProofs GraphEndProofs.
Open Scope Z_scope.

(** C49: every history of calls on nodes of the graph runs without undefined
    behaviour in both build modes, whatever the iteration order of the hash
    containers, and the graph then shows exactly the intended nodes, values and
    edges, in both edge sets. *)
Theorem C49_histories : forall (T : Type) ord dbg (os : list (graph_op T)) ids a,
  any_order ord -> agraph_run a_empty os = Some (ids, a) ->
  exists g, graph_run ord dbg g_empty os = Ok (ids, g) /\ graph_shows dbg g a.
Proof. exact (fun T => @histories T). Qed.
Theorem C49_empty :
  forall (T : Type) dbg (g : graph T) a, built dbg g a -> (g_is_empty g = true <-> forall k, a_has a k = false).
Proof. exact c49_empty_l. Qed.
Print Assumptions C49_empty.
Print Assumptions C49_histories.

(** C49: in terms of the graph alone, v is an outgoing neighbour of u exactly
    when u is an incoming neighbour of v, and the neighbour exists. *)
Theorem C49_symmetric : forall (T : Type) dbg (g : graph T) a u v nu,
  built dbg g a -> g_get dbg g u = Ok nu ->
  (In v (gout nu) -> exists nv, g_get dbg g v = Ok nv /\ In u (gin nv)) /\
  (In v (gin nu) -> exists nv, g_get dbg g v = Ok nv /\ In u (gout nv)).
Proof. exact (fun T => @symmetric T). Qed.
Print Assumptions C49_symmetric.

(** C49: the ids returned in one history are pairwise different and valid. *)
Theorem C49_ids_fresh : forall (T : Type) ord dbg (os : list (graph_op T)) ids a g,
  any_order ord -> agraph_run a_empty os = Some (ids, a) ->
  graph_run ord dbg g_empty os = Ok (ids, g) ->
  NoDup ids /\ forall i, In i ids -> 0 <= i < 2 ^ 64 - 1.
Proof. exact (fun T => @ids_fresh T). Qed.
Print Assumptions C49_ids_fresh.

(** C49: with checks on, an operation on a missing node is reported. *)
Theorem C49_debug_reports : forall (T : Type) ord (g : graph T) a o,
  built true g a -> agraph_step a o = None -> graph_step ord true g o = Throw.
Proof. exact (fun T => @debug_reports T). Qed.
Print Assumptions C49_debug_reports.

Example C49_nontrivial :
  let os := [GAddNode 10; GAddNode 11; GAddNode 12; GAddDirected 0 1; GAddDirected 1 1;
             GAddUndirected 1 2; GRemoveNode 1; GAddNode 13; GAddDirected 3 0] in
  (match agraph_run a_empty os with
   | Some (ids, a) => ids = [0; 1; 2; 3] /\ a_node a 1 = None /\ a_edge a 3 0 = true /\ a_edge a 1 2 = false
   | None => False
   end) /\
  graph_run (fun l => l) true g_empty os =
    Ok ([0; 1; 2; 3],
        {| gcur := 4;
           gnodes := [(3, {| gval := 13; gin := []; gout := [0] |});
                      (2, {| gval := 12; gin := []; gout := [] |});
                      (0, {| gval := 10; gin := [3]; gout := [] |})] |}).
Proof. split; [cbv; auto | vm_compute; reflexivity]. Qed.

(** C50 holds for [!=]: it is true exactly for handles to different nodes. *)
Theorem C50_not_equal_partial : forall a b : handle, h_ne a b = true <-> a <> b.
Proof. exact h_ne_spec. Qed.
Print Assumptions C50_not_equal_partial.

(** C50 fails for [==], which is true as soon as the ids or the graphs agree;
    any two nodes of one graph are equal, and at the same time not equal. *)
Theorem C50_equal_refuted : forall a b : handle,
  (h_eq a b = true <-> hid a = hid b \/ hgraph a = hgraph b) /\
  (hgraph a = hgraph b -> hid a <> hid b -> h_eq a b = true /\ h_ne a b = true).
Proof. exact h_eq_spec. Qed.
Print Assumptions C50_equal_refuted.

(** A handle is empty exactly when it refers to no graph or carries no id, and
    converts to true exactly when it is not empty. *)
Theorem C50_empty_partial : forall h : handle,
  (h_empty h = true <-> hgraph h = 0 \/ hid h = NO_ID) /\ h_bool h = negb (h_empty h).
Proof. exact h_empty_spec. Qed.
Print Assumptions C50_empty_partial.

(** Handles to nodes of one graph are ordered by id: never an error, and of two
    different ones exactly one is smaller. *)
Theorem C50_less_partial : forall dbg (a b : handle), hgraph a = hgraph b ->
  exists r, h_lt dbg a b = Ok r /\ (r = true <-> hid a < hid b) /\
    (a = b \/ h_lt dbg a b = Ok true \/ h_lt dbg b a = Ok true).
Proof. exact h_lt_spec. Qed.
Print Assumptions C50_less_partial.

(** C51: on an acyclic graph the walk ends after one step per node and visits
    every node exactly once, after all its predecessors; any iteration order and
    any order of roots and children given by the caller. *)
Theorem C51_acyclic : forall (T : Type) ord ordr ordc dbg (g : graph T) a,
  any_order ord -> (forall k, any_order (ordr k)) -> (forall k, any_order (ordc k)) ->
  built dbg g a -> acyclic a ->
  forall fuel, g_size g <= Z.of_nat fuel ->
  exists tr, topological_sorted_walk ord ordr ordc dbg g fuel = Ok tr /\
    NoDup tr /\ parents_first a tr /\ forall x, In x tr <-> a_has a x = true.
Proof. exact (fun T => @topo_acyclic_built T). Qed.
Print Assumptions C51_acyclic.

(** C51 for every graph: the nodes visited are those no cycle leads to. *)
Theorem C51_any_graph : forall (T : Type) ord ordr ordc dbg (g : graph T) a,
  any_order ord -> (forall k, any_order (ordr k)) -> (forall k, any_order (ordc k)) ->
  built dbg g a ->
  forall fuel, g_size g <= Z.of_nat fuel ->
  exists tr, topological_sorted_walk ord ordr ordc dbg g fuel = Ok tr /\
    NoDup tr /\ parents_first a tr /\
    forall x, In x tr <-> a_has a x = true /\ forall c, reaches a c x -> ~ on_cycle a c.
Proof. exact (fun T => @topo_built T). Qed.
Print Assumptions C51_any_graph.

(** C51: the reverse walk visits the same nodes in the opposite order. *)
Theorem C51_reverse : forall (T : Type) ord ordr ordc dbg (g : graph T) a,
  any_order ord -> (forall k, any_order (ordr k)) -> (forall k, any_order (ordc k)) ->
  built dbg g a ->
  forall fuel, g_size g <= Z.of_nat fuel ->
  exists tr, topological_sorted_walk ord ordr ordc dbg g fuel = Ok tr /\
    reverse_topological_sorted_walk ord ordr ordc dbg g fuel = Ok (rev tr).
Proof. exact (fun T => @reverse_built T). Qed.
Print Assumptions C51_reverse.

Example C51_nontrivial :
  let os := [GAddNode 10; GAddNode 11; GAddNode 12; GAddNode 13; GAddNode 14;
             GAddDirected 3 1; GAddDirected 3 0; GAddDirected 1 2; GAddDirected 0 2; GAddDirected 4 0] in
  (exists a, agraph_run a_empty os = Some ([0; 1; 2; 3; 4], a) /\ a_edge a 3 1 = true) /\
  (' (_, g) <- graph_run (fun l => l) true g_empty os ;;
   topological_sorted_walk (fun l => l) (fun _ l => l) (fun _ l => l) true g 5) = Ok [3; 1; 4; 0; 2] /\
  (' (_, g) <- graph_run (fun l => l) true g_empty (os ++ [GAddDirected 2 1]) ;;
   topological_sorted_walk (fun l => l) (fun _ l => l) (fun _ l => l) true g 5) = Ok [3; 4; 0].
Proof. split; [eexists; split; reflexivity | split; (vm_compute; reflexivity)]. Qed.

(** C52: the walks end, on every graph, and visit exactly the reachable nodes. *)
Theorem C52_bfs : forall (T : Type) dbg (g : graph T) a ord start,
  built dbg g a -> (forall k, any_order (ord k)) -> a_has a start = true ->
  exists k tr, (forall v, In v tr <-> reaches a start v) /\
    forall fuel, (k <= fuel)%nat -> bfs_walk ord dbg g fuel start = Ok tr.
Proof. exact (fun T => @bfs_built T). Qed.
Print Assumptions C52_bfs.

Theorem C52_dfs : forall (T : Type) dbg (g : graph T) a ord start,
  built dbg g a -> (forall k, any_order (ord k)) -> a_has a start = true ->
  exists k tr, (forall v, In v tr <-> reaches a start v) /\
    forall fuel, (k <= fuel)%nat -> dfs_walk ord dbg g fuel start = Ok tr.
Proof. exact (fun T => @dfs_built T). Qed.
Print Assumptions C52_dfs.

Example C52_nontrivial :
  let os := [GAddNode 10; GAddNode 11; GAddNode 12; GAddNode 13; GAddNode 14;
             GAddDirected 0 1; GAddDirected 1 2; GAddDirected 2 0; GAddDirected 0 3; GAddDirected 4 0] in
  (exists a, agraph_run a_empty os = Some ([0; 1; 2; 3; 4], a) /\ a_has a 1 = true) /\
  (' (_, g) <- graph_run (fun l => l) true g_empty os ;;
   bfs_walk (fun _ l => l) true g 9 1) = Ok [1; 2; 0; 3] /\
  (' (_, g) <- graph_run (fun l => l) true g_empty os ;;
   dfs_walk (fun _ l => l) true g 9 0) = Ok [0; 1; 2; 3].
Proof. split; [eexists; split; reflexivity | split; (vm_compute; reflexivity)]. Qed.

(** C53 holds when no node but the start is entered by two edges from the
    reachable part.  Missing: all other graphs, see [C53_refuted]. *)
Theorem C53_bfs_partial : forall (T : Type) dbg (g : graph T) a ord start fuel tr,
  built dbg g a -> (forall k, any_order (ord k)) -> a_has a start = true ->
  (forall u v w, w <> start -> reaches a start u -> reaches a start v ->
     a_edge a u w = true -> a_edge a v w = true -> u = v) ->
  bfs_walk ord dbg g fuel start = Ok tr -> NoDup tr.
Proof. exact (fun T => @bfs_once_built T). Qed.
Print Assumptions C53_bfs_partial.

Theorem C53_dfs_partial : forall (T : Type) dbg (g : graph T) a ord start fuel tr,
  built dbg g a -> (forall k, any_order (ord k)) -> a_has a start = true ->
  (forall u v w, w <> start -> reaches a start u -> reaches a start v ->
     a_edge a u w = true -> a_edge a v w = true -> u = v) ->
  dfs_walk ord dbg g fuel start = Ok tr -> NoDup tr.
Proof. exact (fun T => @dfs_once_built T). Qed.
Print Assumptions C53_dfs_partial.

(** C53 fails: there is a graph of three nodes on which both walks visit a node
    twice, whatever the iteration order. *)
Theorem C53_refuted : forall dbg, exists (g : graph Z) (a : agraph Z) start,
  built dbg g a /\ a_has a start = true /\
  forall ord fuel, (forall k, any_order (ord k)) -> (4 <= fuel)%nat ->
    (exists x y, bfs_walk ord dbg g fuel start = Ok [start; x; y; y]) /\
    (exists x y, dfs_walk ord dbg g fuel start = Ok [start; x; y; y]).
Proof. exact twice. Qed.
Print Assumptions C53_refuted.

(** C77: the searches return exactly the matching nodes, each once. *)
Theorem C77_find : forall (T : Type) ord dbg (g : graph T) a (p : T -> bool),
  any_order ord -> built dbg g a ->
  exists r, g_find ord dbg g (fun n => p (gval n)) = Ok r /\ NoDup r /\
    forall k, In k r <-> exists x, a_node a k = Some x /\ p x = true.
Proof. exact (fun T => @find_built T). Qed.
Print Assumptions C77_find.

Theorem C77_find_by_value : forall (T : Type) ord dbg (g : graph T) a x (cmp : T -> T -> bool),
  any_order ord -> built dbg g a ->
  exists r, g_find_by_value ord dbg g x cmp = Ok r /\ NoDup r /\
    forall k, In k r <-> exists y, a_node a k = Some y /\ cmp y x = true.
Proof. exact (fun T => @find_by_value_built T). Qed.
Print Assumptions C77_find_by_value.

Theorem C77_find_roots : forall (T : Type) ord dbg (g : graph T) a,
  any_order ord -> built dbg g a ->
  exists r, g_find_roots ord dbg g = Ok r /\ NoDup r /\
    forall k, In k r <-> a_has a k = true /\ forall u, a_edge a u k = false.
Proof. exact (fun T => @find_roots_built T). Qed.
Print Assumptions C77_find_roots.

Theorem C77_find_leaves : forall (T : Type) ord dbg (g : graph T) a,
  any_order ord -> built dbg g a ->
  exists r, g_find_leaves ord dbg g = Ok r /\ NoDup r /\
    forall k, In k r <-> a_has a k = true /\ forall v, a_edge a k v = false.
Proof. exact (fun T => @find_leaves_built T). Qed.
Print Assumptions C77_find_leaves.

Example C77_nontrivial :
  let os := [GAddNode 10; GAddNode 11; GAddNode 10; GAddDirected 0 1; GAddDirected 1 2; GAddNode 7] in
  (' (_, g) <- graph_run (fun l => l) true g_empty os ;; g_find_by_value (fun l => l) true g 10 Z.eqb) = Ok [2; 0] /\
  (' (_, g) <- graph_run (fun l => l) true g_empty os ;; g_find_roots (fun l => l) true g) = Ok [3; 0] /\
  (' (_, g) <- graph_run (fun l => l) true g_empty os ;; g_find_leaves (fun l => l) true g) = Ok [3; 2].
Proof. repeat split; (vm_compute; reflexivity). Qed.

(** C78, on a graph with one root: mst ends and cuts the part reachable from the
    root down to a tree.  Missing: several roots, see [C78_two_roots_refuted]. *)
Theorem C78_single_root_partial : forall (T : Type) dbg ordn ord (g : graph T) a r,
  any_order ordn -> (forall k, any_order (ord k)) -> built dbg g a ->
  is_root a r -> (forall q, is_root a q -> q = r) ->
  exists k g' a', graph_shows dbg g' a' /\ spans a r a' /\
    forall fuel, (k <= fuel)%nat -> mst ordn ord dbg g fuel = Ok g'.
Proof. exact (fun T => @mst_single_built T). Qed.
Print Assumptions C78_single_root_partial.

(** C78, on every graph: mst ends, adds nothing, and keeps reachable from some
    root what was reachable from some root. *)
Theorem C78_any_graph_partial : forall (T : Type) dbg ordn ord (g : graph T) a,
  any_order ordn -> (forall k, any_order (ord k)) -> built dbg g a ->
  exists k g' a', graph_shows dbg g' a' /\ (forall x, a_node a' x = a_node a x) /\
    (forall u v, a_edge a' u v = true -> a_edge a u v = true) /\
    (forall v, (exists q, is_root a q /\ reaches a q v) <-> (exists q, is_root a q /\ reaches a' q v)) /\
    forall fuel, (k <= fuel)%nat -> mst ordn ord dbg g fuel = Ok g'.
Proof. exact (fun T => @mst_built T). Qed.
Print Assumptions C78_any_graph_partial.

(** C78 fails with two roots: a child of both keeps both incoming edges. *)
Theorem C78_two_roots_refuted : forall dbg, exists (g : graph Z) a,
  built dbg g a /\ a_edge a 0 2 = true /\ a_edge a 1 2 = true /\
  mst (fun l => l) (fun _ l => l) dbg g 10 = Ok g.
Proof. exact two_roots. Qed.
Print Assumptions C78_two_roots_refuted.

Example C78_nontrivial :
  let os := [GAddNode 10; GAddNode 11; GAddNode 12; GAddNode 13;
             GAddDirected 0 1; GAddDirected 0 2; GAddDirected 1 3; GAddDirected 2 3; GAddDirected 3 1] in
  (' (_, g) <- graph_run (fun l => l) true g_empty os ;;
   g' <- mst (fun l => l) (fun _ l => l) true g 10 ;;
   Ok (map (fun p => (fst p, gout (snd p))) (gnodes g), map (fun p => (fst p, gout (snd p))) (gnodes g'))) =
  Ok ([(3, [1]); (2, [3]); (1, [3]); (0, [2; 1])], [(3, []); (2, []); (1, [3]); (0, [2; 1])]).
Proof. vm_compute. reflexivity. Qed.

(** C79: when a node is visited for the first time, every node visited before it
    is at most as far from the start. *)
Theorem C79_bfs_by_distance : forall (T : Type) dbg (g : graph T) a ord start fuel tr,
  built dbg g a -> (forall k, any_order (ord k)) -> a_has a start = true ->
  bfs_walk ord dbg g fuel start = Ok tr ->
  forall l1 x l2, tr = l1 ++ x :: l2 -> ~ In x l1 -> forall y, In y l1 ->
  forall dx, path_len a start dx x -> exists dy, (dy <= dx)%nat /\ path_len a start dy y.
Proof. exact (fun T => @bfs_distance_built T). Qed.
Print Assumptions C79_bfs_by_distance.

Example C79_nontrivial :
  let os := [GAddNode 10; GAddNode 11; GAddNode 12; GAddNode 13; GAddNode 14;
             GAddDirected 0 1; GAddDirected 1 2; GAddDirected 0 3; GAddDirected 2 4] in
  (exists a, agraph_run a_empty os = Some ([0; 1; 2; 3; 4], a) /\ a_has a 0 = true) /\
  (' (_, g) <- graph_run (fun l => l) true g_empty os ;; bfs_walk (fun _ l => l) true g 9 0) = Ok [0; 3; 1; 2; 4].
Proof. split; [eexists; split; reflexivity | vm_compute; reflexivity]. Qed.
