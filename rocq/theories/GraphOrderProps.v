(** C338-C340: the ordered graph walks: theorems. *)
From Coq Require Import Lia.
From Verif Require Import Common Ints Graph SpecGraph GraphOrder SpecGraphOrder GraphOrderProofs.
Open Scope Z_scope.

(** * C338 The ordered topological walk. *)

(** The ordered topological walk is a topological walk, and the node visited next is a greatest of those whose predecessors have all been visited.  Missing: graphs with a node two of whose children compare equivalent, see C338_ties_refuted. *)
Theorem C338_greatest_first_partial :
  forall (T : Type) itr srtr srtc (comp : Z * T -> Z * T -> bool) dbg (g : graph T) a,
  any_order itr -> sorter srtr -> sorter srtc -> strict_weak comp -> built dbg g a ->
  (forall u, children_differ a (node_lt a comp) u) ->
  forall fuel, g_size g <= Z.of_nat fuel ->
  exists tr, ordered_topological_walk itr srtr srtc comp dbg g fuel = Ok tr /\ NoDup tr /\ parents_first a tr /\
    (forall x, In x tr <-> a_has a x = true /\ forall c, reaches a c x -> ~ on_cycle a c) /\
    forall l1 x l2 y, tr = l1 ++ x :: l2 -> waiting a l1 y -> node_lt a comp x y = false.
Proof. exact c338_greatest_first_partial. Qed.

(** The children are sorted with the negated comparison: with two equal children std::sort is given something that is no strict weak order. *)
Theorem C338_ties_refuted :
  forall (T : Type) (comp : Z * T -> Z * T -> bool) x dbg, (forall i j, comp (i, x) (j, x) = false) ->
  exists (g : graph T) a, built dbg g a /\ acyclic a /\
    forall itr srtr srtc fuel, any_order itr -> sorter srtr -> (1 <= fuel)%nat ->
      ordered_topological_walk itr srtr srtc comp dbg g fuel = UB.
Proof. exact c338_ties_refuted. Qed.

Example C338_nonvacuous : let os := [GAddNode 0; GAddNode 1; GAddNode 2; GAddNode 3; GAddNode 4; GAddNode 5;
    GAddDirected 2 3; GAddDirected 3 1; GAddDirected 4 0; GAddDirected 4 1; GAddDirected 5 0; GAddDirected 5 2] in
  let comp := fun x y : Z * Z => snd x <? snd y in
  strict_weak comp /\ sorter isort /\
  (exists a, agraph_run a_empty os = Some ([0; 1; 2; 3; 4; 5], a) /\ forall u, children_differ a (node_lt a comp) u) /\
  (' (_, g) <- graph_run (fun l => l) true g_empty os ;;
   ordered_topological_walk (fun l => l) isort isort comp true g 6) = Ok [5; 4; 2; 3; 1; 0].
Proof.
  intros os comp. split; [split; unfold comp; intros; lia|]. split; [exact isort_sorter|].
  split; [|vm_compute; reflexivity]. eexists. split; [vm_compute; reflexivity|].
  eapply (children_differ_run os); vm_compute; reflexivity.
Qed.
Print Assumptions C338_greatest_first_partial.
Print Assumptions C338_ties_refuted.

(** * C339 The ordered depth first walk. *)

(** The ordered depth first walk ends and visits the reachable nodes in the sequence of the recursive walk that takes the children not yet visited in ascending order.  Missing: nodes with two children of equivalent value, see C339_ties_refuted. *)
Theorem C339_preorder_partial :
  forall (T : Type) dbg (g : graph T) a srt (ord : T -> T -> bool) start,
  built dbg g a -> sorter srt -> strict_weak ord -> a_has a start = true ->
  (forall u, reaches a start u -> children_differ a (value_lt a ord) u) ->
  exists k tr, (forall v, In v tr <-> reaches a start v) /\ deep a (value_lt a ord) [] [start] tr /\
    forall fuel, (k <= fuel)%nat -> ordered_dfs srt ord dbg g fuel start = Ok tr.
Proof. exact c339_preorder_partial. Qed.

(** Two children of equal value: std::sort is called with something that is no strict weak order. *)
Theorem C339_ties_refuted :
  forall (T : Type) (ord : T -> T -> bool) x dbg, ord x x = false ->
  exists (g : graph T) a start, built dbg g a /\ a_has a start = true /\
    forall srt fuel, (1 <= fuel)%nat -> ordered_dfs srt ord dbg g fuel start = UB.
Proof. exact c339_ties_refuted. Qed.

Example C339_nonvacuous : let os := [GAddNode 7; GAddNode 9; GAddNode 8; GAddNode 1; GAddDirected 0 1; GAddDirected 0 2;
    GAddDirected 2 3; GAddDirected 1 3] in
  strict_weak Z.ltb /\
  (exists a, agraph_run a_empty os = Some ([0; 1; 2; 3], a) /\ a_has a 0 = true /\
     forall u, reaches a 0 u -> children_differ a (value_lt a Z.ltb) u) /\
  (' (_, g) <- graph_run (fun l => l) true g_empty os ;; ordered_dfs isort Z.ltb true g 9 0) = Ok [0; 2; 3; 1].
Proof.
  intros os. split; [split; intros; cbn in *; lia|].
  split; [|vm_compute; reflexivity]. eexists. split; [vm_compute; reflexivity|]. split; [reflexivity|].
  intros u _. revert u. eapply (children_differ_run os); vm_compute; reflexivity.
Qed.
Print Assumptions C339_preorder_partial.
Print Assumptions C339_ties_refuted.

(** * C340 The ordered breadth first walk. *)

(** The ordered breadth first walk ends, and after the start come, for each visit in turn, the children not visited by then, in ascending order; also with equal values. *)
Theorem C340_by_levels :
  forall (T : Type) dbg (g : graph T) a srt (ord : T -> T -> bool) start,
  built dbg g a -> sorter srt -> strict_weak ord -> a_has a start = true ->
  exists k tr, (forall v, In v tr <-> reaches a start v) /\ broad a (value_lt a ord) start tr /\
    forall fuel, (k <= fuel)%nat -> ordered_bfs srt ord dbg g fuel start = Ok tr.
Proof. exact c340_by_levels. Qed.

Example C340_nonvacuous : let os := [GAddNode 7; GAddNode 9; GAddNode 8; GAddNode 8; GAddNode 1; GAddDirected 0 1; GAddDirected 0 2;
    GAddDirected 0 3; GAddDirected 2 4; GAddDirected 1 0] in
  (exists a, agraph_run a_empty os = Some ([0; 1; 2; 3; 4], a) /\ a_has a 0 = true) /\
  (' (_, g) <- graph_run (fun l => l) true g_empty os ;; ordered_bfs isort Z.ltb true g 9 0) = Ok [0; 3; 2; 1; 4].
Proof. cbn zeta. split; [eexists; split; reflexivity | vm_compute; reflexivity]. Qed.
Print Assumptions C340_by_levels.
