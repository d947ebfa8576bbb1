(** Properties of bounded_graph_t (deprecated/daw_bounded_graph.h). *)
From Verif Require Import Common Ints HashTables SpecHashTables BoundedGraph SpecBoundedGraph BoundedGraphProofs.
Open Scope Z_scope.

(** * C248 bounded_graph_t is the directed graph that was built. *)

(** Any history that adds at most m nodes and removes only nodes without edges, if the ids below m start at
    different slots: the graph is exactly the graph that was built. *)
Theorem C248_history_partial :
  forall (T : Type) (h : Z -> Z) n m (os : list (gop T)) d,
  (0 < n)%nat -> Z.of_nat n < 2 ^ 64 -> no_collisions n h (ids m) -> no_collisions n (fun k => k) (ids m) ->
  (adds os <= m)%nat -> dg_run os dg_empty = Some d -> bare_removals os dg_empty = true ->
  exists g, bg_run h os (bg_make n) = Ok g /\ graph_shows h g d.
Proof. exact c248_history_partial. Qed.

(** add_node gives the number of the nodes that were added before it; the new node has no edges. *)
Theorem C248_new_id_partial :
  forall (T : Type) (h : Z -> Z) n m (os : list (gop T)) d v,
  (0 < n)%nat -> Z.of_nat n < 2 ^ 64 -> no_collisions n h (ids m) -> no_collisions n (fun k => k) (ids m) ->
  (adds os < m)%nat -> dg_run os dg_empty = Some d -> bare_removals os dg_empty = true ->
  exists g g', bg_run h os (bg_make n) = Ok g /\ bg_add h v g = Ok (Z.of_nat (adds os), g') /\
    graph_shows h g' (DG (dg_next d + 1) ((Z.of_nat (adds os), v) :: dg_nodes d) (dg_edges d)).
Proof. exact c248_new_id_partial. Qed.

(** When the ids are their own hash, the first n of them start at different slots, unless 59 divides n. *)
Theorem C248_ids_spread :
  forall n, (0 < n)%nat -> 59 * Z.of_nat n + 83 <= 2 ^ 64 -> Z.of_nat n mod 59 <> 0 ->
  no_collisions n (fun k => k) (ids n).
Proof. exact c248_ids_spread. Qed.

(** Another node for a graph that has n nodes: undefined behaviour instead of an error. *)
Theorem C248_full_refuted :
  forall (T : Type) (h : Z -> Z) n m (os : list (gop T)) d v,
  (0 < n)%nat -> Z.of_nat n < 2 ^ 64 -> no_collisions n h (ids m) -> no_collisions n (fun k => k) (ids m) ->
  (adds os <= m)%nat -> dg_run os dg_empty = Some d -> bare_removals os dg_empty = true ->
  length (dg_nodes d) = n -> bg_run h (os ++ [GAdd v]) (bg_make n) = UB.
Proof. exact c248_full_refuted. Qed.

(** With 59 slots all ids start at the same slot: removing one edge loses another. *)
Theorem C248_lost_edge_refuted :
  exists (os : list (gop Z)) d g nd,
  dg_run os dg_empty = Some d /\ adds os = 3%nat /\ bg_run (fun k => k) os (bg_make 59) = Ok g /\ bg_node (fun k => k) g 2 = Ok nd /\
  dg_edge d 2 1 = true /\ bs_exists id_eq id_hash (bn_out nd) 1 = Ok false.
Proof. exact c248_lost_edge_refuted. Qed.

Example C248_nontrivial :
  let os := [GAdd 10; GAdd 11; GAdd 12; GEdge 0 1; GBoth 1 2; GEdge 2 2; GCut 2 2; GCutBoth 1 2; GRemove 2] in
  dg_run os dg_empty = Some (DG 3 [(1, 11); (0, 10)] [(0, 1)]) /\ bare_removals os dg_empty = true /\ adds os = 3%nat /\
  (exists g, bg_run (fun k => k) os (bg_make 4) = Ok g /\ bg_roots (fun k => k) g = Ok [0] /\ bg_leaves (fun k => k) g = Ok [1] /\
     bg_find_by_value Z.eqb 11 g = Ok [1] /\ bg_size g = 2) /\
  no_collisions 4 (fun k => k) (ids 4).
Proof.
  cbv zeta. split; [vm_compute; reflexivity|]. split; [vm_compute; reflexivity|]. split; [reflexivity|]. split.
  - eexists. split; [vm_compute; reflexivity|]. vm_compute. repeat split.
  - apply C248_ids_spread; vm_compute; congruence || lia.
Qed.
(** Every id that is not the largest value of size_t is valid, the default one is not. *)
Theorem C248_valid_ids :
  forall id, 0 <= id < 2 ^ 64 -> (id_valid id = true <-> id < 2 ^ 64 - 1) /\ id_valid no_id = false.
Proof. exact c248_valid_ids_l. Qed.
Print Assumptions C248_valid_ids.
Print Assumptions C248_history_partial.
Print Assumptions C248_new_id_partial.
Print Assumptions C248_ids_spread.
Print Assumptions C248_full_refuted.
Print Assumptions C248_lost_edge_refuted.

(** * C249 remove_node. *)

(** A node without edges is removed, and nothing else changes. *)
Theorem C249_bare_partial :
  forall (T : Type) (h : Z -> Z) n m (os : list (gop T)) d a,
  (0 < n)%nat -> Z.of_nat n < 2 ^ 64 -> no_collisions n h (ids m) -> no_collisions n (fun k => k) (ids m) ->
  (adds os <= m)%nat -> dg_run os dg_empty = Some d -> bare_removals os dg_empty = true ->
  dg_has d a = true -> dg_touched d a = false ->
  exists g, bg_run h (os ++ [GRemove a]) (bg_make n) = Ok g /\
    graph_shows h g (DG (dg_next d) (aremove Z.eqb a (dg_nodes d)) (dg_edges d)).
Proof. exact c249_bare_partial. Qed.

(** remove_node of a node with any edge reads past the end of an edge set. *)
Theorem C249_edges_refuted :
  forall (T : Type) (h : Z -> Z) n m (os : list (gop T)) d a,
  (0 < n)%nat -> Z.of_nat n < 2 ^ 64 -> no_collisions n h (ids m) -> no_collisions n (fun k => k) (ids m) ->
  (adds os <= m)%nat -> dg_run os dg_empty = Some d -> bare_removals os dg_empty = true ->
  dg_has d a = true -> dg_touched d a = true -> bg_run h (os ++ [GRemove a]) (bg_make n) = UB.
Proof. exact c249_edges_refuted. Qed.

(** Once more nodes than slots have been added, removing one can lose another, though the graph never has more
    nodes than slots. *)
Theorem C249_lost_node_refuted :
  exists (os : list (gop Z)) d g,
  dg_run os dg_empty = Some d /\ bare_removals os dg_empty = true /\ bg_run (fun k => k) os (bg_make 2) = Ok g /\
  dg_has d 2 = true /\ bg_has (fun k => k) g 2 = Ok false /\ bg_size g = 1.
Proof. exact c249_lost_node_refuted. Qed.

Example C249_nontrivial :
  let os := [GAdd 10; GAdd 11; GAdd 12; GEdge 0 1] in
  exists d, dg_run os dg_empty = Some d /\ dg_touched d 2 = false /\ dg_touched d 1 = true /\ dg_has d 2 = true /\ dg_has d 1 = true.
Proof. eexists. split; [vm_compute; reflexivity|]. vm_compute. repeat split. Qed.
Print Assumptions C249_bare_partial.
Print Assumptions C249_edges_refuted.
Print Assumptions C249_lost_node_refuted.

(** * C250 comparing nodes. *)

(**  *)
Theorem C250_ne :
  forall a b, proxy_ne a b = true <-> a <> b.
Proof. exact c250_ne. Qed.

(**  *)
Theorem C250_lt :
  forall g a b, proxy_lt (g, a) (g, b) = true <-> a < b.
Proof. exact c250_lt. Qed.

(**  *)
Theorem C250_eq_partial :
  forall a b, (a = b -> proxy_eq a b = true) /\ (fst a <> fst b -> snd a <> snd b -> proxy_eq a b = false).
Proof. exact c250_eq_partial. Qed.

(** Two different nodes of one graph: == and != both hold. *)
Theorem C250_eq_refuted :
  forall g a b, a <> b -> proxy_eq (g, a) (g, b) = true /\ proxy_ne (g, a) (g, b) = true.
Proof. exact c250_eq_refuted. Qed.

(** And so do nodes of different graphs that have the same id. *)
Theorem C250_eq_graphs_refuted :
  forall g g' a, g <> g' -> proxy_eq (g, a) (g', a) = true.
Proof. exact c250_eq_graphs_refuted. Qed.

Example C250_nontrivial : proxy_eq (1, 0) (1, 1) = true /\ proxy_eq (1, 0) (2, 1) = false /\ proxy_lt (1, 0) (1, 1) = true.
Proof. vm_compute. repeat split. Qed.
Print Assumptions C250_ne.
Print Assumptions C250_lt.
Print Assumptions C250_eq_partial.
Print Assumptions C250_eq_refuted.
Print Assumptions C250_eq_graphs_refuted.
