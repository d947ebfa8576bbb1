(** What the graph operations and walks are supposed to do, on an abstract
    directed graph.  Independent of the model, except for the names of the
    operations. *)
From Verif Require Import Common Graph.
Open Scope Z_scope.

(** A directed graph: the value of each node, the edges, and the id the next
    node will get. *)
Record agraph (T : Type) := {
  a_next : Z;
  a_node : Z -> option T;
  a_edge : Z -> Z -> bool
}.
Arguments a_next {T} a.
Arguments a_node {T} a k.
Arguments a_edge {T} a u v.

Section Spec.
Context {T : Type}.

Definition a_empty : agraph T :=
  {| a_next := 0; a_node := fun _ => None; a_edge := fun _ _ => false |}.

Definition a_has (a : agraph T) (k : Z) : bool :=
  match a_node a k with Some _ => true | None => false end.

Definition edge_is (u v x y : Z) : bool := (x =? u) && (y =? v).

(** The effect of one operation: the ids returned and the graph; [None] when an
    argument is not a node of the graph, or when 2^64 - 1 nodes have been
    added. *)
Definition agraph_step (a : agraph T) (o : graph_op T) : option (list Z * agraph T) :=
  match o with
  | GAddNode x =>
      if a_next a <? 2 ^ 64 - 1
      then Some ([a_next a],
                 {| a_next := a_next a + 1;
                    a_node := fun k => if k =? a_next a then Some x else a_node a k;
                    a_edge := a_edge a |})
      else None
  | GAddDirected u v =>
      if a_has a u && a_has a v
      then Some ([], {| a_next := a_next a; a_node := a_node a;
                        a_edge := fun x y => edge_is u v x y || a_edge a x y |})
      else None
  | GAddUndirected u v =>
      if a_has a u && a_has a v
      then Some ([], {| a_next := a_next a; a_node := a_node a;
                        a_edge := fun x y => edge_is u v x y || edge_is v u x y || a_edge a x y |})
      else None
  | GRemoveNode u =>
      if a_has a u
      then Some ([], {| a_next := a_next a;
                        a_node := fun k => if k =? u then None else a_node a k;
                        a_edge := fun x y => negb (x =? u) && negb (y =? u) && a_edge a x y |})
      else None
  | GRemoveDirected u v =>
      if a_has a u && a_has a v
      then Some ([], {| a_next := a_next a; a_node := a_node a;
                        a_edge := fun x y => negb (edge_is u v x y) && a_edge a x y |})
      else None
  | GRemoveEdges u v =>
      if a_has a u && a_has a v
      then Some ([], {| a_next := a_next a; a_node := a_node a;
                        a_edge := fun x y => negb (edge_is u v x y) && negb (edge_is v u x y)
                                             && a_edge a x y |})
      else None
  end.

Fixpoint agraph_run (a : agraph T) (os : list (graph_op T)) : option (list Z * agraph T) :=
  match os with
  | [] => Some ([], a)
  | o :: os =>
      match agraph_step a o with
      | None => None
      | Some (x, a') =>
          match agraph_run a' os with
          | None => None
          | Some (xs, a'') => Some (x ++ xs, a'')
          end
      end
  end.

(** There is a path of edges from [u] to [v] (possibly empty). *)
Inductive reaches (a : agraph T) (u : Z) : Z -> Prop :=
| reach_self : reaches a u u
| reach_step : forall v w, reaches a u v -> a_edge a v w = true -> reaches a u w.

(** There is a path of exactly [d] edges from [u] to [v]. *)
Inductive path_len (a : agraph T) (u : Z) : nat -> Z -> Prop :=
| path_self : path_len a u 0 u
| path_step : forall d v w, path_len a u d v -> a_edge a v w = true -> path_len a u (S d) w.

(** No node lies on a cycle. *)
Definition acyclic (a : agraph T) : Prop :=
  forall u v, a_edge a u v = true -> ~ reaches a v u.

(** A path of at least one edge leads from the node to itself. *)
Definition on_cycle (a : agraph T) (x : Z) : Prop :=
  exists w, a_edge a x w = true /\ reaches a w x.

(** In the sequence [tr] every node comes after all nodes with an edge to it. *)
Definition parents_first (a : agraph T) (tr : list Z) : Prop :=
  forall l1 x l2, tr = l1 ++ x :: l2 -> forall p, a_edge a p x = true -> In p l1.

(** [a'] is [a] with the part reachable from [r] cut down to a tree with root
    [r]: nodes and the edges leaving other nodes are untouched, no edge is added,
    the same nodes can be reached, and inside the part every node but [r] is
    entered by exactly one edge and [r] by none. *)
Definition spans (a : agraph T) (r : Z) (a' : agraph T) : Prop :=
  (forall k, a_node a' k = a_node a k) /\
  (forall u v, a_edge a' u v = true -> a_edge a u v = true) /\
  (forall u v, a_edge a u v = true -> a_edge a' u v = true \/ reaches a r u) /\
  (forall v, reaches a' r v <-> reaches a r v) /\
  (forall v, reaches a r v -> v <> r ->
     exists u, reaches a r u /\ a_edge a' u v = true /\
       forall u', reaches a r u' -> a_edge a' u' v = true -> u' = u) /\
  (forall u, reaches a r u -> a_edge a' u r = false).

(** No edge enters the node. *)
Definition is_root (a : agraph T) (r : Z) : Prop := a_has a r = true /\ forall u, a_edge a u r = false.

(** What a caller can observe of a graph that should be [a]: its size, its
    nodes and their values, and the two edge sets of each node (which are sets:
    no duplicates). *)
Definition graph_shows (dbg : bool) (g : graph T) (a : agraph T) : Prop :=
  (exists ids, NoDup ids /\ (forall k, In k ids <-> a_has a k = true) /\
               g_size g = Z.of_nat (length ids)) /\
  (forall k, k <> NO_ID -> g_has_node dbg g k = Ok (a_has a k)) /\
  (forall k x, a_node a k = Some x ->
     exists n, g_get dbg g k = Ok n /\ gval n = x /\ NoDup (gout n) /\ NoDup (gin n) /\
       (forall v, In v (gout n) <-> a_edge a k v = true) /\
       (forall v, In v (gin n) <-> a_edge a v k = true)).

End Spec.

(** An iteration order: some order for every set. *)
Definition any_order (ord : list Z -> list Z) : Prop := forall l, Permutation l (ord l).

(** [g] was built from the empty graph by a history of calls whose intended
    result is [a]. *)
Definition built {T} (dbg : bool) (g : graph T) (a : agraph T) : Prop :=
  exists ord os ids, any_order ord /\ agraph_run a_empty os = Some (ids, a) /\
    graph_run ord dbg g_empty os = Ok (ids, g).
