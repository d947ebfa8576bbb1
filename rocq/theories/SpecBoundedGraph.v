(** Specification vocabulary for bounded_graph_t: directed graphs with numbered nodes. *)
From Verif Require Import Common Ints HashTables SpecHashTables BoundedGraph.
Open Scope Z_scope.

(** The number of the next node, the nodes with their values, the edges (from, to). *)
Record digraph (T : Type) := DG {
  dg_next : Z;
  dg_nodes : list (Z * T);
  dg_edges : list (Z * Z)
}.
Arguments DG {T} _ _ _. Arguments dg_next {T} _. Arguments dg_nodes {T} _. Arguments dg_edges {T} _.
Definition dg_empty {T} : digraph T := DG 0 [] [].
Definition dg_value {T} (d : digraph T) (a : Z) : option T := alookup Z.eqb (dg_nodes d) a.
Definition dg_has {T} (d : digraph T) (a : Z) : bool := has Z.eqb (dg_nodes d) a.
(** There is an edge from [a] to [b]. *)
Definition dg_edge {T} (d : digraph T) (a b : Z) : bool :=
  existsb (fun e => (fst e =? a) && (snd e =? b)) (dg_edges d).
(** [a] is an end of an edge. *)
Definition dg_touched {T} (d : digraph T) (a : Z) : bool :=
  existsb (fun e => (fst e =? a) || (snd e =? a)) (dg_edges d).

(** What a change should do; None: a node it names is not there. *)
Definition del_edge (a b : Z) (es : list (Z * Z)) : list (Z * Z) :=
  filter (fun e => negb ((fst e =? a) && (snd e =? b))) es.
Definition dg_step {T} (o : gop T) (d : digraph T) : option (digraph T) :=
  match o with
  | GAdd v => Some (DG (dg_next d + 1) ((dg_next d, v) :: dg_nodes d) (dg_edges d))
  | GEdge a b =>
      if dg_has d a && dg_has d b then Some (DG (dg_next d) (dg_nodes d) ((a, b) :: dg_edges d)) else None
  | GBoth a b =>
      if dg_has d a && dg_has d b then Some (DG (dg_next d) (dg_nodes d) ((a, b) :: (b, a) :: dg_edges d)) else None
  | GCut a b =>
      if dg_has d a && dg_has d b then Some (DG (dg_next d) (dg_nodes d) (del_edge a b (dg_edges d))) else None
  | GCutBoth a b =>
      if dg_has d a && dg_has d b then Some (DG (dg_next d) (dg_nodes d) (del_edge a b (del_edge b a (dg_edges d)))) else None
  | GRemove a =>
      if dg_has d a then
        Some (DG (dg_next d) (aremove Z.eqb a (dg_nodes d))
                (filter (fun e => negb ((fst e =? a) || (snd e =? a))) (dg_edges d)))
      else None
  end.
Fixpoint dg_run {T} (os : list (gop T)) (d : digraph T) : option (digraph T) :=
  match os with
  | [] => Some d
  | o :: os => match dg_step o d with Some d => dg_run os d | None => None end
  end.
(** The removed nodes are not the end of an edge when they are removed. *)
Fixpoint bare_removals {T} (os : list (gop T)) (d : digraph T) : bool :=
  match os with
  | [] => true
  | o :: os =>
      match o with GRemove a => negb (dg_touched d a) | _ => true end &&
      match dg_step o d with Some d => bare_removals os d | None => true end
  end.
(** The number of nodes that are added. *)
Fixpoint adds {T} (os : list (gop T)) : nat :=
  match os with
  | [] => 0
  | GAdd _ :: os => S (adds os)
  | _ :: os => adds os
  end.
(** The first [m] ids. *)
Definition ids (m : nat) : list Z := map Z.of_nat (seq 0 m).

(** What a user sees of a bounded_graph_t that should be the graph [d]. *)
Record graph_shows {T} (h : Z -> Z) (g : bgraph T) (d : digraph T) : Prop := {
  gs_has : forall a, bg_has h g a = Ok (dg_has d a);
  gs_node : forall a v, dg_value d a = Some v ->
    exists nd, bg_node h g a = Ok nd /\ bn_id nd = a /\ bn_value nd = v /\
      (forall b,
         bs_exists id_eq id_hash (bn_out nd) b = Ok (dg_edge d a b) /\
         bs_exists id_eq id_hash (bn_in nd) b = Ok (dg_edge d b a));
  gs_size : bg_size g = Z.of_nat (length (dg_nodes d));
  gs_by_value : forall cmp v, exists l, bg_find_by_value cmp v g = Ok l /\
    Permutation l (map fst (filter (fun p => cmp (snd p) v) (dg_nodes d)));
  gs_roots : exists l, bg_roots h g = Ok l /\
    Permutation l (filter (fun a => negb (existsb (fun e => snd e =? a) (dg_edges d))) (map fst (dg_nodes d)));
  gs_leaves : exists l, bg_leaves h g = Ok l /\
    Permutation l (filter (fun a => negb (existsb (fun e => fst e =? a) (dg_edges d))) (map fst (dg_nodes d)))
}.
