(** Model of bounded_graph_t (deprecated/daw_bounded_graph.h), on top of the model of
    bounded_hash_map and bounded_hash_set_t in HashTables.v.  No proofs in this file.

    Node ids are numbers in [0, 2^64).  The values of nodes are of a type [T]; their
    construction and copies do not throw.  [h] is the Hash parameter of the graph, applied to
    an id.  The dbg_precondition_checks (a release build has none) are not modelled: what
    follows them decides.  A proxy (graph pointer and id) that is not looked into is its id. *)
From Verif Require Import Common Ints HashTables.
Open Scope Z_scope.

(** 35-69 node_id_t: NO_ID is the largest size_t. *)
Definition no_id : Z := 2 ^ 64 - 1.
(** 53-55 operator bool. *)
Definition id_valid (id : Z) : bool := negb (id =? no_id).
(** 61-69, 72-86 compare and the operators on it. *)
Definition id_compare (a b : Z) : Z := if a =? b then 0 else if a <? b then -1 else 1.
Definition id_eq (a b : Z) : bool := id_compare a b =? 0.
Definition id_ne (a b : Z) : bool := negb (id_compare a b =? 0).
Definition id_lt (a b : Z) : bool := id_compare a b <? 0.
(** 57-59, 89-96 the hash of an id is the id. *)
Definition id_hash (id : Z) : Z := id.

Section BGraph.
Context {T : Type}.
Variable h : Z -> Z.

(** 100-159 node_impl_t. *)
Record bnode := BNode {
  bn_id : Z;
  bn_value : T;
  bn_in : @set_slots Z;
  bn_out : @set_slots Z
}.
Definition set_in (s : @set_slots Z) (nd : bnode) : bnode := BNode (bn_id nd) (bn_value nd) s (bn_out nd).
Definition set_out (s : @set_slots Z) (nd : bnode) : bnode := BNode (bn_id nd) (bn_value nd) (bn_in nd) s.

(** 378-391 the graph; [bg_max] is MaxVerticesPerNode. *)
Record bgraph := BGraph {
  bg_max : nat;
  bg_next : Z;
  bg_nodes : @map_slots Z bnode
}.
Definition bg_make (n : nat) : bgraph := BGraph n 0 (mp_make n).
Definition set_nodes (m : @map_slots Z bnode) (g : bgraph) : bgraph := BGraph (bg_max g) (bg_next g) m.

(** 392-404 add_node. *)
Definition bg_add (v : T) (g : bgraph) : res (Z * bgraph) :=
  let id := bg_next g in
  m <- mp_insert id_eq h (bg_nodes g) id (BNode id v (bs_make (bg_max g)) (bs_make (bg_max g))) ;;
  Ok (id, BGraph (bg_max g) (sz (id + 1)) m).
(** 405-407 has_node. *)
Definition bg_has (g : bgraph) (id : Z) : res bool := mp_exists id_eq h (bg_nodes g) id.
(** 409-423 get_raw_node: the slot of the node.  Using the result for an id that is not in
    the graph (a stale or default node, or the slot behind the last one) is UB here. *)
Definition bg_slot (g : bgraph) (id : Z) : res nat :=
  p <- mp_find id_eq h (bg_nodes g) id ;; _ <- it_get (bg_nodes g) p ;; Ok p.
(** The node in slot [p], and a change to it through the reference. *)
Definition bg_at (g : bgraph) (p : nat) : res bnode := ' (_, nd) <- it_get (bg_nodes g) p ;; Ok nd.
Definition bg_set_at (g : bgraph) (p : nat) (nd : bnode) : res bgraph :=
  ' (k, _) <- it_get (bg_nodes g) p ;; m <- wr (bg_nodes g) p (Some (k, nd)) ;; Ok (set_nodes m g).
Definition bg_node (g : bgraph) (id : Z) : res bnode := p <- bg_slot g id ;; bg_at g p.
(** 435-437 size. *)
Definition bg_size (g : bgraph) : Z := mp_size (bg_nodes g).

(** One insert into, or erase from, an edge set of the node in slot [p]. *)
Definition out_insert (g : bgraph) (p : nat) (id : Z) : res bgraph :=
  nd <- bg_at g p ;; ' (_, s) <- bs_insert id_eq id_hash (bn_out nd) id ;; bg_set_at g p (set_out s nd).
Definition in_insert (g : bgraph) (p : nat) (id : Z) : res bgraph :=
  nd <- bg_at g p ;; ' (_, s) <- bs_insert id_eq id_hash (bn_in nd) id ;; bg_set_at g p (set_in s nd).
Definition out_erase (g : bgraph) (p : nat) (id : Z) : res bgraph :=
  nd <- bg_at g p ;; ' (_, s) <- bs_erase id_eq id_hash (bn_out nd) id ;; bg_set_at g p (set_out s nd).
Definition in_erase (g : bgraph) (p : nat) (id : Z) : res bgraph :=
  nd <- bg_at g p ;; ' (_, s) <- bs_erase id_eq id_hash (bn_in nd) id ;; bg_set_at g p (set_in s nd).

(** 439-448 add_directed_edge. *)
Definition bg_edge (from to : Z) (g : bgraph) : res bgraph :=
  pf <- bg_slot g from ;;
  pt <- bg_slot g to ;;
  g <- out_insert g pf to ;;
  in_insert g pt from.
(** 450-461 add_undirected_edge. *)
Definition bg_both (a b : Z) (g : bgraph) : res bgraph :=
  pa <- bg_slot g a ;;
  pb <- bg_slot g b ;;
  g <- out_insert g pa b ;;
  g <- in_insert g pa b ;;
  g <- out_insert g pb a ;;
  in_insert g pb a.
(** 476-484 remove_directed_edge. *)
Definition bg_cut (from to : Z) (g : bgraph) : res bgraph :=
  pf <- bg_slot g from ;;
  pt <- bg_slot g to ;;
  g <- out_erase g pf to ;;
  in_erase g pt from.
(** 486-496 remove_edges. *)
Definition bg_cut_both (a b : Z) (g : bgraph) : res bgraph :=
  pa <- bg_slot g a ;;
  pb <- bg_slot g b ;;
  g <- out_erase g pa b ;;
  g <- in_erase g pa b ;;
  g <- out_erase g pb a ;;
  in_erase g pb a.

(** The loops of remove_node: [edges] is the edge set of the node in slot [p], [body] what is
    done for each id in it; [i] is the position of the iterator. *)
Fixpoint bg_loop (fuel : nat) (edges : bnode -> @set_slots Z) (body : Z -> bgraph -> res bgraph)
    (p i : nat) (g : bgraph) : res bgraph :=
  match fuel with
  | O => OutOfFuel
  | Datatypes.S fuel =>
      if (i =? bg_max g)%nat then Ok g
      else
        nd <- bg_at g p ;;
        ' (k, _) <- it_get (edges nd) i ;;
        g <- body k g ;;
        nd <- bg_at g p ;;
        i <- it_next true (edges nd) (bg_max g) i ;;
        bg_loop fuel edges body p i g
  end.
Definition bg_each (edges : bnode -> @set_slots Z) (body : Z -> bgraph -> res bgraph) (p : nat) (g : bgraph) : res bgraph :=
  nd <- bg_at g p ;; bg_loop (Datatypes.S (bg_max g)) edges body p (first_used (edges nd)) g.
(** 463-474 remove_node. *)
Definition bg_remove (id : Z) (g : bgraph) : res bgraph :=
  p <- bg_slot g id ;;
  g <- bg_each bn_in (fun k g => q <- bg_slot g k ;; out_erase g q id) p g ;;
  g <- bg_each bn_out (fun k g => q <- bg_slot g k ;; in_erase g q id) p g ;;
  m <- mp_erase id_eq h (bg_nodes g) id ;;
  Ok (set_nodes m g).

(** 511-537 visit with a predicate and a visitor that records the ids (find, 539-547): the
    loop over m_nodes.  The result has room for all nodes, so push_back is app. *)
Fixpoint bg_scan (fuel : nat) (keep : bnode -> res bool) (g : bgraph) (i : nat) (acc : list Z) : res (list Z) :=
  match fuel with
  | O => OutOfFuel
  | Datatypes.S fuel =>
      if (i =? mp_capacity (bg_nodes g))%nat then Ok acc
      else
        ' (_, nd) <- it_get (bg_nodes g) i ;;
        b <- keep nd ;;
        i <- it_next false (bg_nodes g) (mp_capacity (bg_nodes g)) i ;;
        bg_scan fuel keep g i (if b : bool then acc ++ [bn_id nd] else acc)
  end.
Definition bg_begin (g : bgraph) : nat := first_used (firstn (mp_capacity (bg_nodes g)) (bg_nodes g)).
Definition bg_find (pred : bnode -> bool) (g : bgraph) : res (list Z) :=
  bg_scan (Datatypes.S (mp_capacity (bg_nodes g)))
    (fun nd => nd' <- bg_node g (bn_id nd) ;; Ok (pred nd')) g (bg_begin g) [].
(** 498-509 find_by_value. *)
Definition bg_find_by_value (cmp : T -> T -> bool) (v : T) (g : bgraph) : res (list Z) :=
  bg_scan (Datatypes.S (mp_capacity (bg_nodes g))) (fun nd => Ok (cmp (bn_value nd) v)) g (bg_begin g) [].
(** 549-561 find_roots and find_leaves. *)
Definition bg_roots (g : bgraph) : res (list Z) := bg_find (fun nd => bs_empty (bn_in nd)) g.
Definition bg_leaves (g : bgraph) : res (list Z) := bg_find (fun nd => bs_empty (bn_out nd)) g.

(** A history of changes. *)
Inductive gop :=
| GAdd (v : T)
| GEdge (a b : Z)
| GBoth (a b : Z)
| GCut (a b : Z)
| GCutBoth (a b : Z)
| GRemove (a : Z).
Definition bg_step (o : gop) (g : bgraph) : res bgraph :=
  match o with
  | GAdd v => ' (_, g) <- bg_add v g ;; Ok g
  | GEdge a b => bg_edge a b g
  | GBoth a b => bg_both a b g
  | GCut a b => bg_cut a b g
  | GCutBoth a b => bg_cut_both a b g
  | GRemove a => bg_remove a g
  end.
Fixpoint bg_run (os : list gop) (g : bgraph) : res bgraph :=
  match os with
  | [] => Ok g
  | o :: os => g <- bg_step o g ;; bg_run os g
  end.
End BGraph.
Arguments bnode : clear implicits.
Arguments bgraph : clear implicits.
Arguments gop : clear implicits.
Arguments bg_make {T} n.

(** 237-262, 341-366 the comparisons of node proxies (graph pointer, id); a graph pointer is a
    number, 0 for null. *)
Definition proxy := (Z * Z)%type.
Definition proxy_eq (a b : proxy) : bool := id_eq (snd a) (snd b) || (fst a =? fst b).
Definition proxy_ne (a b : proxy) : bool := id_ne (snd a) (snd b) || negb (fst a =? fst b).
Definition proxy_lt (a b : proxy) : bool := id_lt (snd a) (snd b).
