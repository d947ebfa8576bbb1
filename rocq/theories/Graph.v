(** Model of the directed graph of include/daw/daw_graph.h and the walks of
    include/daw/daw_graph_algorithm.h.  No proofs in this file.

    Node ids are size_t values.  [std::unordered_set] is a list without
    duplicates and [std::unordered_map] an association list; the order in which
    such a container is iterated is unspecified, so every iteration asks an
    arbitrary function [ord] for the order.  [dbg] is whether
    dbg_precondition_check is active; a failing check calls std::abort
    ([Throw]).  Constructing node values does not throw. *)
From Verif Require Import Common Ints.
Open Scope Z_scope.

(** daw_graph.h:32 node_id_t::NO_ID. *)
Definition NO_ID : Z := 2 ^ 64 - 1.

(** dbg_precondition_check( b ), daw_exception.h:293-316. *)
Definition dbg_check (dbg b : bool) : res unit := if dbg && negb b then Throw else Ok tt.

(** daw_graph.h:35-38 node_id_t::value( ). *)
Definition id_value (dbg : bool) (id : Z) : res Z :=
  _ <- dbg_check dbg (negb (id =? NO_ID)) ;; Ok id.

(** std::unordered_set::count, insert and erase. *)
Definition set_mem (x : Z) (s : list Z) : bool := existsb (Z.eqb x) s.
Definition set_insert (x : Z) (s : list Z) : list Z := if set_mem x s then s else x :: s.
Definition set_erase (x : Z) (s : list Z) : list Z := filter (fun y => negb (x =? y)) s.

Section Value.
Context {T : Type}.

(** daw_graph.h:81-134 node_impl_t; m_id is the key it is stored under. *)
Record gnode := { gval : T; gin : list Z; gout : list Z }.

(** daw_graph.h:343-352 graph_t: cur_id and m_nodes. *)
Record graph := { gcur : Z; gnodes : list (Z * gnode) }.

Definition g_empty : graph := {| gcur := 0; gnodes := [] |}.

(** std::unordered_map::find, erase, and assignment to a mapped value. *)
Fixpoint map_find (m : list (Z * gnode)) (k : Z) : option gnode :=
  match m with
  | [] => None
  | (k', n) :: m => if k =? k' then Some n else map_find m k
  end.

Fixpoint map_set (m : list (Z * gnode)) (k : Z) (n : gnode) : list (Z * gnode) :=
  match m with
  | [] => []
  | (k', n') :: m => if k =? k' then (k', n) :: m else (k', n') :: map_set m k n
  end.

Definition map_erase (m : list (Z * gnode)) (k : Z) : list (Z * gnode) :=
  filter (fun p => negb (k =? fst p)) m.

(** daw_graph.h:356-366 add_node( args... ), [x] the constructed value.  emplace
    keeps an existing entry.  The check is that of node_impl_t's constructor
    (96-101). *)
Definition g_add_node (dbg : bool) (g : graph) (x : T) : res (Z * graph) :=
  let id := gcur g in
  _ <- dbg_check dbg (negb (id =? NO_ID)) ;;
  Ok (id, {| gcur := sz (id + 1);
             gnodes := match map_find (gnodes g) id with
                       | Some _ => gnodes g
                       | None => (id, {| gval := x; gin := []; gout := [] |}) :: gnodes g
                       end |}).

(** daw_graph.h:368-370 has_node( id ). *)
Definition g_has_node (dbg : bool) (g : graph) (id : Z) : res bool :=
  k <- id_value dbg id ;;
  Ok (match map_find (gnodes g) k with Some _ => true | None => false end).

(** dbg_precondition_check( has_node( id ) ): the argument is evaluated in
    either mode. *)
Definition g_require (dbg : bool) (g : graph) (id : Z) : res unit :=
  b <- g_has_node dbg g id ;; dbg_check dbg b.

(** daw_graph.h:374-386 get_raw_node( id ): dereferencing the end iterator is
    undefined. *)
Definition g_get (dbg : bool) (g : graph) (id : Z) : res gnode :=
  _ <- g_require dbg g id ;;
  k <- id_value dbg id ;;
  match map_find (gnodes g) k with Some n => Ok n | None => UB end.

(** Changing a node in place through the reference from get_raw_node. *)
Definition g_update (dbg : bool) (g : graph) (id : Z) (f : gnode -> gnode) : res graph :=
  n <- g_get dbg g id ;;
  Ok {| gcur := gcur g; gnodes := map_set (gnodes g) id (f n) |}.

Definition out_insert (x : Z) (n : gnode) : gnode :=
  {| gval := gval n; gin := gin n; gout := set_insert x (gout n) |}.
Definition in_insert (x : Z) (n : gnode) : gnode :=
  {| gval := gval n; gin := set_insert x (gin n); gout := gout n |}.
Definition out_erase (x : Z) (n : gnode) : gnode :=
  {| gval := gval n; gin := gin n; gout := set_erase x (gout n) |}.
Definition in_erase (x : Z) (n : gnode) : gnode :=
  {| gval := gval n; gin := set_erase x (gin n); gout := gout n |}.

(** daw_graph.h:398-404 size( ), empty( ). *)
Definition g_size (g : graph) : Z := Z.of_nat (length (gnodes g)).
Definition g_is_empty (g : graph) : bool := g_size g =? 0.

(** daw_graph.h:406-415 add_directed_edge. *)
Definition g_add_directed (dbg : bool) (g : graph) (from to : Z) : res graph :=
  _ <- g_require dbg g from ;;
  _ <- g_require dbg g to ;;
  g <- g_update dbg g from (out_insert to) ;;
  g_update dbg g to (in_insert from).

(** daw_graph.h:417-428 add_undirected_edge. *)
Definition g_add_undirected (dbg : bool) (g : graph) (n0 n1 : Z) : res graph :=
  _ <- g_require dbg g n0 ;;
  _ <- g_require dbg g n1 ;;
  g <- g_update dbg g n0 (out_insert n1) ;;
  g <- g_update dbg g n0 (in_insert n1) ;;
  g <- g_update dbg g n1 (out_insert n0) ;;
  g_update dbg g n1 (in_insert n0).

(** The loops of remove_node (434-439): change every node of [ids]. *)
Fixpoint g_update_all (dbg : bool) (g : graph) (ids : list Z) (f : gnode -> gnode) : res graph :=
  match ids with
  | [] => Ok g
  | i :: ids =>
      _ <- g_require dbg g i ;;
      g <- g_update dbg g i f ;;
      g_update_all dbg g ids f
  end.

(** daw_graph.h:430-441 remove_node. *)
Definition g_remove_node (ord : list Z -> list Z) (dbg : bool) (g : graph) (id : Z) : res graph :=
  _ <- g_require dbg g id ;;
  n <- g_get dbg g id ;;
  g <- g_update_all dbg g (ord (gin n)) (out_erase id) ;;
  n <- g_get dbg g id ;;
  g <- g_update_all dbg g (ord (gout n)) (in_erase id) ;;
  k <- id_value dbg id ;;
  Ok {| gcur := gcur g; gnodes := map_erase (gnodes g) k |}.

(** daw_graph.h:443-451 remove_directed_edge. *)
Definition g_remove_directed (dbg : bool) (g : graph) (from to : Z) : res graph :=
  _ <- g_require dbg g from ;;
  _ <- g_require dbg g to ;;
  g <- g_update dbg g from (out_erase to) ;;
  g_update dbg g to (in_erase from).

(** daw_graph.h:453-463 remove_edges. *)
Definition g_remove_edges (dbg : bool) (g : graph) (n0 n1 : Z) : res graph :=
  _ <- g_require dbg g n0 ;;
  _ <- g_require dbg g n1 ;;
  g <- g_update dbg g n0 (out_erase n1) ;;
  g <- g_update dbg g n0 (in_erase n1) ;;
  g <- g_update dbg g n1 (out_erase n0) ;;
  g_update dbg g n1 (in_erase n0).

(** daw_graph.h:477-532 visit( pred, vis ) and find( pred ): the ids of the nodes
    that satisfy [pred], in iteration order.  visit( vis ) is the case of the
    constant predicate. *)
Fixpoint g_visit (dbg : bool) (g : graph) (ids : list Z) (pred : gnode -> bool) : res (list Z) :=
  match ids with
  | [] => Ok []
  | i :: ids =>
      n <- g_get dbg g i ;;
      r <- g_visit dbg g ids pred ;;
      Ok (if pred n then i :: r else r)
  end.

Definition g_find (ord : list Z -> list Z) (dbg : bool) (g : graph) (pred : gnode -> bool) : res (list Z) :=
  g_visit dbg g (ord (map fst (gnodes g))) pred.

(** daw_graph.h:465-475 find_by_value( value, compare ): here the iteration
    reads the stored nodes directly. *)
Definition g_find_by_value (ord : list Z -> list Z) (dbg : bool) (g : graph) (x : T)
    (cmp : T -> T -> bool) : res (list Z) :=
  g_find ord dbg g (fun n => cmp (gval n) x).

(** daw_graph.h:534-544 find_roots( ), find_leaves( ). *)
Definition is_nil (l : list Z) : bool := match l with [] => true | _ => false end.
Definition g_find_roots ord (dbg : bool) (g : graph) : res (list Z) :=
  g_find ord dbg g (fun n => is_nil (gin n)).
Definition g_find_leaves ord (dbg : bool) (g : graph) : res (list Z) :=
  g_find ord dbg g (fun n => is_nil (gout n)).

(** The member functions that change a graph. *)
Inductive graph_op :=
| GAddNode (x : T)
| GAddDirected (u v : Z)
| GAddUndirected (u v : Z)
| GRemoveNode (u : Z)
| GRemoveDirected (u v : Z)
| GRemoveEdges (u v : Z).

(** One call: the id returned by add_node, if any, and the graph. *)
Definition graph_step ord (dbg : bool) (g : graph) (o : graph_op) : res (list Z * graph) :=
  match o with
  | GAddNode x => ' (i, g) <- g_add_node dbg g x ;; Ok ([i], g)
  | GAddDirected u v => g <- g_add_directed dbg g u v ;; Ok ([], g)
  | GAddUndirected u v => g <- g_add_undirected dbg g u v ;; Ok ([], g)
  | GRemoveNode u => g <- g_remove_node ord dbg g u ;; Ok ([], g)
  | GRemoveDirected u v => g <- g_remove_directed dbg g u v ;; Ok ([], g)
  | GRemoveEdges u v => g <- g_remove_edges dbg g u v ;; Ok ([], g)
  end.

Fixpoint graph_run ord (dbg : bool) (g : graph) (os : list graph_op) : res (list Z * graph) :=
  match os with
  | [] => Ok ([], g)
  | o :: os =>
      ' (x, g) <- graph_step ord dbg g o ;;
      ' (xs, g) <- graph_run ord dbg g os ;;
      Ok (x ++ xs, g)
  end.

(** ** Walks.  The visitor does not change the graph and does not throw; a walk
    is the sequence of ids it is called with.  [ord k] is the iteration order
    asked for at the [k]-th visit; it is applied after the filter, so that it
    also stands for the result of std::sort when a child order is given. *)

(** daw_graph_algorithm.h:116-153 bfs_walk and 155-194 dfs_walk, which differ
    in the container used for the pending nodes: [push rest children] is the
    container after adding the children (front of the list: next to be
    taken). *)
Fixpoint walk_loop (push : list Z -> list Z -> list Z) (ord : nat -> list Z -> list Z)
    (dbg : bool) (g : graph) (fuel : nat) (visited path trace : list Z) : res (list Z) :=
  match path with
  | [] => Ok trace
  | cur :: rest =>
      match fuel with
      | O => OutOfFuel
      | S fuel =>
          _ <- g_require dbg g cur ;;
          let visited := set_insert cur visited in
          n <- g_get dbg g cur ;;
          let children := ord (length trace) (filter (fun i => negb (set_mem i visited)) (gout n)) in
          walk_loop push ord dbg g fuel visited (push rest children) (trace ++ [cur])
      end
  end.

(** bfs_walk: std::deque, taken from the front, added at the back. *)
Definition bfs_walk ord (dbg : bool) (g : graph) (fuel : nat) (start : Z) : res (list Z) :=
  walk_loop (fun rest children => rest ++ children) ord dbg g fuel [] [start] [].

(** dfs_walk: std::vector, taken from and added at the back; the list here is
    the vector reversed. *)
Definition dfs_walk ord (dbg : bool) (g : graph) (fuel : nat) (start : Z) : res (list Z) :=
  walk_loop (fun rest children => rev children ++ rest) ord dbg g fuel [] [start] [].

(** excluded_edges of topological_sorted_walk: to |-> list of from. *)
Fixpoint ex_find (ex : list (Z * list Z)) (k : Z) : option (list Z) :=
  match ex with
  | [] => None
  | (k', l) :: ex => if k =? k' then Some l else ex_find ex k
  end.

Fixpoint ex_set (ex : list (Z * list Z)) (k : Z) (l : list Z) : list (Z * list Z) :=
  match ex with
  | [] => [(k, l)]
  | (k', l') :: ex => if k =? k' then (k', l) :: ex else (k', l') :: ex_set ex k l
  end.

(** daw_graph_algorithm.h:70-76 exclude_edge( from, to ). *)
Definition exclude_edge (ex : list (Z * list Z)) (from to : Z) : list (Z * list Z) :=
  let child := match ex_find ex to with Some l => l | None => [] end in
  ex_set ex to (if set_mem from child then child else child ++ [from]).

(** daw_graph_algorithm.h:78-90 has_parent_nodes( n_id ). *)
Definition has_parent_nodes (dbg : bool) (g : graph) (ex : list (Z * list Z)) (id : Z) : res bool :=
  n <- g_get dbg g id ;;
  if is_nil (gin n) then Ok false else
  match ex_find ex id with
  | None => Ok true
  | Some l => Ok (negb (is_nil (fold_left (fun s x => set_erase x s) l (gin n))))
  end.

(** daw_graph_algorithm.h:31-41 get_child_nodes: get_node checks each id. *)
Fixpoint g_require_all (dbg : bool) (g : graph) (ids : list Z) : res unit :=
  match ids with
  | [] => Ok tt
  | i :: ids => _ <- g_require dbg g i ;; g_require_all dbg g ids
  end.

(** daw_graph_algorithm.h:104-109: the loop over the children of [node].
    [roots] is root_nodes reversed. *)
Fixpoint topo_children (dbg : bool) (g : graph) (node : Z) (children : list Z)
    (ex : list (Z * list Z)) (roots : list Z) : res (list (Z * list Z) * list Z) :=
  match children with
  | [] => Ok (ex, roots)
  | c :: children =>
      let ex := exclude_edge ex node c in
      b <- has_parent_nodes dbg g ex c ;;
      topo_children dbg g node children ex (if b then roots else c :: roots)
  end.

(** daw_graph_algorithm.h:92-114: the main loop.  [ordr] stands for sorting
    root_nodes with the given Compare (the identity without one). *)
Fixpoint topo_loop (ordr ordc : nat -> list Z -> list Z) (dbg : bool) (g : graph) (fuel : nat)
    (ex : list (Z * list Z)) (roots trace : list Z) : res (list Z) :=
  match roots with
  | [] => Ok trace
  | node :: roots =>
      match fuel with
      | O => OutOfFuel
      | S fuel =>
          n <- g_get dbg g node ;;
          _ <- g_require_all dbg g (gout n) ;;
          ' (ex, roots) <- topo_children dbg g node (ordc (length trace) (gout n)) ex roots ;;
          topo_loop ordr ordc dbg g fuel ex (ordr (S (length trace)) roots) (trace ++ [node])
      end
  end.

(** daw_graph_algorithm.h:43-115 topological_sorted_walk. *)
Definition topological_sorted_walk ord (ordr ordc : nat -> list Z -> list Z) (dbg : bool) (g : graph)
    (fuel : nat) : res (list Z) :=
  roots <- g_find_roots ord dbg g ;;
  _ <- g_require_all dbg g roots ;;
  topo_loop ordr ordc dbg g fuel [] (ordr O (rev roots)) [].

(** daw_graph_algorithm.h:491-528 reverse_topological_sorted_walk. *)
Definition reverse_topological_sorted_walk ord ordr ordc (dbg : bool) (g : graph) (fuel : nat) : res (list Z) :=
  nodes <- topological_sorted_walk ord ordr ordc dbg g fuel ;;
  let nodes := rev nodes in
  _ <- g_require_all dbg g nodes ;;
  Ok nodes.

(** daw_graph_algorithm.h:206-226: the loop of mst for one root.  [path] is the
    vector reversed; an entry is an edge (parent, node), without a parent for the
    root.  The changed graph is the result. *)
Fixpoint mst_loop (ord : nat -> list Z -> list Z) (dbg : bool) (g : graph) (fuel : nat)
    (visited : list Z) (path : list (option Z * Z)) : res graph :=
  match path with
  | [] => Ok g
  | (parent, cur) :: rest =>
      match fuel with
      | O => OutOfFuel
      | S fuel =>
          if set_mem cur visited then
            match parent with
            | None => Throw
            | Some p =>
                g <- g_remove_directed dbg g p cur ;;
                mst_loop ord dbg g fuel visited rest
            end
          else
            let visited := set_insert cur visited in
            _ <- g_require dbg g cur ;;
            n <- g_get dbg g cur ;;
            let children := ord (length visited) (gout n) in
            mst_loop ord dbg g fuel visited (rev (map (fun i => (Some cur, i)) children) ++ rest)
      end
  end.

Fixpoint mst_roots ord (dbg : bool) (g : graph) (fuel : nat) (roots : list Z) : res graph :=
  match roots with
  | [] => Ok g
  | r :: roots =>
      g <- mst_loop ord dbg g fuel [] [(None, r)] ;;
      mst_roots ord dbg g fuel roots
  end.

(** daw_graph_algorithm.h:196-228 mst. *)
Definition mst ordn ord (dbg : bool) (g : graph) (fuel : nat) : res graph :=
  roots <- g_find_roots ordn dbg g ;;
  mst_roots ord dbg g fuel roots.

End Value.
Arguments gnode : clear implicits.
Arguments graph : clear implicits.
Arguments graph_op : clear implicits.

(** ** Node handles *)

(** daw_graph.h:156-235, 241-335 const_graph_node_t and graph_node_t: the graph
    (identified by its address, 0 for nullptr) and the id. *)
Record handle := { hgraph : Z; hid : Z }.

(** daw_graph.h:184-190, 269-275 empty( ) and operator bool. *)
Definition h_empty (h : handle) : bool := (hgraph h =? 0) || (hid h =? NO_ID).
Definition h_bool (h : handle) : bool := negb (hgraph h =? 0) && negb (hid h =? NO_ID).

(** daw_graph.h:211-225, 310-324 operator== and operator!=. *)
Definition h_eq (a b : handle) : bool := (hid a =? hid b) || (hgraph a =? hgraph b).
Definition h_ne (a b : handle) : bool := negb (hid a =? hid b) || negb (hgraph a =? hgraph b).

(** daw_graph.h:227-234, 326-333 operator<. *)
Definition h_lt (dbg : bool) (a b : handle) : res bool :=
  _ <- dbg_check dbg (hgraph a =? hgraph b) ;; Ok (hid a <? hid b).
