(** The ordered walks of daw_graph_algorithm.h: topological_sorted_walk with a
    Compare, and bfs_walk and dfs_walk with a ChildOrder.  The unordered walks
    are in Graph.v. *)
From Verif Require Import Common Ints Graph.
Open Scope Z_scope.

Section GraphOrder.
Context {T : Type}.
Notation graph := (graph T).

(** The comparison of two nodes at daw_graph_algorithm.h:65 (comp on two nodes)
    and 140-144, 181-185 (ord on the values of two nodes).  Simplification: the
    comparison sees the id and the value of each node and does not throw; an id
    that is not in the graph, which the loops never compare, is less than
    nothing. *)
Definition node_less (comp : Z * T -> Z * T -> bool) (g : graph) (i j : Z) : bool :=
  match map_find (gnodes g) i, map_find (gnodes g) j with
  | Some m, Some n => comp (i, gval m) (j, gval n)
  | _, _ => false
  end.

Definition value_less (ord : T -> T -> bool) : graph -> Z -> Z -> bool :=
  node_less (fun x y => ord (snd x) (snd y)).

(** Two different entries, each less than the other. *)
Definition clash (lt : Z -> Z -> bool) (l : list Z) : bool :=
  existsb (fun x => existsb (fun y => negb (x =? y) && lt x y && lt y x) l) l.

(** std::sort (from the C++ standard): [srt k lt l] is the outcome of the
    [k]-th call.  The behaviour is undefined when the comparison is no strict
    weak order; here that is noticed when two entries are each less than the
    other.  Simplification: that the comparison also calls an entry less than
    itself is not counted, since implementations have no need to compare an entry
    with itself. *)
Definition std_sort (srt : nat -> (Z -> Z -> bool) -> list Z -> list Z) (k : nat) (lt : Z -> Z -> bool)
    (l : list Z) : res (list Z) :=
  if clash lt l then UB else Ok (srt k lt l).

(** daw_graph_algorithm.h:116-153 bfs_walk and 155-194 dfs_walk with a
    ChildOrder: [lt] is the comparison given to std::sort. *)
Fixpoint ordered_loop (push : list Z -> list Z -> list Z) srt (lt : Z -> Z -> bool)
    (dbg : bool) (g : graph) (fuel : nat) (visited path trace : list Z) : res (list Z) :=
  match path with
  | [] => Ok trace
  | cur :: rest =>
      match fuel with
      | O => OutOfFuel
      | S fuel =>
          _ <- g_require dbg g cur ;;
          let visited := set_insert cur visited in
          n <- g_get dbg g cur ;;
          children <- std_sort srt (length trace) lt
                        (filter (fun i => negb (set_mem i visited)) (gout n)) ;;
          ordered_loop push srt lt dbg g fuel visited (push rest children) (trace ++ [cur])
      end
  end.

(** daw_graph_algorithm.h:130-150: children sorted with ord, added at the back
    of the deque. *)
Definition ordered_bfs srt (ord : T -> T -> bool) (dbg : bool) (g : graph) (fuel : nat) (start : Z)
    : res (list Z) :=
  ordered_loop (fun rest children => rest ++ children) srt (value_less ord g) dbg g fuel [] [start] [].

(** daw_graph_algorithm.h:169-191: children sorted with "not ord", added at the
    back of the vector, from where the next node is taken (the list is the vector
    reversed). *)
Definition ordered_dfs srt (ord : T -> T -> bool) (dbg : bool) (g : graph) (fuel : nat) (start : Z)
    : res (list Z) :=
  ordered_loop (fun rest children => rev children ++ rest) srt (fun i j => negb (value_less ord g i j))
    dbg g fuel [] [start] [].

(** daw_graph_algorithm.h:92-114: the main loop with a Compare: the children
    are sorted with "not comp" (97-102), root_nodes with comp (111-113).  [roots]
    is root_nodes reversed. *)
Fixpoint ordered_topo_loop srtr srtc (lt : Z -> Z -> bool) (dbg : bool) (g : graph) (fuel : nat)
    (ex : list (Z * list Z)) (roots trace : list Z) : res (list Z) :=
  match roots with
  | [] => Ok trace
  | node :: roots =>
      match fuel with
      | O => OutOfFuel
      | S fuel =>
          n <- g_get dbg g node ;;
          _ <- g_require_all dbg g (gout n) ;;
          children <- std_sort srtc (length trace) (fun i j => negb (lt i j)) (gout n) ;;
          ' (ex, roots) <- topo_children dbg g node children ex roots ;;
          roots <- std_sort srtr (S (length trace)) lt (rev roots) ;;
          ordered_topo_loop srtr srtc lt dbg g fuel ex (rev roots) (trace ++ [node])
      end
  end.

(** daw_graph_algorithm.h:43-115 topological_sorted_walk with a Compare; the
    roots are sorted at 64-66. *)
Definition ordered_topological_walk itr srtr srtc (comp : Z * T -> Z * T -> bool) (dbg : bool) (g : graph)
    (fuel : nat) : res (list Z) :=
  roots <- g_find_roots itr dbg g ;;
  _ <- g_require_all dbg g roots ;;
  roots <- std_sort srtr O (node_less comp g) roots ;;
  ordered_topo_loop srtr srtc (node_less comp g) dbg g fuel [] (rev roots) [].

End GraphOrder.
