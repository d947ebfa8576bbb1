(** C345-C346: the topologically sorted ranges: theorems. *)
From Coq Require Import Lia.
From Verif Require Import Common Ints Graph SpecGraph TopoRange SpecTopoRange TopoRangeProofs.
Open Scope Z_scope.

(** * C345 Loops over topologically sorted ranges. *)

(** A loop over make_topological_sorted_range visits each node that no cycle leads to once, after its predecessors; size and empty agree with it. *)
Theorem C345_loop :
  forall (T : Type) ord ordr ordc dbg (g : graph T) a,
  any_order ord -> (forall k, any_order (ordr k)) -> (forall k, any_order (ordc k)) -> built dbg g a ->
  forall fuel, g_size g <= Z.of_nat fuel ->
  exists tr r, graph_range ord ordr ordc dbg g fuel = Ok r /\
    NoDup tr /\ parents_first a tr /\
    (forall x, In x tr <-> a_has a x = true /\ forall c, reaches a c x -> ~ on_cycle a c) /\
    tr_size r = Z.of_nat (length tr) /\ (tr_empty r = true <-> tr = []) /\
    forall k, (length tr <= k)%nat -> forward_loop k r = Ok tr.
Proof. exact c345_loop. Qed.

(** Any sequence of +=, -=, ++, --, + and - moves as pointers do: defined exactly while it stays between the first element and the end, with postfix results at the old and binary results at the new position. *)
Theorem C345_moves :
  forall nodes p os, 0 <= p <= Z.of_nat (length nodes) ->
  (stays_in (Z.of_nat (length nodes)) p os ->
     t_run (TIter nodes p) os = Ok (map (TIter nodes) (positions p os), TIter nodes (final_pos p os))) /\
  (~ stays_in (Z.of_nat (length nodes)) p os -> t_run (TIter nodes p) os = UB).
Proof. exact c345_moves. Qed.

(** * reads the node at the position, the comparisons compare positions, and size counts the nodes ahead. *)
Theorem C345_read :
  forall nodes p q x, 0 <= p -> 0 <= q ->
  (t_deref (TIter nodes p) = Ok x <-> nth_error nodes (Z.to_nat p) = Some x) /\
  (Z.of_nat (length nodes) <= p -> t_deref (TIter nodes p) = UB) /\
  t_size (TIter nodes p) = Z.of_nat (length nodes) - p /\ (t_empty (TIter nodes p) = true <-> p = Z.of_nat (length nodes)) /\
  (t_eq (TIter nodes p) (TIter nodes q) = true <-> p = q) /\ (t_ne (TIter nodes p) (TIter nodes q) = true <-> p <> q) /\
  (t_lt (TIter nodes p) (TIter nodes q) = true <-> p < q) /\ (t_le (TIter nodes p) (TIter nodes q) = true <-> p <= q) /\
  (t_gt (TIter nodes p) (TIter nodes q) = true <-> q < p) /\ (t_ge (TIter nodes p) (TIter nodes q) = true <-> q <= p).
Proof. exact c345_read. Qed.

Example C345_nonvacuous :
  (' (_, g) <- graph_run (fun l => l) true g_empty [GAddNode 7; GAddNode 8; GAddNode 9; GAddDirected 2 0; GAddDirected 0 1] ;;
   r <- graph_range (fun l => l) (fun _ l => l) (fun _ l => l) true g 3 ;; forward_loop 3 r) = Ok [2; 0; 1] /\
  stays_in 3 0 [TInc; TPostInc; TAdd (-2); TSubAssign 1] /\
  t_run (t_begin [2; 0; 1]) [TInc; TPostInc; TAdd (-2); TSubAssign 1] =
    Ok ([TIter [2; 0; 1] 1; TIter [2; 0; 1] 1; TIter [2; 0; 1] 0; TIter [2; 0; 1] 1], TIter [2; 0; 1] 1).
Proof. split; [vm_compute; reflexivity|]. split; [cbn; lia | reflexivity]. Qed.
Print Assumptions C345_loop.
Print Assumptions C345_moves.
Print Assumptions C345_read.

(** * C346 The reversed ranges. *)

(** rbegin( ), rend( ) of make_reverse_topological_sorted_range give the nodes in the order of the forward walk; the loops in reverse order are fine for a walk without nodes.  Missing: all other loops in reverse order, see C346_reverse_refuted. *)
Theorem C346_rbegin_partial :
  forall (T : Type) ord ordr ordc dbg (g : graph T) a,
  any_order ord -> (forall k, any_order (ordr k)) -> (forall k, any_order (ordc k)) -> built dbg g a ->
  forall fuel, g_size g <= Z.of_nat fuel ->
  exists tr r, graph_range ord ordr ordc dbg g fuel = Ok r /\
    topological_sorted_walk ord ordr ordc dbg g fuel = Ok tr /\
    (forall k, (length tr <= k)%nat -> reverse_rloop k r = Ok tr) /\
    (tr = [] -> forall k, forward_rloop k r = Ok [] /\ reverse_loop k r = Ok []).
Proof. exact c346_rbegin_partial. Qed.

(** The reverse iterators are made with the two ends exchanged: whenever there is a node to visit, rbegin( ) of the forward range and begin( ) of the reverse range read before the first element. *)
Theorem C346_reverse_refuted :
  forall (T : Type) ord ordr ordc dbg (g : graph T) a,
  any_order ord -> (forall k, any_order (ordr k)) -> (forall k, any_order (ordc k)) -> built dbg g a ->
  forall fuel, g_size g <= Z.of_nat fuel ->
  (exists x, a_has a x = true /\ forall c, reaches a c x -> ~ on_cycle a c) ->
  exists r, graph_range ord ordr ordc dbg g fuel = Ok r /\
    forall k, (1 <= k)%nat -> forward_rloop k r = UB /\ reverse_loop k r = UB.
Proof. exact c346_reverse_refuted. Qed.

Example C346_nonvacuous :
  let g := ' (_, g) <- graph_run (fun l => l) true g_empty [GAddNode 7; GAddNode 8; GAddDirected 1 0] ;;
           graph_range (fun l => l) (fun _ l => l) (fun _ l => l) true g 3 in
  (r <- g ;; reverse_rloop 3 r) = Ok [1; 0] /\ (r <- g ;; reverse_loop 3 r) = UB /\ (r <- g ;; forward_rloop 3 r) = UB.
Proof. vm_compute. repeat split. Qed.
Print Assumptions C346_rbegin_partial.
Print Assumptions C346_reverse_refuted.
