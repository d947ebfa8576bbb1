(** Model of topological_sorted_iterator and the two range factories of
    daw_graph_algorithm.h:257-489. *)
From Verif Require Import Common Ints Graph.
Open Scope Z_scope.

(** 257-410 topological_sorted_iterator: the nodes of the walk in a vector that
    all copies share, and a position in it.  Simplification: the nodes are their
    ids, and are not assigned through the iterator. *)
Record titer := TIter { t_nodes : list Z; t_pos : Z }.

(** Moving the iterator of the vector: undefined outside of it. *)
Definition t_move (it : titer) (n : Z) : res titer :=
  let p := t_pos it + n in
  if (0 <=? p) && (p <=? Z.of_nat (length (t_nodes it))) then Ok (TIter (t_nodes it) p) else UB.

(** 288-298 the constructors. *)
Definition t_begin (nodes : list Z) : titer := TIter nodes 0.
(** 300-304 end( ); the overload for const objects (306-310) does not compile. *)
Definition t_end (it : titer) : titer := TIter (t_nodes it) (Z.of_nat (length (t_nodes it))).
(** 322-336 operator*, operator->. *)
Definition t_deref (it : titer) : res Z :=
  if t_pos it <? 0 then UB else rd (t_nodes it) (Z.to_nat (t_pos it)).

(** 312-320, 338-370: the operators that move, each with the result and the
    iterator afterwards. *)
Inductive t_op :=
| TAddAssign (n : Z) | TSubAssign (n : Z) | TInc | TPostInc | TDec | TPostDec | TAdd (n : Z) | TSub (n : Z).

Definition t_step (it : titer) (o : t_op) : res (titer * titer) :=
  match o with
  | TAddAssign n => it' <- t_move it n ;; Ok (it', it')
  | TSubAssign n => it' <- t_move it (- n) ;; Ok (it', it')
  | TInc => it' <- t_move it 1 ;; Ok (it', it')
  | TPostInc => it' <- t_move it 1 ;; Ok (it, it')
  | TDec => it' <- t_move it (-1) ;; Ok (it', it')
  | TPostDec => it' <- t_move it (-1) ;; Ok (it, it')
  | TAdd n => r <- t_move it n ;; Ok (r, it)
  | TSub n => r <- t_move it (- n) ;; Ok (r, it)
  end.

(** A sequence of operators on one iterator: the results and the iterator. *)
Fixpoint t_run (it : titer) (os : list t_op) : res (list titer * titer) :=
  match os with
  | [] => Ok ([], it)
  | o :: os =>
      ' (r, it) <- t_step it o ;;
      ' (rs, it) <- t_run it os ;;
      Ok (r :: rs, it)
  end.

(** 372-379 size( ) and empty( ). *)
Definition t_size (it : titer) : Z := Z.of_nat (length (t_nodes it)) - t_pos it.
Definition t_empty (it : titer) : bool := t_pos it =? Z.of_nat (length (t_nodes it)).

(** 381-409 the comparisons, for iterators into the same vector. *)
Definition t_eq (l r : titer) : bool := t_pos l =? t_pos r.
Definition t_ne (l r : titer) : bool := negb (t_pos l =? t_pos r).
Definition t_lt (l r : titer) : bool := t_pos l <? t_pos r.
Definition t_le (l r : titer) : bool := t_pos l <=? t_pos r.
Definition t_gt (l r : titer) : bool := t_pos l >? t_pos r.
Definition t_ge (l r : titer) : bool := t_pos l >=? t_pos r.

(** A loop for( it = first; it != last; ++it ) that collects *it. *)
Fixpoint t_loop (fuel : nat) (it last : titer) (acc : list Z) : res (list Z) :=
  if t_ne it last then
    match fuel with
    | O => OutOfFuel
    | S fuel =>
        x <- t_deref it ;;
        ' (_, it) <- t_step it TInc ;;
        t_loop fuel it last (acc ++ [x])
    end
  else Ok acc.

(** The same loop with std::reverse_iterator (from the C++ standard) around both
    iterators: * reads the element before the base, ++ is -- of the base. *)
Fixpoint t_rloop (fuel : nat) (base last : titer) (acc : list Z) : res (list Z) :=
  if t_ne base last then
    match fuel with
    | O => OutOfFuel
    | S fuel =>
        tmp <- t_move base (-1) ;;
        x <- t_deref tmp ;;
        ' (_, base) <- t_step base TDec ;;
        t_rloop fuel base last (acc ++ [x])
    end
  else Ok acc.

(** 412-447 make_topological_sorted_range and 449-489
    make_reverse_topological_sorted_range: both keep the first and the last
    iterator. *)
Record trange := TRange { tr_first : titer; tr_last : titer }.

Definition make_range (nodes : list Z) : trange :=
  let frst := t_begin nodes in TRange frst (t_end frst).

Definition tr_size (r : trange) : Z := t_size (tr_first r).
Definition tr_empty (r : trange) : bool := t_empty (tr_first r).

(** make_topological_sorted_range: loops over begin( ), end( ) (423-425, 431-433)
    and over rbegin( ), rend( ) (427-429, 435-437). *)
Definition forward_loop (fuel : nat) (r : trange) : res (list Z) := t_loop fuel (tr_first r) (tr_last r) [].
Definition forward_rloop (fuel : nat) (r : trange) : res (list Z) := t_rloop fuel (tr_first r) (tr_last r) [].

(** make_reverse_topological_sorted_range: loops over begin( ), end( ) (467-469,
    475-477) and over rbegin( ), rend( ) (463-465, 471-473). *)
Definition reverse_loop (fuel : nat) (r : trange) : res (list Z) := t_rloop fuel (tr_first r) (tr_last r) [].
Definition reverse_rloop (fuel : nat) (r : trange) : res (list Z) := t_loop fuel (tr_first r) (tr_last r) [].

(** 267-277 get_nodes and the factories on a graph. *)
Definition graph_range {T} ord ordr ordc (dbg : bool) (g : graph T) (fuel : nat) : res trange :=
  nodes <- topological_sorted_walk ord ordr ordc dbg g fuel ;; Ok (make_range nodes).
