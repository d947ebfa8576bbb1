(** What the ordered walks are supposed to do, on the abstract graphs of
    SpecGraph.v.  Independent of the model. *)
From Coq Require Import Sorted.
From Verif Require Import Common SpecGraph.
Open Scope Z_scope.

(** A strict weak order: asymmetric, and what is not comparable to either of two
    ordered things cannot exist. *)
Definition strict_weak {A : Type} (lt : A -> A -> bool) : Prop :=
  (forall x y, lt x y = true -> lt y x = false) /\
  (forall x y z, lt x y = true -> lt x z = true \/ lt z y = true).

(** Nothing is greater than something after it. *)
Definition ascending (lt : Z -> Z -> bool) (l : list Z) : Prop :=
  StronglySorted (fun x y => lt y x = false) l.

(** A sorting function: a permutation of every list, ascending when different
    entries are compared as by a strict weak order. *)
Definition sorter (srt : nat -> (Z -> Z -> bool) -> list Z -> list Z) : Prop :=
  forall k lt l, Permutation l (srt k lt l) /\
    (NoDup l ->
     (forall x y, In x l -> In y l -> x <> y -> lt x y = true -> lt y x = false) ->
     (forall x y z, In x l -> In y l -> In z l -> x <> y -> lt x y = true -> lt x z = true \/ lt z y = true) ->
     ascending lt (srt k lt l)).

(** Insertion sort, as an example of a sorting function. *)
Fixpoint insert_in (lt : Z -> Z -> bool) (x : Z) (l : list Z) : list Z :=
  match l with
  | [] => [x]
  | y :: l => if lt y x then y :: insert_in lt x l else x :: y :: l
  end.

Fixpoint isort (k : nat) (lt : Z -> Z -> bool) (l : list Z) : list Z :=
  match l with
  | [] => []
  | x :: l => insert_in lt x (isort k lt l)
  end.

Section SpecGraphOrder.
Context {T : Type}.

(** The comparison of nodes by id and value. *)
Definition node_lt (a : agraph T) (comp : Z * T -> Z * T -> bool) (i j : Z) : bool :=
  match a_node a i, a_node a j with
  | Some x, Some y => comp (i, x) (j, y)
  | _, _ => false
  end.

(** The comparison of nodes by value. *)
Definition value_lt (a : agraph T) (ord : T -> T -> bool) (i j : Z) : bool :=
  match a_node a i, a_node a j with
  | Some x, Some y => ord x y
  | _, _ => false
  end.

(** Of two children of [u] one is less than the other. *)
Definition children_differ (a : agraph T) (lt : Z -> Z -> bool) (u : Z) : Prop :=
  forall c d, a_edge a u c = true -> a_edge a u d = true -> c <> d -> lt c d = true \/ lt d c = true.

(** [y] is in the graph and only waits to be visited: its predecessors are in
    [done], it is not. *)
Definition waiting (a : agraph T) (done : list Z) (y : Z) : Prop :=
  a_has a y = true /\ (forall p, a_edge a p y = true -> In p done) /\ ~ In y done.

(** [cs] lists the children of [x] that are not in [done], in ascending order. *)
Definition lists_children (a : agraph T) (lt : Z -> Z -> bool) (done : list Z) (x : Z) (cs : list Z) : Prop :=
  NoDup cs /\ (forall c, In c cs <-> a_edge a x c = true /\ ~ In c done) /\ ascending lt cs.

(** [t] is the sequence of visits of the recursive depth first walk from each
    node of [xs] in turn, after the visits [done]: a node is visited, then the
    walk goes on from those of its children that were not yet visited, in
    ascending order. *)
Inductive deep (a : agraph T) (lt : Z -> Z -> bool) : list Z -> list Z -> list Z -> Prop :=
| deep_nil : forall done, deep a lt done [] []
| deep_cons : forall done x cs t xs t',
    lists_children a lt (done ++ [x]) x cs ->
    deep a lt (done ++ [x]) cs t ->
    deep a lt (done ++ x :: t) xs t' ->
    deep a lt done (x :: xs) (x :: t ++ t').

(** [tr] starts with [start]; then come, for each visit in turn, the children of
    the node visited that were not visited by then, in ascending order. *)
Definition broad (a : agraph T) (lt : Z -> Z -> bool) (start : Z) (tr : list Z) : Prop :=
  exists css, length css = length tr /\ tr = start :: concat css /\
    forall i x cs, nth_error tr i = Some x -> nth_error css i = Some cs ->
      lists_children a lt (firstn (S i) tr) x cs.

End SpecGraphOrder.
