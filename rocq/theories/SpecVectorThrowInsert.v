(** What insert and erase of a vector may leave when something throws. *)
From Verif Require Import Common Vector VectorThrow SpecVectorThrow VectorThrowInsert.
Open Scope Z_scope.

(** The vector has the objects [ss], some of them moved from, in a buffer of its own,
    and all other live buffers are those of [base]. *)
Definition owns_objects {A} (ms : Z) (base w : world A) (v : tvec) (ss : list (slot A)) : Prop :=
  vlen v = length ss /\ ~ In Raw ss /\
  exists b k, vbuf v = Some b /\ buffer base b = None /\ (forall i, i <> b -> buffer w i = buffer base i) /\
    buffer w b = Some (ss ++ repeat Raw k) /\ Z.of_nat (length ss + k) <= ms.

(** [xs] with [a] put in front of the element number [p]. *)
Definition inserted {A} (xs : list A) (p : nat) (a : A) : list A := firstn p xs ++ a :: skipn p xs.

(** [xs] without the elements from number [p] to the one before number [q]. *)
Definition erased {A} (xs : list A) (p q : nat) : list A := firstn p xs ++ skipn q xs.

(** [xs] with one of its elements from number [p] on twice. *)
Definition doubled {A} (xs : list A) (p : nat) (ys : list A) : Prop :=
  exists pre x post, xs = pre ++ x :: post /\ (p <= length pre)%nat /\ ys = pre ++ x :: x :: post.

(** Calls a program may make on a vector with [n] elements. *)
Definition valid_call {A} (ms : Z) (n : nat) (o : iop A) : Prop :=
  match o with
  | IOther o => arg_ok ms o
  | IInsert p _ => (p <= n)%nat
  | IErase p q => (p <= q <= n)%nat
  | IPopValue => (0 < n)%nat
  end.

(** States that programs get to which start without elements and may catch the
    exceptions of every call, except those of insert if the elements are moved:
    an element may then be moved from. *)
Inductive reached {A} (fails : nat -> bool) (nothrow_move : bool) (ms : Z) (start : world A) : world A -> tvec -> Prop :=
| R_start : reached fails nothrow_move ms start start null_vec
| R_fin : forall w v o w' v', reached fails nothrow_move ms start w v -> valid_call ms (vlen v) o ->
    istep fails nothrow_move ms w v o = Fin w' v' -> reached fails nothrow_move ms start w' v'
| R_exc : forall w v o w' v', reached fails nothrow_move ms start w v -> valid_call ms (vlen v) o ->
    (nothrow_move = true -> forall p a, o <> IInsert p a) ->
    istep fails nothrow_move ms w v o = Exc w' v' -> reached fails nothrow_move ms start w' v'.
