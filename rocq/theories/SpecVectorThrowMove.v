(** Programs that also insert rvalues and catch the exceptions of all calls. *)
From Verif Require Import Common Vector VectorThrow SpecVectorThrow VectorThrowInsert SpecVectorThrowInsert VectorThrowMove.
Open Scope Z_scope.

(** States that programs get to which start without elements.  An exception may be
    caught after every call, except after an insert of a const value if elements are
    moved, which may leave an element moved from. *)
Inductive move_reached {A} (fails : nat -> bool) (nothrow_move : bool) (ms : Z) (start : world A) : world A -> tvec -> Prop :=
| M_start : move_reached fails nothrow_move ms start start null_vec
| M_fin : forall w v o w' v', move_reached fails nothrow_move ms start w v -> valid_call ms (vlen v) o ->
    istep fails nothrow_move ms w v o = Fin w' v' -> move_reached fails nothrow_move ms start w' v'
| M_exc : forall w v o w' v', move_reached fails nothrow_move ms start w v -> valid_call ms (vlen v) o ->
    (nothrow_move = true -> forall p a, o <> IInsert p a) ->
    istep fails nothrow_move ms w v o = Exc w' v' -> move_reached fails nothrow_move ms start w' v'
| M_insert_fin : forall w v p a w' v' x, move_reached fails nothrow_move ms start w v -> (p <= vlen v)%nat ->
    insert_move fails nothrow_move ms w v p (Obj a) = Fin w' (v', x) -> move_reached fails nothrow_move ms start w' v'
| M_insert_exc : forall w v p a w' v' x, move_reached fails nothrow_move ms start w v -> (p <= vlen v)%nat ->
    insert_move fails nothrow_move ms w v p (Obj a) = Exc w' (v', x) -> move_reached fails nothrow_move ms start w' v'
| M_push_fin : forall w v a w' v' x, move_reached fails nothrow_move ms start w v ->
    push_back_move fails nothrow_move ms w v (Obj a) = Fin w' (v', x) -> move_reached fails nothrow_move ms start w' v'
| M_push_exc : forall w v a w' v' x, move_reached fails nothrow_move ms start w v ->
    push_back_move fails nothrow_move ms w v (Obj a) = Exc w' (v', x) -> move_reached fails nothrow_move ms start w' v'.
