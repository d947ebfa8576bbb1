(** What the iterator operators mean, in terms of positions. *)
From Verif Require Import Common TopoRange.
Open Scope Z_scope.

(** Where an operator leaves the iterator, and where its result is, when the
    iterator was at [p]. *)
Definition pos_after (p : Z) (o : t_op) : Z :=
  match o with
  | TAddAssign n => p + n
  | TSubAssign n => p - n
  | TInc | TPostInc => p + 1
  | TDec | TPostDec => p - 1
  | TAdd _ | TSub _ => p
  end.

Definition pos_result (p : Z) (o : t_op) : Z :=
  match o with
  | TPostInc | TPostDec => p
  | TAdd n => p + n
  | TSub n => p - n
  | _ => pos_after p o
  end.

(** The positions after each operator, and of each result. *)
Fixpoint positions (p : Z) (os : list t_op) : list Z :=
  match os with
  | [] => []
  | o :: os => pos_result p o :: positions (pos_after p o) os
  end.

Fixpoint final_pos (p : Z) (os : list t_op) : Z :=
  match os with
  | [] => p
  | o :: os => final_pos (pos_after p o) os
  end.

(** All operators stay between the first element and the end. *)
Fixpoint stays_in (len p : Z) (os : list t_op) : Prop :=
  match os with
  | [] => True
  | o :: os =>
      0 <= pos_result p o <= len /\ 0 <= pos_after p o <= len /\ stays_in len (pos_after p o) os
  end.
