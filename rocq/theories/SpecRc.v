(** Specification vocabulary for the reference counted pointer. *)
From Verif Require Import Common Ints RcPtr.

(** Variable [i] exists and points to object [k] / to nothing. *)
Definition points (w : world) (i k : nat) : Prop := exists p, nth_error (vars w) i = Some (Some p) /\ m_pointer p = Some k.
Definition is_null (w : world) (i : nat) : Prop := exists p, nth_error (vars w) i = Some (Some p) /\ m_pointer p = None.
Definition exists_var (w : world) (i : nat) : Prop := exists p, nth_error (vars w) i = Some (Some p).
Definition alive (w : world) (k : nat) : Prop := nth_error (objects w) k = Some true.
(** Another variable points to the same object. *)
Definition shared (w : world) (i : nat) : Prop := exists j k, i <> j /\ points w i k /\ points w j k.
(** The number of variables that point to [k]. *)
Definition owners (w : world) (k : nat) : nat :=
  length (filter (fun v => match v with Some p => match m_pointer p with Some j => (j =? k)%nat | None => false end | None => false end) (vars w)).

(** Programs that use existing variables only. *)
Definition well_used (w : world) (op : rc_op) : Prop :=
  match op with
  | RcMake | RcNull => True
  | RcCopy j | RcMove j | RcReset j | RcDestroy j => exists_var w j
  | RcAssign i j | RcMoveAssign i j | RcSwap i j => exists_var w i /\ exists_var w j
  end.
(** The statements that go wrong: reset of a shared pointer; and, for a single
    object, assigning a null pointer to one. *)
Definition harmless (arr : bool) (w : world) (op : rc_op) : Prop :=
  match op with
  | RcReset i => ~ shared w i
  | RcAssign i j => arr = true \/ i = j \/ ~ is_null w j \/ ~ shared w i
  | _ => True
  end.
Fixpoint good_program (arr : bool) (w : world) (ops : list rc_op) : Prop :=
  match ops with
  | [] => True
  | op :: ops => well_used w op /\ harmless arr w op /\ forall w', rc_step arr w op = Ok w' -> good_program arr w' ops
  end.
