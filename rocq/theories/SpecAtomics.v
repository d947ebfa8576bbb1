(** Specification vocabulary for the atomics. *)
From Verif Require Import Common Ints Atomics.
Open Scope Z_scope.

(** What an operation adds to the value; [None]: it does something else. *)
Definition amount (op : atomic_op) : option Z :=
  match op with
  | ALoad => Some 0
  | AFetchAdd a | AAddAssign a => Some a
  | AFetchSub a | ASubAssign a => Some (- a)
  | APreInc | APostInc => Some 1
  | APreDec | APostDec => Some (-1)
  | _ => None
  end.
Fixpoint total (ops : list atomic_op) : Z :=
  match ops with
  | [] => 0
  | op :: ops => match amount op with Some a => a | None => 0 end + total ops
  end.

(** Clock readings never decrease, and are representable. *)
Definition monotone (clk : nat -> Z) : Prop := forall s t, (s <= t)%nat -> clk s <= clk t.
Definition clock_fits (clk : nat -> Z) : Prop := forall t, 0 <= clk t <= highest i64.

(** Live objects after a history of constructions and destructions. *)
Fixpoint live (ops : list count_op) : Z :=
  match ops with
  | [] => 0
  | CountDestroy :: ops => live ops - 1
  | _ :: ops => live ops + 1
  end.

(** Whether there was a check after the last reset. *)
Fixpoint checked_since_reset (ops : list once_op) : bool :=
  match ops with
  | [] => false
  | OnceReset :: ops => checked_since_reset ops
  | OnceCheck :: ops => checked_since_reset ops || negb (existsb (fun op => match op with OnceReset => true | _ => false end) ops)
  end.

(** The operations that return the value before the change. *)
Definition returns_old (op : atomic_op) : bool :=
  match op with AFetchAdd _ | AFetchSub _ | APostInc | APostDec => true | _ => false end.
