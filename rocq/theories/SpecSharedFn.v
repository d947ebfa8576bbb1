(** Vocabulary for daw_shared_function.h. *)
From Verif Require Import Common SharedFn.
Open Scope Z_scope.

(** What can happen with [n] variables and [m] threads: any statements in any order. *)
Definition reachable (n m : nat) (w : world) : Prop := exists es, run (initial n m) es = Ok w.
Definition later (w w' : world) : Prop := exists es, run w es = Ok w'.
(** The counters of type int suffice. *)
Definition room (n m : nat) : Prop := Z.of_nat n + 2 * Z.of_nat m < 2 ^ 31 - 1.
(** A variable that owns function [k]; one that refers to it, owning or not. *)
Definition owner (w : world) (k i : nat) : Prop := nth_error (slots w) i = Some (Some (Strong (Some k))).
Definition refers (w : world) (k i : nat) : Prop :=
  owner w k i \/ nth_error (slots w) i = Some (Some (Weak (Some k))).
(** Function [k] exists: it was made and not destroyed; its memory is allocated. *)
Definition fn_lives (w : world) (k : nat) : Prop :=
  exists s, nth_error (stores w) k = Some s /\ has_fn s = true /\ freed s = false /\ destroyed s = 0%nat.
Definition fn_gone (w : world) (k : nat) : Prop :=
  exists s, nth_error (stores w) k = Some s /\ has_fn s = false /\ destroyed s = 1%nat.
Definition memory_allocated (w : world) (k : nat) : Prop :=
  exists s, nth_error (stores w) k = Some s /\ freed s = false.
Definition made (w : world) (k : nat) : Prop := (k < length (stores w))%nat.
(** No statement is under way. *)
Definition all_idle (w : world) : Prop := Forall (fun p => p = Idle) (pcs w).
(** Thread [t] is inside a lock( ) that puts its result into variable [i]; the weak
    handle refers to function [k]. *)
Definition locking (w : world) (t i k : nat) : Prop :=
  exists j, nth_error (pcs w) t = Some (Load i j k) \/ exists count, nth_error (pcs w) t = Some (Cas i j k count).
Definition idle (w : world) (t : nat) : Prop := nth_error (pcs w) t = Some Idle.
(** What a statement does to the variables when no other thread runs. *)
Definition variable (w : world) (j : nat) : option handle := nth j (slots w) None.
Definition owned (w : world) (k : nat) : bool :=
  existsb (fun o => match o with Some (Strong (Some x)) => (x =? k)%nat | _ => false end) (slots w).
Definition meant (w : world) (op : sf_op) : list (option handle) :=
  match op with
  | Make i => upd (slots w) i (Some (Strong (Some (length (stores w)))))
  | MakeNull i => upd (slots w) i (Some (Strong None))
  | Copy i j | Assign i j => upd (slots w) i (variable w j)
  | Move i j | MoveAssign i j =>
      if (i =? j)%nat then slots w else upd (upd (slots w) j (option_map emptied (variable w j))) i (variable w j)
  | Destroy i => upd (slots w) i None
  | GetWeak i j =>
      match variable w j with
      | Some (Strong k) => upd (slots w) i (Some (Weak k))
      | _ => slots w
      end
  | Lock i j =>
      match variable w j with
      | Some (Weak (Some k)) => upd (slots w) i (Some (Strong (if owned w k then Some k else None)))
      | Some (Weak None) => upd (slots w) i (Some (Strong None))
      | _ => slots w
      end
  | Call j => slots w
  end.
