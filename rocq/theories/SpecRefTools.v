(** Vocabulary of the properties of function_ref, function_view and not_null. *)
From Verif Require Import Common RefTools.
Open Scope Z_scope.

(** The action makes, rebinds or destroys the object at the address. *)
Definition touches (r : nat) (x : action) : Prop :=
  match x with
  | Create a _ _ | Destroy a | RefFun a _ | RefOf a _ | ViewFun a _ | ViewOf a _ _ | ViewAssign a _ => a = r
  | Change _ _ => False
  end.
Definition untouched (r : nat) (l : list action) : Prop := forall x, In x l -> ~ touches r x.

(** What an object of class [c] at the address gives when called now: undefined if it is gone. *)
Definition gives (method : nat -> Z -> Z -> Z) (m : memory) (a c : nat) (x : Z) (r : res Z) : Prop :=
  (exists s, m a = Callable c s /\ r = Ok (method c s x)) \/ (m a = Dead /\ r = UB).
