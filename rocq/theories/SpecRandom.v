(** Specification vocabulary for daw_random.h. *)
From Verif Require Import Common.
Open Scope Z_scope.

(** The choices a shuffle of [n] elements makes: for i = n-1 down to 1, one
    position in 0 .. i. *)
Fixpoint choices (i : nat) (ds : list nat) : Prop :=
  match i, ds with
  | O, [] => True
  | S i', d :: ds => (d <= i)%nat /\ choices i' ds
  | _, _ => False
  end.

(** How many different sequences of choices there are for [n] elements. *)
Fixpoint fact (n : nat) : nat :=
  match n with
  | O => 1
  | S n' => n * fact n'
  end.

(** All of them, in some order. *)
Fixpoint all_choices (i : nat) : list (list nat) :=
  match i with
  | O => [[]]
  | S i' => flat_map (fun d => map (cons d) (all_choices i')) (seq 0 (S i))
  end.

(** All values lie in [a, b]. *)
Definition all_between (a b : Z) (l : list Z) : Prop := Forall (fun z => a <= z <= b) l.
