(** Specification of "an algorithm sorts the window that starts at its first
    argument": independent of any model code. *)
From Verif Require Import Common.

(** [alg first arr] is an in-place algorithm on the [n] elements of [arr] from
    position [first] on.  It returns normally, changes nothing outside the
    window, and leaves a sorted permutation inside it. *)
Definition sorts_window {A} (comp : A -> A -> bool) (n : nat)
    (alg : nat -> list A -> res (list A)) : Prop :=
  forall pre mid post, length mid = n ->
    exists mid', alg (length pre) (pre ++ mid ++ post) = Ok (pre ++ mid' ++ post) /\
                 Permutation mid mid' /\ sorted_by comp mid'.
