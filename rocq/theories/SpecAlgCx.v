(** What rotate, nth_element and partition are to do. *)
From Coq Require Import Permutation.
From Verif Require Import Common.

(** The range [a] of an array becomes [b]; what is before and after it stays. *)
Definition range_becomes {A} (before a b after l l' : list A) : Prop :=
  l = before ++ a ++ after /\ l' = before ++ b ++ after /\ length a = length b.

(** The postcondition of std::nth_element: a rearrangement, no element before the position is
    greater than the one at the position, and no element after it is less. *)
Definition nth_selected {A} (comp : A -> A -> bool) (a b : list A) (n : nat) : Prop :=
  Permutation a b /\
  forall x, nth_error b n = Some x ->
    Forall (fun y => comp x y = false) (firstn n b) /\ Forall (fun y => comp y x = false) (skipn n b).

(** The postcondition of partition: a rearrangement whose first [n] elements satisfy the predicate and whose others do not. *)
Definition partitioned {A} (p : A -> bool) (a b : list A) (n : nat) : Prop :=
  Permutation a b /\ n = length (filter p a) /\
  Forall (fun x => p x = true) (firstn n b) /\ Forall (fun x => p x = false) (skipn n b).
