(** Shared vocabulary of the model: outcomes of C++ code, and arrays as lists
    with checked element access.  No proofs in this file. *)
From Coq Require Export List Arith ZArith Lia Bool Permutation Sorted.
Export ListNotations.

(** What running a piece of C++ can lead to.
    [Ok]        normal return,
    [UB]        undefined behaviour (e.g. access outside an array),
    [Throw]     an exception (or the terminate call it is configured to be),
    [OutOfFuel] the model's step budget was too small; never a real outcome,
                theorems exclude it. *)
Inductive res (A : Type) : Type :=
| Ok (a : A)
| UB
| Throw
| OutOfFuel.
Arguments Ok {A} a.
Arguments UB {A}.
Arguments Throw {A}.
Arguments OutOfFuel {A}.

Definition bind {A B} (r : res A) (f : A -> res B) : res B :=
  match r with
  | Ok a => f a
  | UB => UB
  | Throw => Throw
  | OutOfFuel => OutOfFuel
  end.

Declare Scope res_scope.
Notation "x <- e ;; f" := (bind e (fun x => f))
  (at level 61, e at next level, right associativity) : res_scope.
Notation "' p <- e ;; f" := (bind e (fun p => f))
  (at level 61, p pattern, e at next level, right associativity) : res_scope.
Open Scope res_scope.

(** [*(first + i)] as an rvalue: undefined outside the array. *)
Definition rd {A} (l : list A) (i : nat) : res A :=
  match nth_error l i with
  | Some x => Ok x
  | None => UB
  end.

(** Raw list update; no effect outside the list (see [wr] for the checked one). *)
Fixpoint upd {A} (l : list A) (i : nat) (x : A) : list A :=
  match l, i with
  | [], _ => []
  | _ :: t, O => x :: t
  | h :: t, S i' => h :: upd t i' x
  end.

(** [*(first + i) = x]: undefined outside the array. *)
Definition wr {A} (l : list A) (i : nat) (x : A) : res (list A) :=
  if i <? length l then Ok (upd l i x) else UB.

(** [swap( first[i], first[j] )]. *)
Definition swap_at {A} (l : list A) (i j : nat) : res (list A) :=
  match nth_error l i, nth_error l j with
  | Some x, Some y => Ok (upd (upd l i y) j x)
  | _, _ => UB
  end.

(** [--p] for a position: undefined at the start of the array. *)
Definition dec (p : nat) : res nat :=
  match p with
  | O => UB
  | S q => Ok q
  end.

(** The C++ requirement "strict weak ordering" on a comparator. *)
Record strict_weak {A} (comp : A -> A -> bool) : Prop := {
  swo_irrefl : forall x, comp x x = false;
  swo_trans : forall x y z, comp x y = true -> comp y z = true -> comp x z = true;
  swo_incomp : forall x y z,
      comp x y = false -> comp y x = false ->
      comp y z = false -> comp z y = false ->
      comp x z = false /\ comp z x = false
}.

(** "[l] is sorted with respect to [comp]": no later element is less than an
    earlier one (the C++ definition, [sort] requirements). *)
Definition sorted_by {A} (comp : A -> A -> bool) (l : list A) : Prop :=
  StronglySorted (fun x y => comp y x = false) l.
