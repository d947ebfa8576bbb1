(** Vocabulary of the properties of container algorithms, sorted insertion, Sample and swaps. *)
From Verif Require Import Common.
Open Scope Z_scope.

(** [out] with [xs] written from position [d] on. *)
Definition written {A} (out : list A) (d : nat) (xs : list A) : list A :=
  firstn d out ++ xs ++ skipn (d + length xs) out.

(** The calls of a function with a state on all elements, in order, with the numbers of the
    elements from [row] on. *)
Fixpoint visit {A St} (func : St -> A -> Z -> St * A) (st : St) (l : list A) (row : Z) : St * list A :=
  match l with
  | [] => (st, [])
  | x :: l => let (st1, x') := func st x row in let (st2, l') := visit func st1 l (row + 1) in (st2, x' :: l')
  end.

Definition equivalent {A} (comp : A -> A -> bool) (x y : A) : Prop := comp x y = false /\ comp y x = false.

(** The first [n] numbers drawn from an engine, and what is kept of a list if the i-th
    number decides about the i-th element. *)
Fixpoint draws {E} (draw : E -> Z * E) (n : nat) (e : E) : list Z :=
  match n with O => [] | S n => fst (draw e) :: draws draw n (snd (draw e)) end.
Definition chosen {A} (keep : Z) (l : list A) (numbers : list Z) : list A :=
  map fst (filter (fun p => snd p <=? keep) (combine l numbers)).

(** Two cells are exchanged and nothing else changes. *)
Definition exchanged {A} (mem : list A) (i j : nat) (mem' : list A) : Prop :=
  length mem' = length mem /\ nth_error mem' i = nth_error mem j /\ nth_error mem' j = nth_error mem i /\
  forall k, k <> i -> k <> j -> nth_error mem' k = nth_error mem k.

(** Every tuple has more elements than the largest index (checked when compiling). *)
Definition in_arity {V} (indices : list nat) (r : list (list V)) : Prop :=
  forall t i, In t r -> In i indices -> (i < length t)%nat.
