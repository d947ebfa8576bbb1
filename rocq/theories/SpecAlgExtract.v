(** Vocabulary for the theorems about consume_if, extract_* and the predicate
    objects. *)
From Verif Require Import Common.

Section Spec.
  Context {K V : Type}.
  Variable eqb : K -> K -> bool.

  Definition with_key (k : K) (l : list (K * V)) : list (K * V) := filter (fun n => eqb (fst n) k) l.
  Definition without_key (k : K) (l : list (K * V)) : list (K * V) := filter (fun n => negb (eqb (fst n) k)) l.

  (** A container with unique keys can take the nodes [l] besides [to]: no two
      keys are equal. *)
  Definition room (uniq : bool) (to l : list (K * V)) : Prop :=
    uniq = false \/
    ForallOrdPairs (fun m n => eqb (fst m) (fst n) = false) l /\
    forall m n, In m to -> In n l -> eqb (fst m) (fst n) = false.
End Spec.

(** The elements of [l] after the first one that satisfies [p]. *)
Fixpoint after_first {A} (p : A -> bool) (l : list A) : list A :=
  match l with
  | [] => []
  | x :: l => if p x then l else after_first p l
  end.
