(** Specification vocabulary for the pipelines. *)
From Verif Require Import Common Ints Pipelines.
Open Scope Z_scope.

(** Starting at [s], a loop over [r] sees exactly the elements [xs] and then the end.
    With [exact] std::distance to the end is also right at every step. *)
Inductive yields {A} (exact : bool) (r : range A) : st r -> list A -> Prop :=
| yields_end s :
    at_end r s = true ->
    (exact = true -> random r = true -> rdist r s = Ok 0) ->
    yields exact r s []
| yields_step s x s' xs :
    at_end r s = false -> get r s = Ok x -> inc r s = Ok s' ->
    (exact = true -> random r = true -> rdist r s = Ok (Z.of_nat (length (x :: xs)))) ->
    yields exact r s' xs ->
    yields exact r s (x :: xs).
(** The range has the elements [xs]. *)
Definition visits {A} (r : range A) (xs : list A) : Prop := yields false r (cur r) xs.
(** And std::distance is right. *)
Definition lists {A} (r : range A) (xs : list A) : Prop := yields true r (cur r) xs.

Fixpoint take_while {A} (p : A -> bool) (l : list A) : list A :=
  match l with [] => [] | x :: l => if p x then x :: take_while p l else [] end.
Fixpoint drop_while {A} (p : A -> bool) (l : list A) : list A :=
  match l with [] => [] | x :: l' => if p x then drop_while p l' else l end.
(** All elements that differ from the one before them. *)
Fixpoint changes {A} (eqb : A -> A -> bool) (prev : option A) (l : list A) : list A :=
  match l with
  | [] => []
  | x :: l =>
      let rest := changes eqb (Some x) l in
      match prev with
      | Some p => if eqb x p then rest else x :: rest
      | None => x :: rest
      end
  end.
(** The fields between delimiters: always one more than there are delimiters. *)
Fixpoint fields {A} (p : A -> bool) (l : list A) : list (list A) :=
  match l with
  | [] => [[]]
  | x :: l =>
      if p x then [] :: fields p l
      else match fields p l with f :: fs => (x :: f) :: fs | [] => [[x]] end
  end.
(** Without an empty last field. *)
Fixpoint but_last_empty {A} (ls : list (list A)) : list (list A) :=
  match ls with
  | [] => []
  | [l] => match l with [] => [] | _ => [l] end
  | l :: ls => l :: but_last_empty ls
  end.
(** Position [i] is the first where [p] holds of the [w] elements from there. *)
Definition first_match {A} (w : nat) (p : list A -> bool) (xs : list A) (i : nat) : Prop :=
  (i + w <= length xs)%nat /\ p (firstn w (skipn i xs)) = true /\
  forall j, (j < i)%nat -> p (firstn w (skipn j xs)) = false.
Definition no_match {A} (w : nat) (p : list A -> bool) (xs : list A) : Prop :=
  forall j, (j + w <= length xs)%nat -> p (firstn w (skipn j xs)) = false.
(** No empty list comes before one that is not empty. *)
Fixpoint empties_last {A} (ls : list (list A)) : Prop :=
  match ls with
  | [] => True
  | [] :: ls => Forall (fun l => l = []) ls
  | _ :: ls => empties_last ls
  end.

(** ** Pipelines of stages *)
Inductive stage (A : Type) :=
| SFilter (p : A -> bool)
| SMap (f : A -> A)
| STake (n : Z)
| SSkip (n : Z)
| SDropWhile (p : A -> bool)
| SDropUntil (p : A -> bool)
| STakeUntil (p : A -> bool)
| SUnique (eqb : A -> A -> bool).
Arguments SFilter {A}. Arguments SMap {A}. Arguments STake {A}. Arguments SSkip {A}.
Arguments SDropWhile {A}. Arguments SDropUntil {A}. Arguments STakeUntil {A}. Arguments SUnique {A}.
(** The stage as the library runs it (pipelines/pipeline.h 37-48: each stage is called
    with the result of the one before). *)
Definition run_stage {A} (fuel : nat) (g : stage A) (r : range A) : res (range A) :=
  match g with
  | SFilter p => Filter fuel p r
  | SMap f => Ok (Map f (fun x => x) r)
  | STake n => Take fuel n r
  | SSkip n => Skip fuel n r
  | SDropWhile p => DropWhile fuel p r
  | SDropUntil p => DropUntil fuel p r
  | STakeUntil p => TakeUntil fuel p r
  | SUnique eqb => Ok (Unique fuel eqb r)
  end.
Fixpoint run_pipeline {A} (fuel : nat) (gs : list (stage A)) (r : range A) : res (range A) :=
  match gs with
  | [] => Ok r
  | g :: gs => r <- run_stage fuel g r ;; run_pipeline fuel gs r
  end.
(** And what it means. *)
Definition meaning {A} (g : stage A) (l : list A) : list A :=
  match g with
  | SFilter p => filter p l
  | SMap f => map f l
  | STake n => firstn (Z.to_nat n) l
  | SSkip n => skipn (Z.to_nat n) l
  | SDropWhile p => drop_while p l
  | SDropUntil p => drop_while (fun x => negb (p x)) l
  | STakeUntil p => take_while (fun x => negb (p x)) l
  | SUnique eqb => changes eqb None l
  end.
Definition meanings {A} (gs : list (stage A)) (l : list A) : list A := fold_left (fun l g => meaning g l) gs l.
Definition equivalence {A} (eqb : A -> A -> bool) : Prop :=
  (forall x, eqb x x = true) /\ (forall x y, eqb x y = eqb y x) /\
  (forall x y z, eqb x y = true -> eqb y z = true -> eqb x z = true).
Definition good_stage {A} (g : stage A) : Prop :=
  match g with
  | STake n | SSkip n => 0 <= n < 2 ^ 63
  | SUnique eqb => equivalence eqb
  | _ => True
  end.
(** The elements with consecutive numbers from [o]. *)
Fixpoint indexed {A} (o : Z) (l : list A) : list (Z * A) :=
  match l with [] => [] | x :: l => (o, x) :: indexed (o + 1) l end.
(** The numbers first, first + 1, ..., last - 1. *)
Definition interval (first last : Z) : list Z :=
  map (fun i => first + Z.of_nat i) (seq 0 (Z.to_nat (last - first))).
Definition total (xs : list Z) : Z := fold_right Z.add 0 xs.
