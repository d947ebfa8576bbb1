(** Vocabulary of WrappersProps.v.  No proofs in this file. *)
From Verif Require Import Common Wrappers.
Open Scope Z_scope.

(** The operators agree with one three way comparison. *)
Definition is_eq (c : comparison) : bool := match c with Eq => true | _ => false end.
Definition is_lt (c : comparison) : bool := match c with Lt => true | _ => false end.
Definition is_gt (c : comparison) : bool := match c with Gt => true | _ => false end.
Definition agrees {A B} (cmp : A -> B -> comparison) (eq ne lt le gt ge : A -> B -> bool) : Prop :=
  forall x y, eq x y = is_eq (cmp x y) /\ ne x y = negb (is_eq (cmp x y)) /\ lt x y = is_lt (cmp x y) /\
    le x y = negb (is_gt (cmp x y)) /\ gt x y = is_gt (cmp x y) /\ ge x y = negb (is_lt (cmp x y)).
Definition compares {V} (cmp : V -> V -> comparison) (ops : cmp_ops V) : Prop :=
  agrees cmp (o_eq ops) (o_ne ops) (o_lt ops) (o_le ops) (o_gt ops) (o_ge ops) /\
  (forall x y, cmp y x = CompOpp (cmp x y)).
(** Empty comes before every value. *)
Definition opt_cmp {V} (cmp : V -> V -> comparison) (x y : option V) : comparison :=
  match x, y with
  | None, None => Eq
  | None, Some _ => Lt
  | Some _, None => Gt
  | Some x, Some y => cmp x y
  end.

(** What is stored after a history. *)
Definition last_state {V E} (x : expected V E) (o : xop V E) : expected V E :=
  match o with
  | SetValue v | FromCode (Returns v) => Value v
  | SetException p => Exception p
  | FromCode (Throws e) => Exception (Some e)
  | Clear => Empty
  end.

(** Where a pointer into an array of [size] elements goes, if it stays in [0, size]. *)
Definition target (i : Z) (o : spop) : Z :=
  match o with SInc => i + 1 | SDec => i - 1 | SAdd n => i + n | SSub n => i - n end.
Definition small (o : spop) : Prop :=
  match o with SAdd n | SSub n => - 2 ^ 63 < n < 2 ^ 63 | _ => True end.
Fixpoint walk (size i : Z) (os : list spop) : option Z :=
  match os with
  | [] => Some i
  | o :: os => let j := target i o in if (0 <=? j) && (j <=? size) then walk size j os else None
  end.
