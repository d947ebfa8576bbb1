(** Specification vocabulary for the deprecated string view (C219 and later); the
    words about character lists are those of SpecString.v. *)
From Verif Require Import Common Ints StringView SpecString StringView1.
Open Scope Z_scope.

(** A view that refers to existing memory: null and empty, or a range inside an
    array (which is smaller than 2^63 characters). *)
Definition valid1 (v : view1) : Prop :=
  match mem1 v with
  | None => first1 v = 0 /\ last1 v = 0
  | Some l => 0 <= first1 v <= last1 v /\ last1 v <= Z.of_nat (length l) < 2 ^ 63
  end.

(** The characters a view shows. *)
Definition chars1 (v : view1) : list Z :=
  match mem1 v with
  | None => []
  | Some l => firstn (Z.to_nat (last1 v - first1 v)) (skipn (Z.to_nat (first1 v)) l)
  end.

(** The call returns a valid view that shows [s]. *)
Definition yields (r : res view1) (s : list Z) : Prop :=
  exists v, r = Ok v /\ valid1 v /\ chars1 v = s.

(** The call returns two valid views whose characters are in relation [R]. *)
Definition yields2 (r : res (view1 * view1)) (R : list Z -> list Z -> Prop) : Prop :=
  exists p v, r = Ok (p, v) /\ valid1 p /\ valid1 v /\ R (chars1 p) (chars1 v).

(** Cutting a character list at the characters in [D]: the delimiters belong to no
    piece, and a delimiter at the very end opens no further piece. *)
Inductive pieces (D : Z -> Prop) : list Z -> list (list Z) -> Prop :=
| pieces_nil : pieces D [] []
| pieces_last s : s <> [] -> Forall (fun c => ~ D c) s -> pieces D s [s]
| pieces_cut a d s l : Forall (fun c => ~ D c) a -> D d -> pieces D s l -> pieces D (a ++ d :: s) (a :: l).
