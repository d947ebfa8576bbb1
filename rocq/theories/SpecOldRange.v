(** What the theorems on iterators and the deprecated ranges are stated with. *)
From Verif Require Import Common OldRange.
Open Scope Z_scope.

(** A position of a sequence of [len] elements, the end included. *)
Definition position (len p : Z) : Prop := 0 <= p <= len.

(** The range lies in the array, whose size fits a ptrdiff_t. *)
Definition rng_ok {T} (arr : list T) (r : rng) : Prop :=
  0 <= r_begin r /\ r_begin r <= r_end r /\ r_end r <= Z.of_nat (length arr) /\
  Z.of_nat (length arr) < 2 ^ 63.

(** The elements of a range. *)
Definition elems {T} (arr : list T) (r : rng) : list T :=
  firstn (Z.to_nat (r_end r - r_begin r)) (skipn (Z.to_nat (r_begin r)) arr).

(** The equality used decides equality. *)
Definition decides {T} (eqb : T -> T -> bool) : Prop :=
  forall x y, eqb x y = true <-> x = y.

(** [out] is made of the first elements of the runs of elements of [v]: [v] is the
    concatenation of runs, every element of a run is equivalent to the first of its run, and
    the first elements of neighbouring runs are not equivalent. *)
Definition run_heads {T} (eqb : T -> T -> bool) (v out : list T) : Prop :=
  exists runs : list (T * list T),
    v = concat (map (fun r => fst r :: snd r) runs) /\
    out = map fst runs /\
    Forall (fun r => Forall (fun x => eqb (fst r) x = true) (snd r)) runs /\
    (forall l1 a b l2, runs = l1 ++ a :: b :: l2 -> eqb (fst a) (fst b) = false).
