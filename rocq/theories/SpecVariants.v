(** What the properties of variants and tuples say. *)
From Verif Require Import Common Ints Variants.
Open Scope Z_scope.

(** The variant holds the value [x] in its alternative [i]. *)
Definition holds {V} (v : variant V) (i : nat) (x : V) : Prop := v_held v = Some (i, x) /\ (i < v_size v)%nat /\ Z.of_nat (v_size v) < 2 ^ 63.
(** The variant lost its value by an exception. *)
Definition valueless {V} (v : variant V) : Prop := v_held v = None /\ (0 < v_size v)%nat /\ Z.of_nat (v_size v) < 2 ^ 63.

(** The result of an operator on mathematical integers; there is none for a division
    by 0. *)
Inductive exact : op -> Z -> Z -> Z -> Prop :=
| exact_add x y : exact Add x y (x + y)
| exact_sub x y : exact Sub x y (x - y)
| exact_mul x y : exact Mul x y (x * y)
| exact_div x y : y <> 0 -> exact Div x y (Z.quot x y).
(** The operator applied to x of type A and y of type B, both values of the common type, is undefined: a
    division by 0, or the common type is signed and the result is not a value of it. *)
Definition undefined (o : op) (A : ity) (x : Z) (B : ity) (y : Z) : Prop :=
  (o = Div /\ y = 0) \/ signed (usual A B) = true /\ forall z, exact o x y z -> ~ fits (usual A B) z.
(** The result [r] stored in an element of type [T]: the exact result if it is a value of [T], and
    always equal to it modulo 2^w. *)
Definition result_of (o : op) (T : ity) (x y r : Z) : Prop :=
  exists z, exact o x y z /\ fits T r /\ (r - z) mod 2 ^ width T = 0 /\ (fits T z -> r = z).
(** The standard integer types. *)
Definition std_ity (T : ity) : Prop := width T = 8 \/ width T = 16 \/ width T = 32 \/ width T = 64.
(** The values of a tuple with these types. *)
Definition tuple_of (ts : list ity) (a : list Z) : Prop := Forall2 (fun T x => std_ity T /\ fits T x) ts a.
(** Each element of [r] has the relation [P] to the elements at the same position. *)
Definition elementwise (P : ity -> Z -> Z -> Z -> Prop) (ts : list ity) (a b r : list Z) : Prop :=
  length r = length ts /\
  forall i T x y, nth_error ts i = Some T -> nth_error a i = Some x -> nth_error b i = Some y ->
    exists z, nth_error r i = Some z /\ P T x y z.
(** The texts with a comma between them, each after a space. *)
Fixpoint listed (t : list (list Z)) : list Z :=
  match t with
  | [] => []
  | [v] => 32 :: v
  | v :: t => (32 :: v) ++ [44] ++ listed t
  end.
