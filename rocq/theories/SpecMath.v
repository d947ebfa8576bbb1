(** Specifications for the numeric functions, in terms of the integers.
    Independent of the model: only the integer types of [Ints] are used. *)
From Verif Require Import Common Ints.
Open Scope Z_scope.

(** n factorial. *)
Fixpoint fact (n : nat) : Z :=
  match n with
  | O => 1
  | S k => Z.of_nat n * fact k
  end.

(** [v] is the greatest, resp. least, element of [l]. *)
Definition greatest (v : Z) (l : list Z) : Prop := In v l /\ forall x, In x l -> x <= v.
Definition least (v : Z) (l : list Z) : Prop := In v l /\ forall x, In x l -> v <= x.

(** The highest one bit of [v] is bit [k]. *)
Definition top_bit (v k : Z) : Prop := 0 <= k /\ 2 ^ k <= v < 2 ^ (k + 1).

(** The lowest one bit of [v] is bit [k]: 2^k is the largest power of two that
    divides v. *)
Definition low_bit (v k : Z) : Prop := 0 <= k /\ (2 ^ k | v) /\ ~ (2 ^ (k + 1) | v).

(** The number of one bits among the lowest [n] bits of [v]. *)
Fixpoint ones (n : nat) (v : Z) : Z :=
  match n with
  | O => 0
  | S k => (if Z.testbit v (Z.of_nat k) then 1 else 0) + ones k v
  end.

(** [p] is the smallest power of two that is at least [v]. *)
Definition next_pow2 (v p : Z) : Prop :=
  v <= p /\ (exists k, 0 <= k /\ p = 2 ^ k) /\ forall k, 0 <= k -> v <= 2 ^ k -> p <= 2 ^ k.

(** [v] has [d] decimal digits (zero has one). *)
Definition decimal_digits (v d : Z) : Prop :=
  1 <= d /\ (v = 0 /\ d = 1 \/ 10 ^ (d - 1) <= v < 10 ^ d).

(** The operations on a natural number, their exact results, and what a history
    of them should lead to: a value, a rejection as soon as an exact result is
    less than one, or an overflow of the type, for which nothing is promised. *)
Inductive natop := SAssign (v : Z) | SAdd (b : Z) | SSub (b : Z) | SMul (b : Z) | SInc | SDec.
Definition exact (a : Z) (c : natop) : Z :=
  match c with
  | SAssign v => v
  | SAdd b => a + b
  | SSub b => a - b
  | SMul b => a * b
  | SInc => a + 1
  | SDec => a - 1
  end.
Inductive expected := Value (z : Z) | Rejected | Overflowed.
Fixpoint expect (T : ity) (a : Z) (cs : list natop) : expected :=
  match cs with
  | [] => Value a
  | c :: rest =>
    let z := exact a c in
    if z <? 1 then Rejected
    else if z <=? highest T then expect T z rest
    else Overflowed
  end.

(** IEEE 754 interchange format with [w] bits of which [p] are the trailing
    significand: the fields of the bit pattern [d]. *)
Definition ieee_significand (p d : Z) : Z := d mod 2 ^ p.
Definition ieee_exponent (w p d : Z) : Z := (d / 2 ^ p) mod 2 ^ (w - 1 - p).
Definition ieee_sign (w d : Z) : Z := d / 2 ^ (w - 1).

(** The five classes of IEEE 754. *)
Definition ieee_nan (w p d : Z) : Prop :=
  ieee_exponent w p d = 2 ^ (w - 1 - p) - 1 /\ ieee_significand p d <> 0.
Definition ieee_infinity (w p d : Z) : Prop :=
  ieee_exponent w p d = 2 ^ (w - 1 - p) - 1 /\ ieee_significand p d = 0.
Definition ieee_zero (w p d : Z) : Prop :=
  ieee_exponent w p d = 0 /\ ieee_significand p d = 0.
Definition ieee_subnormal (w p d : Z) : Prop :=
  ieee_exponent w p d = 0 /\ ieee_significand p d <> 0.
Definition ieee_normal (w p d : Z) : Prop :=
  0 < ieee_exponent w p d < 2 ^ (w - 1 - p) - 1.
(** The unbiased exponent of a normal number. *)
Definition ieee_bias (w p : Z) : Z := 2 ^ (w - 2 - p) - 1.
