(** Vocabulary of UintProps.v.  No proofs in this file. *)
From Verif Require Import Common Ints UintTypes.
Open Scope Z_scope.

(** [x] is a value of the type. *)
Definition value_of (t : uty) (x : Z) : Prop := 0 <= x < 2 ^ bits_of t.
(** What the operators should give, with a result of [w] bits. *)
Definition result (o : bop) (w x y : Z) : Z :=
  match o with
  | OpAdd => (x + y) mod 2 ^ w
  | OpSub => (x - y) mod 2 ^ w
  | OpMul => (x * y) mod 2 ^ w
  | OpDiv => (x / y) mod 2 ^ w
  | OpAnd => Z.land x y mod 2 ^ w
  | OpOr => Z.lor x y mod 2 ^ w
  | OpXor => Z.lxor x y mod 2 ^ w
  | OpShl => (x * 2 ^ y) mod 2 ^ w
  | OpShr => (x / 2 ^ y) mod 2 ^ w
  | OpEq => of_bool (x =? y)
  | OpNe => of_bool (negb (x =? y))
  | OpLt => of_bool (x <? y)
  | OpLe => of_bool (x <=? y)
  | OpGt => of_bool (y <? x)
  | OpGe => of_bool (y <=? x)
  end.
(** When they should give it: divisors are not 0, and a value is not shifted by the number
    of bits, of the type it is promoted to, or more. *)
Definition meaningful (o : bop) (lhs_bits y : Z) : Prop :=
  match o with
  | OpDiv => y <> 0
  | OpShl | OpShr => y < Z.max 32 lhs_bits
  | _ => True
  end.
Definition is_shift (o : bop) : bool := match o with OpShl | OpShr => true | _ => false end.
(** One of the four enumerations. *)
Definition enum_of (t : uty) : bool := match t with E64 | E32 | E16 | E8 => true | _ => false end.
Definition is_comparison (o : bop) : bool :=
  match o with OpEq | OpNe | OpLt | OpLe | OpGt | OpGe => true | _ => false end.

(** The four types. *)
Definition uint_bits (w : Z) : Prop := w = 64 \/ w = 32 \/ w = 16 \/ w = 8.
(** The number with bytes [l], least significant first. *)
Fixpoint bytes_value (l : list Z) : Z := match l with [] => 0 | c :: l => c + 256 * bytes_value l end.
(** A character, signed or not, as a byte. *)
Definition byte (c : Z) : Z := c mod 256.
(** The distances a value of [w] bits can be rotated by. *)
Definition turnable (w bits : Z) : Prop := 0 < bits < w \/ (w < 32 /\ 0 <= bits <= w).
(** The library has the operator between these types. *)
Definition provided (o : bop) (assign : bool) (a b : uty) : Prop :=
  exists r, In r overloads /\ oper r = o /\ assigns r = assign /\ lhs_ty r = a /\ rhs_ty r = b.
Definition arithmetic (o : bop) : bool := match o with OpAdd | OpSub | OpMul | OpDiv => true | _ => false end.
Definition bitwise (o : bop) : bool := match o with OpAnd | OpOr | OpXor => true | _ => false end.
