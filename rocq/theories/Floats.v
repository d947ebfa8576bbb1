(** IEEE 754 binary floating point numbers, as far as the floating point functions of
    daw_math.h, daw_cxmath.h and pipelines/numeric.h need them.

    Every finite number of a format is an integer multiple of its smallest subnormal
    number, so a finite value is that integer: the double 1.0 is 2^1074.  Operations give
    the exact result rounded to the nearest number, ties to even (the default rounding
    mode), or an infinity.  The sign of zero and the payload of a NaN are not kept; a
    division by zero is one by +0.  Excess precision (FLT_EVAL_METHOD other than 0) is
    not modelled.  No proofs in this file. *)
From Verif Require Import Common Ints.
Open Scope Z_scope.

(** A format: the bits of the significand, and 1.0 and the bound of the finite numbers as powers of two, in units of the smallest subnormal number. *)
Record fmt := Fmt { prec : Z; one_exp : Z; top_exp : Z }.
Definition double : fmt := Fmt 53 1074 2098.
Definition single : fmt := Fmt 24 149 277.

Inductive fp := Fin (z : Z) | Inf (neg : bool) | NaN.

(** Rounding of num / den, den > 0, to [prec] bits. *)
Definition grid (F : fmt) (q : Z) : Z := Z.max 0 (Z.log2 q + 1 - prec F).
Definition rnd_pos (F : fmt) (num den : Z) : Z :=
  let e := grid F (num / den) in
  let d := den * 2 ^ e in
  let q := num / d in
  let r := num mod d in
  (if 2 * r <? d then q else if d <? 2 * r then q + 1 else if Z.even q then q else q + 1) * 2 ^ e.
Definition rnd (F : fmt) (num den : Z) : Z := if num <? 0 then - rnd_pos F (- num) den else rnd_pos F num den.
Definition fin (F : fmt) (z : Z) : fp := if Z.abs z <? 2 ^ top_exp F then Fin z else Inf (z <? 0).

Definition fneg (x : fp) : fp := match x with Fin a => Fin (- a) | Inf s => Inf (negb s) | NaN => NaN end.
Definition fadd (F : fmt) (x y : fp) : fp :=
  match x, y with
  | Fin a, Fin b => fin F (rnd F (a + b) 1)
  | NaN, _ | _, NaN => NaN
  | Inf s, Inf t => if Bool.eqb s t then Inf s else NaN
  | Inf s, Fin _ | Fin _, Inf s => Inf s
  end.
Definition fsub (F : fmt) (x y : fp) : fp := fadd F x (fneg y).
Definition fmul (F : fmt) (x y : fp) : fp :=
  match x, y with
  | Fin a, Fin b => fin F (rnd F (a * b) (2 ^ one_exp F))
  | NaN, _ | _, NaN => NaN
  | Inf s, Inf t => Inf (xorb s t)
  | Inf s, Fin a | Fin a, Inf s => if a =? 0 then NaN else Inf (xorb s (a <? 0))
  end.
Definition fdiv (F : fmt) (x y : fp) : fp :=
  match x, y with
  | Fin a, Fin b =>
      if b =? 0 then (if a =? 0 then NaN else Inf (a <? 0))
      else fin F (rnd F (a * 2 ^ one_exp F * Z.sgn b) (Z.abs b))
  | NaN, _ | _, NaN => NaN
  | Inf s, Inf t => NaN
  | Inf s, Fin a => Inf (xorb s (a <? 0))
  | Fin a, Inf s => Fin 0
  end.
(** Comparisons: false with NaN. *)
Definition flt (x y : fp) : bool :=
  match x, y with
  | NaN, _ | _, NaN => false
  | Fin a, Fin b => a <? b
  | Inf s, Inf t => s && negb t
  | Inf s, Fin _ => s
  | Fin _, Inf t => negb t
  end.
Definition feq (x y : fp) : bool :=
  match x, y with
  | Fin a, Fin b => a =? b
  | Inf s, Inf t => Bool.eqb s t
  | _, _ => false
  end.
Definition fle (x y : fp) : bool := flt x y || feq x y.
(** std::abs. *)
Definition fabs (x : fp) : fp := match x with Fin a => Fin (Z.abs a) | Inf _ => Inf false | NaN => NaN end.
(** The literal num / den, and a conversion from an integer. *)
Definition literal (F : fmt) (num den : Z) : fp := fin F (rnd F (num * 2 ^ one_exp F) den).
Definition of_int (F : fmt) (n : Z) : fp := literal F n 1.
(** static_cast of a floating point number to the integer type T: undefined if the truncated value does not fit. *)
Definition to_int (F : fmt) (T : ity) (x : fp) : res Z :=
  match x with
  | Fin a => let n := Z.quot a (2 ^ one_exp F) in if (lowest T <=? n) && (n <=? highest T) then Ok n else UB
  | _ => UB
  end.
(** Conversions between the formats. *)
Definition to_double (x : fp) : fp := match x with Fin a => Fin (a * 2 ^ (one_exp double - one_exp single)) | _ => x end.
Definition to_single (x : fp) : fp := match x with Fin a => fin single (rnd single a (2 ^ (one_exp double - one_exp single))) | _ => x end.

(** * pipelines/numeric.h *)
(** numeric.h:20-30 sum_t for a floating point type. *)
Definition plain_sum (F : fmt) (r : list fp) : fp := fold_left (fadd F) r (Fin 0).
(** numeric.h:86-109 SumKahanBabushkaNeumaier_t; a projection does not compile, as its call has the arguments swapped. *)
Definition kbn_step (F : fmt) (st : fp * fp) (input : fp) : fp * fp :=
  let (sum, c) := st in
  let t := fadd F sum input in
  let c :=
    if fle (fabs input) (fabs sum) then fadd F c (fadd F (fsub F sum t) input)
    else fadd F c (fadd F (fsub F input t) sum) in
  (t, c).
Definition kbn_sum (F : fmt) (r : list fp) : fp :=
  let (sum, c) := fold_left (kbn_step F) r (Fin 0, Fin 0) in fadd F sum c.
