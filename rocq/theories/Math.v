(** Model of the integer functions of include/daw/daw_math.h, of the variadic
    min and max of include/daw/impl/daw_math_impl.h and of natural_t from
    include/daw/daw_natural.h.  The floating point functions of daw_math.h are
    not modelled.  No proofs in this file. *)
From Verif Require Import Common Ints.
Open Scope Z_scope.

(** The value [z] of an arithmetic expression of promoted type [P]: unsigned
    arithmetic wraps, signed overflow is undefined. *)
Definition calc (P : ity) (z : Z) : res Z :=
  if signed P
  then if (lowest P <=? z) && (z <=? highest P) then Ok z else UB
  else Ok (wrap (width P) z).

(** A compound assignment [x op= y] with both operands of type [T]: computed in
    the promoted type and converted back to [T]. *)
Definition assign_op (T : ity) (z : Z) : res Z :=
  r <- calc (promote T) z ;; Ok (conv T r).

(** daw_math.h 130-137, [pow2]: the loop [while( n-- > 0 ) result *= 2ULL].  The
    product is an unsigned long long, converted to [T].  [n] counts the
    iterations (none when n is negative). *)
Fixpoint pow2_loop (T : ity) (n : nat) (result : Z) : Z :=
  match n with
  | O => result
  | S n' => pow2_loop T n' (conv T (sz (conv u64 result * 2)))
  end.
Definition pow2 (T : ity) (n : Z) : Z := pow2_loop T (Z.to_nat n) 1.

(** daw_math.h 139-152, [abs<R>] for a signed integer of type [T]. *)
Definition abs (R T : ity) (v : Z) : res Z :=
  if v =? lowest i64 then Ok (pow2 R 63)
  else if v <? 0 then
    v' <- assign_op T (- v) ;;
    Ok (conv R v')
  else Ok (conv R v).

(** daw_math.h 162-170, [factorial]: [for( ; count > 0; --count ) result *= count]
    in uintmax_t. *)
Fixpoint factorial_loop (count : nat) (result : Z) : Z :=
  match count with
  | O => result
  | S c => factorial_loop c (sz (result * Z.of_nat count))
  end.
Definition factorial (T : ity) (t : Z) : res Z :=
  count <- abs u64 T t ;;
  Ok (factorial_loop (Z.to_nat count) 1).

(** daw_math.h 172-181, [impl::pow_impl]: [base *= base], [exponent] times. *)
Fixpoint pow_impl (T : ity) (base : Z) (exponent : nat) : res Z :=
  match exponent with
  | O => Ok base
  | S k => b <- assign_op T (base * base) ;; pow_impl T b k
  end.

(** daw_math.h 183-186, [pow]. *)
Definition pow (T : ity) (base : Z) (exponent : nat) : res Z :=
  if base =? 0 then Ok 0
  else if (0 <? exponent)%nat then pow_impl T base exponent
  else Ok 1.

(** An integer with its type. *)
Definition tval : Type := (ity * Z)%type.

(** std::common_type_t of two integer types. *)
Definition ity_eqb (T U : ity) : bool :=
  Bool.eqb (signed T) (signed U) && (width T =? width U).
Definition common (T U : ity) : ity := if ity_eqb T U then T else usual T U.

(** daw_math_impl.h 18-25, [math_impl::less]: the built-in [<], which converts
    both operands to their common arithmetic type first. *)
Definition less (x y : tval) : bool :=
  let C := usual (fst x) (fst y) in
  conv C (snd x) <? conv C (snd y).

(** static_cast<result_t>. *)
Definition cast (T : ity) (x : tval) : tval := (T, conv T (snd x)).

(** daw_math_impl.h 35-55, [max( val1, vs... )]. *)
Fixpoint vmax (val1 : tval) (vs : list tval) : tval :=
  match vs with
  | [] => val1
  | v :: rest =>
    let tmp := vmax v rest in
    let R := common (fst val1) (fst tmp) in
    if less tmp val1 then cast R val1 else cast R tmp
  end.

(** daw_math_impl.h 75-95, [min( val1, vs... )]. *)
Fixpoint vmin (val1 : tval) (vs : list tval) : tval :=
  match vs with
  | [] => val1
  | v :: rest =>
    let tmp := vmin v rest in
    let R := common (fst val1) (fst tmp) in
    if negb (less tmp val1) then cast R val1 else cast R tmp
  end.

(** daw_math_impl.h 57-73, [min_comp] and [max_comp]. *)
Definition min_comp {A} (comp : A -> A -> bool) (lhs rhs : A) : A :=
  if comp lhs rhs then lhs else rhs.
Definition max_comp {A} (comp : A -> A -> bool) (lhs rhs : A) : A :=
  if comp rhs lhs then lhs else rhs.

(** daw_math.h 233-240, [value_or_min] with both arguments of one type. *)
Definition value_or_min (value minimum : Z) : Z :=
  if minimum >? value then minimum else value.

(** natural_t<T> (daw_natural.h).  Its state is the value of m_value, of type
    [T].  Only the instances that compile are modelled: both operands of a
    binary operator have the same [T], and for + - * / % that type is not
    narrower than int. *)

(** daw_natural.h 29-34, [validate]. *)
Definition nat_validate (z : Z) : res Z := if z >=? 1 then Ok z else Throw.

(** daw_natural.h 40-51, construction and assignment from an integer of some
    other type: the value is validated, then converted to [T]. *)
Definition nat_make (T : ity) (v : Z) : res Z :=
  z <- nat_validate v ;; Ok (conv T z).

(** daw_natural.h 61-67, operator+=. *)
Definition nat_add (T : ity) (a b : Z) : res Z := assign_op T (a + b).

(** daw_natural.h 69-75, operator-=. *)
Definition nat_sub (T : ity) (a b : Z) : res Z :=
  d <- calc (promote T) (a - b) ;;
  z <- nat_validate d ;;
  Ok (conv T z).

(** daw_natural.h 77-83, operator*=. *)
Definition nat_mul (T : ity) (a b : Z) : res Z := assign_op T (a * b).

(** daw_natural.h 85-91, operator/=: division by zero is undefined. *)
Definition nat_div (T : ity) (a b : Z) : res Z :=
  if b =? 0 then UB else assign_op T (Z.quot a b).

(** daw_natural.h 93-99, operator%=. *)
Definition nat_mod (T : ity) (a b : Z) : res Z :=
  if b =? 0 then UB else assign_op T (Z.rem a b).

(** daw_natural.h 101-114, operator++ (the new value). *)
Definition nat_inc (T : ity) (a : Z) : res Z := assign_op T (a + 1).

(** daw_natural.h 116-129, operator-- (the new value). *)
Definition nat_dec (T : ity) (a : Z) : res Z :=
  d <- calc (promote T) (a - 1) ;;
  z <- nat_validate d ;;
  Ok (conv T z).

(** daw_natural.h 131-188, the binary operators.  [static_cast<T>( lhs )] reads
    the value; the result type is that of the built-in operator, which for the
    modelled types is [T] itself.  operator- validates, the others do not. *)
Definition nat_plus := nat_add.
Definition nat_minus := nat_sub.
Definition nat_times := nat_mul.
Definition nat_over := nat_div.
Definition nat_rem := nat_mod.

(** One call on a natural_t that holds [a]. *)
Inductive natcall :=
| NAssign (v : Z)
| NAdd (b : Z)
| NSub (b : Z)
| NMul (b : Z)
| NDiv (b : Z)
| NMod (b : Z)
| NInc
| NDec.

Definition nat_step (T : ity) (a : Z) (c : natcall) : res Z :=
  match c with
  | NAssign v => nat_make T v
  | NAdd b => nat_add T a b
  | NSub b => nat_sub T a b
  | NMul b => nat_mul T a b
  | NDiv b => nat_div T a b
  | NMod b => nat_mod T a b
  | NInc => nat_inc T a
  | NDec => nat_dec T a
  end.

(** A sequence of calls; stops at the first one that does not return. *)
Fixpoint nat_run (T : ity) (a : Z) (cs : list natcall) : res Z :=
  match cs with
  | [] => Ok a
  | c :: rest => a' <- nat_step T a c ;; nat_run T a' rest
  end.
