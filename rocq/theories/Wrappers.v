(** Model of daw_optional.h, deprecated/daw_optional_poly.h, daw_expected.h,
    deprecated/daw_checked_expected.h, daw_safe_pointer.h and of to_reference_vector
    from daw_reference.h.  No proofs in this file. *)
From Verif Require Import Common.
Open Scope Z_scope.

(** The comparison operators of a type, as functions. *)
Record cmp_ops (V : Type) := CmpOps { o_eq : V -> V -> bool; o_ne : V -> V -> bool; o_lt : V -> V -> bool;
  o_le : V -> V -> bool; o_gt : V -> V -> bool; o_ge : V -> V -> bool }.
Arguments o_eq {V}. Arguments o_ne {V}. Arguments o_lt {V}. Arguments o_le {V}. Arguments o_gt {V}. Arguments o_ge {V}.

(** * daw_optional.h.  An optional, of a value or of a reference, is [option V]; both
    operands have values of one type. *)
Section Optional.
  Context {V : Type} (ops : cmp_ops V).
  Definition has {A} (x : option A) : bool := match x with Some _ => true | None => false end.
  (** 44-59, 168-174 operator* and 90-104, 201-207 value( ). *)
  Definition opt_deref (x : option V) : res V := match x with Some v => Ok v | None => UB end.
  Definition opt_value (x : option V) : res V := match x with Some v => Ok v | None => Throw end.
  Definition on_both (f : V -> V -> bool) (x y : option V) : res bool :=
    a <- opt_deref x ;; b <- opt_deref y ;; Ok (f a b).
  (** 252-316: two optionals. *)
  Definition opt_eq (lhs rhs : option V) : res bool :=
    if negb (Bool.eqb (has lhs) (has rhs)) then Ok false
    else if negb (has lhs) then Ok true else on_both (o_eq ops) lhs rhs.
  Definition opt_ne (lhs rhs : option V) : res bool :=
    if negb (Bool.eqb (has lhs) (has rhs)) then Ok true
    else if negb (has lhs) then Ok false else on_both (o_ne ops) lhs rhs.
  Definition opt_lt (lhs rhs : option V) : res bool :=
    if negb (has rhs) then Ok false else if negb (has lhs) then Ok true else on_both (o_lt ops) lhs rhs.
  Definition opt_le (lhs rhs : option V) : res bool :=
    if negb (has lhs) then Ok true else if negb (has rhs) then Ok false else on_both (o_le ops) lhs rhs.
  Definition opt_gt (lhs rhs : option V) : res bool :=
    if negb (has lhs) then Ok false else if negb (has rhs) then Ok true else on_both (o_gt ops) lhs rhs.
  Definition opt_ge (lhs rhs : option V) : res bool :=
    if negb (has rhs) then Ok true else if negb (has lhs) then Ok false else on_both (o_ge ops) lhs rhs.
  (** 318-379: an optional and nullopt; r has nullopt on the left. *)
  Definition null_eq (opt : option V) : bool := negb (has opt).
  Definition null_eq_r (opt : option V) : bool := negb (has opt).
  Definition null_ne (opt : option V) : bool := has opt.
  Definition null_ne_r (opt : option V) : bool := has opt.
  Definition null_lt (opt : option V) : bool := false.
  Definition null_lt_r (opt : option V) : bool := has opt.
  Definition null_le (opt : option V) : bool := negb (has opt).
  Definition null_le_r (opt : option V) : bool := true.
  Definition null_gt (opt : option V) : bool := has opt.
  Definition null_gt_r (opt : option V) : bool := false.
  Definition null_ge (opt : option V) : bool := true.
  Definition null_ge_r (opt : option V) : bool := has opt.
  (** 381-475: an optional and a value; r has the value on the left. *)
  Definition if_has (opt : option V) (f : V -> bool) (otherwise : bool) : bool :=
    match opt with Some v => f v | None => otherwise end.
  Definition val_eq (opt : option V) (value : V) : bool := if_has opt (fun o => o_eq ops o value) false.
  Definition val_eq_r (value : V) (opt : option V) : bool := if_has opt (fun o => o_eq ops value o) false.
  Definition val_ne (opt : option V) (value : V) : bool := if_has opt (fun o => o_ne ops o value) true.
  Definition val_ne_r (value : V) (opt : option V) : bool := if_has opt (fun o => o_ne ops value o) true.
  Definition val_lt (opt : option V) (value : V) : bool := if_has opt (fun o => o_lt ops o value) true.
  Definition val_lt_r (value : V) (opt : option V) : bool := if_has opt (fun o => o_lt ops value o) false.
  Definition val_le (opt : option V) (value : V) : bool := if_has opt (fun o => o_le ops o value) true.
  Definition val_le_r (value : V) (opt : option V) : bool := if_has opt (fun o => o_le ops value o) false.
  Definition val_gt (opt : option V) (value : V) : bool := if_has opt (fun o => o_gt ops o value) false.
  Definition val_gt_r (value : V) (opt : option V) : bool := if_has opt (fun o => o_gt ops value o) true.
  Definition val_ge (opt : option V) (value : V) : bool := if_has opt (fun o => o_ge ops o value) false.
  Definition val_ge_r (value : V) (opt : option V) : bool := if_has opt (fun o => o_gt ops o value) true.

  (** * deprecated/daw_optional_poly.h 181-251. *)
  Definition poly_eq (lhs rhs : option V) : res bool :=
    if has lhs then if has rhs then on_both (o_eq ops) lhs rhs else Ok false else Ok (negb (has rhs)).
  Definition poly_ne (lhs rhs : option V) : res bool :=
    if has lhs then if has rhs then on_both (o_ne ops) lhs rhs else Ok true else Ok (has rhs).
  Definition poly_lt (lhs rhs : option V) : res bool :=
    if has lhs then if has rhs then on_both (o_lt ops) lhs rhs else Ok false else Ok true.
  Definition poly_le (lhs rhs : option V) : res bool :=
    if has lhs then if has rhs then on_both (o_le ops) lhs rhs else Ok false else Ok true.
  Definition poly_gt (lhs rhs : option V) : res bool :=
    if has lhs then if has rhs then on_both (o_gt ops) lhs rhs else Ok true else Ok false.
  Definition poly_ge (lhs rhs : option V) : res bool :=
    if has lhs then if has rhs then on_both (o_ge ops) lhs rhs else Ok true else Ok false.
End Optional.

(** * deprecated/daw_optional_poly.h: an optional_poly< Base > holds an object, which may
    be of a derived class; [slice] is its Base part, as an object of class Base. *)
Section OptionalPoly.
  Context {V : Type} (slice : V -> V).
  (** 71-79 construction and 85-86, 99-102 copies from an optional_poly of the derived
      class keep the class. *)
  Definition op_make (v : V) : option V := Some v.
  (** 37-43 make_copy of a Base pointer, 54-60 copy construction and assignment. *)
  Definition op_copy (other : option V) : option V :=
    match other with None => None | Some v => Some (slice v) end.
  (** 119-122 assignment of an object. *)
  Definition op_assign (value : V) : option V := Some (slice value).
End OptionalPoly.

(** How a call ends, seen from outside. *)
Inductive ending (V E : Type) : Type := Gives (v : V) | Raises (e : E) | Terminates | Undefined.
Arguments Gives {V E}. Arguments Raises {V E}. Arguments Terminates {V E}. Arguments Undefined {V E}.
(** What a callable does. *)
Inductive outcome (V E : Type) : Type := Returns (v : V) | Throws (e : E).
Arguments Returns {V E}. Arguments Throws {V E}.

(** * daw_expected.h: the std::variant m_value; a std::exception_ptr may be null.
    expected_t< void > is the same with [V] = unit; its operator=( bool ) is set_value. *)
Inductive expected (V E : Type) : Type := Empty | Exception (p : option E) | Value (v : V) | Valueless.
Arguments Empty {V E}. Arguments Exception {V E}. Arguments Value {V E}. Arguments Valueless {V E}.
Section Expected.
  Context {V E : Type}.
  Notation expected := (expected V E).
  (** 58, 70-74, 94-95, 106-111, 269-271, 302-315 the constructors. *)
  Definition ex_default : expected := Empty.
  Definition ex_of_value (v : V) : expected := Value v.
  Definition ex_of_exception (p : option E) : expected := Exception p.
  (** 76-92, 283-296 set_value, with a copy that does not throw. *)
  Definition ex_set_value (x : expected) (v : V) : expected := Value v.
  (** The same when copying the value throws: std::variant keeps its alternative if it
      holds a value (whose assignment throws and is taken to leave it as it was) or if
      the copy is made before the old alternative is destroyed, which it does for types
      that move without throwing ([tmp]). *)
  Definition ex_set_value_throws (tmp : bool) (x : expected) : expected :=
    match x with
    | Value v => Value v
    | _ => if tmp then x else Valueless
    end.
  (** 97-100, 148-154 set_exception( ptr ); without argument ptr is
      std::current_exception( ), null outside of a handler. *)
  Definition ex_set_exception (x : expected) (p : option E) : expected := Exception p.
  (** 102-104, 298-300. *)
  Definition ex_clear (x : expected) : expected := Empty.
  (** 114-146, 317-347 from_code and construction from a function. *)
  Definition ex_from_code (f : outcome V E) : expected :=
    match f with Returns v => Value v | Throws e => Exception (Some e) end.
  (** 404-414 expected_from_code< Result >( f ): the result of from_code is dropped. *)
  Definition ex_expected_from_code_as (f : outcome V E) : expected :=
    let result := ex_default in let _ := ex_from_code f in result.
  (** 416-422 expected_from_code( f ). *)
  Definition ex_expected_from_code (f : outcome V E) : expected := ex_from_code f.
  (** 156-175, 357-376. *)
  Definition ex_has_value (x : expected) : bool := match x with Value _ => true | _ => false end.
  Definition ex_has_exception (x : expected) : bool := match x with Exception _ => true | _ => false end.
  Definition ex_empty (x : expected) : bool := match x with Empty => true | _ => false end.
  Definition ex_bool (x : expected) : bool := negb (ex_empty x).
  (** 164-166 get_exception_ptr: *std::get_if. *)
  Definition ex_get_exception_ptr (x : expected) : res (option E) :=
    match x with Exception p => Ok p | _ => UB end.
  (** 177-193, 206-236: throw_if_exception and get.  Rethrowing null is undefined. *)
  Definition ex_throw_if_exception (x : expected) : ending unit E :=
    if negb (ex_has_exception x) then Gives tt
    else match ex_get_exception_ptr x with Ok (Some e) => Raises e | _ => Undefined end.
  Definition ex_get (x : expected) : ending V E :=
    if ex_empty x then Terminates
    else match ex_throw_if_exception x with
         | Gives _ => match x with Value v => Gives v | _ => Undefined end
         | Raises e => Raises e
         | Terminates => Terminates
         | Undefined => Undefined
         end.
  (** 61-67, of std::variant. *)
  Definition ex_eq (eqv : V -> V -> bool) (eqe : E -> E -> bool) (x y : expected) : bool :=
    match x, y with
    | Empty, Empty | Valueless, Valueless => true
    | Exception None, Exception None => true
    | Exception (Some e), Exception (Some f) => eqe e f
    | Value v, Value w => eqv v w
    | _, _ => false
    end.
  (** Programs. *)
  Inductive xop := SetValue (v : V) | SetException (p : option E) | Clear | FromCode (f : outcome V E).
  Definition ex_step (x : expected) (o : xop) : expected :=
    match o with
    | SetValue v => ex_set_value x v
    | SetException p => ex_set_exception x p
    | Clear => ex_clear x
    | FromCode f => ex_from_code f
    end.
End Expected.
Arguments xop : clear implicits.

(** * deprecated/daw_checked_expected.h: the members m_value and m_exception (null is
    [None]).  [listed e] says whether e is one of ExpectedExceptions. *)
Record checked (V E : Type) := Checked { m_value : option V; m_exception : option E }.
Arguments Checked {V E}. Arguments m_value {V E}. Arguments m_exception {V E}.
Section CheckedExpected.
  Context {V E : Type} (listed : E -> bool) (none_listed : bool).
  Notation checked := (checked V E).
  (** 30-55 is_expected_exception: nothing when no exceptions are listed; throws an
      unnamed type otherwise; rethrowing null is undefined. *)
  Definition ck_is_expected (p : option E) : res unit :=
    if none_listed then Ok tt
    else match p with None => UB | Some e => if listed e then Ok tt else Throw end.
  (** 76, 87-95. *)
  Definition ck_default : checked := Checked None None.
  Definition ck_of_value (v : V) : checked := Checked (Some v) None.
  Definition ck_set_value (x : checked) (v : V) : checked := Checked (Some v) None.
  (** 97-102. *)
  Definition ck_of_exception (p : option E) : res checked :=
    _ <- ck_is_expected p ;; Ok (Checked None p).
  (** 104-110: no check. *)
  Definition ck_set_exception (x : checked) (p : option E) : checked := Checked None p.
  (** 134-146. *)
  Definition ck_from_code (f : outcome V E) : res checked :=
    match f with
    | Returns v => Ok (ck_of_value v)
    | Throws e => x <- ck_of_exception (Some e) ;; _ <- ck_is_expected (Some e) ;; Ok x
    end.
  (** 148-166 and 341-359. *)
  Definition ck_has_value (x : checked) : bool := has (m_value x).
  Definition ck_has_exception (x : checked) : bool := has (m_exception x).
  Definition ck_empty (x : checked) : bool := negb (ck_has_value x || ck_has_exception x).
  (** 172-186 get. *)
  Definition ck_get (x : checked) : ending V E :=
    match m_exception x with
    | Some e => Raises e
    | None => match m_value x with Some v => Gives v | None => Undefined end
    end.
End CheckedExpected.
(** checked_expected_t< void >: [V] = unit, m_value is a bool. *)
Section CheckedVoid.
  Context {E : Type}.
  Notation checked := (checked unit E).
  (** 275-279. *)
  Definition cv_set_value (x : checked) : checked := Checked (Some tt) None.
  (** 239-245 copy construction, 246-254 copy assignment. *)
  Definition cv_copy (other : checked) : checked := Checked (m_value other) (m_exception other).
  Definition cv_copy_assign (x rhs : checked) : checked :=
    Checked (m_value rhs) (match m_exception rhs with Some e => Some e | None => m_exception x end).
  (** 235-237 move construction: the new one and the source. *)
  Definition cv_move (other : checked) : checked * checked := (other, Checked None None).
  (** 367-369 get. *)
  Definition cv_get (x : checked) : ending unit E :=
    match m_exception x with Some e => Raises e | None => Gives tt end.
End CheckedVoid.

(** * daw_safe_pointer.h, of an array of [size] elements (109-120): [at_index] is
    m_pointer as an index.  A failed DAW_SAFE_POINTER_ENSURE is [Throw] (the program is
    stopped). *)
Record sptr := SPtr { at_index : Z; destroyed : bool }.
Section SafePointer.
  Context {V : Type} (mem : list V).
  Notation size := (Z.of_nat (length mem)).
  Definition ensure (b : bool) : res unit := if b then Ok tt else Throw.
  Definition sp_start : sptr := SPtr 0 false.
  (** 144-146. *)
  Definition sp_bool (p : sptr) : bool := negb (destroyed p).
  (** 73-86: the two call each other only when n is negative.  The difference of sizes
      is that of size_t; the pointer is inside the array. *)
  Definition sp_can_add (p : sptr) (n : Z) : bool :=
    if n <? 0 then - n <=? at_index p else n <=? (size - at_index p) mod 2 ^ 64.
  Definition sp_can_sub (p : sptr) (n : Z) : bool :=
    if n <? 0 then - n <=? (size - at_index p) mod 2 ^ 64 else n <=? at_index p.
  (** 137-142. *)
  Definition sp_destroy (p : sptr) : sptr := SPtr (at_index p) true.
  (** Pointer arithmetic that leaves the array is undefined. *)
  Definition sp_to (p : sptr) (i : Z) : res sptr :=
    if (0 <=? i) && (i <=? size) then Ok (SPtr i (destroyed p)) else UB.
  (** 179-203. *)
  Definition sp_inc (p : sptr) : res sptr :=
    _ <- ensure (sp_bool p) ;; _ <- ensure (at_index p <? size) ;; sp_to p (at_index p + 1).
  Definition sp_dec (p : sptr) : res sptr :=
    _ <- ensure (sp_bool p) ;; _ <- ensure (0 <? at_index p) ;; sp_to p (at_index p - 1).
  (** 205-235. *)
  Definition sp_add (p : sptr) (n : Z) : res sptr :=
    _ <- ensure (sp_can_add p n) ;;
    if n <? 0 then _ <- ensure (sp_can_sub p (- n)) ;; sp_to p (at_index p - - n)
    else sp_to p (at_index p + n).
  Definition sp_sub (p : sptr) (n : Z) : res sptr :=
    _ <- ensure (sp_can_sub p n) ;;
    if n <? 0 then _ <- ensure (sp_can_add p (- n)) ;; sp_to p (at_index p + - n)
    else sp_to p (at_index p - n).
  (** 169-172 operator*: m_range.front( ). *)
  Definition sp_deref (p : sptr) : res V := _ <- ensure (sp_bool p) ;; rd mem 0.
  (** 253-258 operator[]. *)
  Definition sp_index (p : sptr) (n : Z) : res V := tmp <- sp_add p n ;; sp_deref tmp.
  (** 56-60, 237-251: the distance to another pointer into the array. *)
  Definition sp_in_range (q : sptr) : bool := (0 <=? at_index q) && (at_index q <? size).
  Definition sp_distance (p q : sptr) : res Z := _ <- ensure (sp_in_range q) ;; Ok (at_index p - at_index q).
  (** 122-124 and 174-177: reading through get( ) and operator->. *)
  Definition sp_arrow (p : sptr) : res V := _ <- ensure (negb (destroyed p)) ;; rd mem (Z.to_nat (at_index p)).
  Inductive spop := SInc | SDec | SAdd (n : Z) | SSub (n : Z).
  Definition sp_step (p : sptr) (o : spop) : res sptr :=
    match o with SInc => sp_inc p | SDec => sp_dec p | SAdd n => sp_add p n | SSub n => sp_sub p n end.
  Fixpoint sp_run (p : sptr) (os : list spop) : res sptr :=
    match os with
    | [] => Ok p
    | o :: os => p <- sp_step p o ;; sp_run p os
    end.
End SafePointer.

(** * daw_reference.h 80-90 to_reference_vector: first is never incremented. *)
Fixpoint to_reference_vector {V} (fuel : nat) (first last : nat) (mem : list V) (result : list V) : res (list V) :=
  match fuel with
  | O => OutOfFuel
  | S fuel =>
      if Nat.eqb first last then Ok result
      else v <- rd mem first ;; to_reference_vector fuel first last mem (result ++ [v])
  end.
