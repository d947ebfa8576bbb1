(** Model of deprecated/daw_cfile.h, deprecated/daw_safe_string.h, daw_zipcontainer.h,
    iterator/daw_random_iterator.h, iterator/daw_pointer_iterator.h, wrap_iter.h,
    daw_exception.h (checks), daw_ordering_to_integer.h and daw_logic.h.
    No proofs in this file. *)
From Verif Require Import Common OldRange.
Open Scope Z_scope.

(** * CFile, deprecated/daw_cfile.h *)

(** The files opened so far, [true] while open, and the CFile objects made so far: [None]
    when destroyed, otherwise the member ptr (null or a file). *)
Record cst : Type := mk_cst { c_files : list bool; c_objs : list (option (option nat)) }.
Definition cst0 : cst := mk_cst [] [].

(** fclose: closing a file that is not open is undefined. *)
Definition fclose (files : list bool) (f : nat) : res (list bool) :=
  match nth_error files f with
  | Some true => Ok (upd files f false)
  | _ => UB
  end.
Definition get_obj (s : cst) (i : nat) : res (option nat) :=
  match nth_error (c_objs s) i with
  | Some (Some p) => Ok p
  | _ => UB
  end.
Definition set_obj (s : cst) (i : nat) (p : option nat) : cst := mk_cst (c_files s) (upd (c_objs s) i (Some p)).

(** release, lines 45-47: the pointer; the object is null afterwards. *)
Definition cf_release (s : cst) (i : nat) : res (option nat * cst) :=
  p <- get_obj s i ;; Ok (p, set_obj s i None).
(** close, lines 56-60. *)
Definition cf_close (s : cst) (i : nat) : res cst :=
  tmp <- get_obj s i ;;
  let s := set_obj s i None in
  match tmp with
  | None => Ok s
  | Some f => files <- fclose (c_files s) f ;; Ok (mk_cst files (c_objs s))
  end.
(** reset( f ), lines 49-54. *)
Definition cf_reset (s : cst) (i : nat) (f : option nat) : res cst :=
  p <- get_obj s i ;;
  s <- match p with None => Ok s | Some _ => cf_close s i end ;;
  Ok (set_obj s i f).

Inductive cop :=
| COpen                            (* the client opens a file with fopen *)
| CClient (f : nat)                (* the client closes a file with fclose *)
| CMake (f : option nat)           (* CFile( f ), lines 26-27, and CFile( ), line 22 *)
| CMove (i : nat)                  (* move constructor, lines 29-30 *)
| CMoveAssign (d i : nat)          (* d = std::move( i ), lines 32-35 *)
| CRelease (i : nat)
| CReset (i : nat) (f : option nat)
| CReset0 (i : nat)                (* reset( ), lines 62-64 *)
| CClose (i : nat)
| CDestroy (i : nat).              (* lines 37-39 *)

Definition cstep (s : cst) (o : cop) : res cst :=
  match o with
  | COpen => Ok (mk_cst (c_files s ++ [true]) (c_objs s))
  | CClient f => files <- fclose (c_files s) f ;; Ok (mk_cst files (c_objs s))
  | CMake f => Ok (mk_cst (c_files s) (c_objs s ++ [Some f]))
  | CMove i => p <- get_obj s i ;; Ok (mk_cst (c_files s) (upd (c_objs s) i (Some None) ++ [Some p]))
  | CMoveAssign d i =>
      _ <- get_obj s i ;;
      '(f, s) <- cf_release s d ;;
      cf_reset s d f
  | CRelease i => '(_, s) <- cf_release s i ;; Ok s
  | CReset i f => cf_reset s i f
  | CReset0 i => cf_close s i
  | CClose i => cf_close s i
  | CDestroy i => s <- cf_close s i ;; Ok (mk_cst (c_files s) (upd (c_objs s) i None))
  end.
Fixpoint crun (s : cst) (ops : list cop) : res cst :=
  match ops with
  | [] => Ok s
  | o :: ops => s' <- cstep s o ;; crun s' ops
  end.

(** * basic_safe_string, deprecated/daw_safe_string.h *)
(** The string as it was given, and the function. *)
Record sstr := mk_sstr { s_raw : list Z; s_fun : nat }.
Inductive sop :=
| SAssign (t : list Z)        (* operator=( string_type ), lines 48-51 *)
| SCopy (o : sstr).           (* copy and move assignment, lines 33-34: both members *)
Definition sstep (s : sstr) (o : sop) : sstr :=
  match o with
  | SAssign t => mk_sstr t (s_fun s)
  | SCopy o => o
  end.
Definition srun (s : sstr) (ops : list sop) : sstr := fold_left sstep ops s.
(** get and the conversion, lines 53-55, 61-63; unsafe_get, lines 57-59. *)
Definition s_get (sanitize : nat -> list Z -> list Z) (s : sstr) : list Z := sanitize (s_fun s) (s_raw s).
Definition s_unsafe (s : sstr) : list Z := s_raw s.

(** * zip_container, daw_zipcontainer.h *)
(** Containers are lists of elements, with their lifetime. *)
Definition store := list (bool * list Z).
(** An argument of the constructor: a variable of the client (Containers is a reference
    type, by the deduction guide, lines 58-59, and make_zipcontainer, lines 61-64), or a
    temporary (Containers is a value type: the parameter, and what it holds, is gone after
    the call, lines 29-31). *)
Inductive zarg := ZVariable (c : nat) | ZTemporary (l : list Z).
(** The iterators that the constructor stores: container and position. *)
Fixpoint zip_make (st : store) (args : list zarg) : res (store * list (nat * nat) * list (nat * nat)) :=
  match args with
  | [] => Ok (st, [], [])
  | ZVariable c :: args =>
      match nth_error st c with
      | Some (true, l) =>
          '(st, bs, es) <- zip_make st args ;; Ok (st, (c, 0%nat) :: bs, (c, length l) :: es)
      | _ => UB
      end
  | ZTemporary l :: args =>
      let c := length st in
      '(st, bs, es) <- zip_make (st ++ [(false, l)]) args ;; Ok (st, (c, 0%nat) :: bs, (c, length l) :: es)
  end.
(** Use of an iterator: its container must exist. *)
Definition z_elems (st : store) (it : nat * nat) : res (list Z) :=
  match nth_error st (fst it) with Some (true, l) => Ok l | _ => UB end.
(** operator!= of the tuples of iterators. *)
Fixpoint z_equal (st : store) (a b : list (nat * nat)) : res bool :=
  match a, b with
  | x :: a, y :: b =>
      _ <- z_elems st x ;; _ <- z_elems st y ;;
      if Nat.eqb (snd x) (snd y) then z_equal st a b else Ok false
  | _, _ => Ok true
  end.
Fixpoint z_read (st : store) (a : list (nat * nat)) : res (list Z) :=
  match a with
  | [] => Ok []
  | x :: a => l <- z_elems st x ;; v <- rd l (snd x) ;; r <- z_read st a ;; Ok (v :: r)
  end.
Fixpoint z_inc (st : store) (a : list (nat * nat)) : res (list (nat * nat)) :=
  match a with
  | [] => Ok []
  | x :: a =>
      l <- z_elems st x ;;
      if (snd x <? length l)%nat then r <- z_inc st a ;; Ok ((fst x, S (snd x)) :: r) else UB
  end.
(** for( auto row : container ): the rows. *)
Fixpoint z_loop (fuel : nat) (st : store) (it last : list (nat * nat)) : res (list (list Z)) :=
  match fuel with
  | O => OutOfFuel
  | S fuel =>
      e <- z_equal st it last ;;
      if e : bool then Ok []
      else row <- z_read st it ;; it <- z_inc st it ;; r <- z_loop fuel st it last ;; Ok (row :: r)
  end.

(** * Iterators over an array of [len] elements; positions as in OldRange.v *)
(** The result of an operation is the iterator itself ([Self], a reference to it), a new
    iterator, or a reference to an object that is gone. *)
Inductive result_it := Self | NewIt (p : Z) | GoneIt.
(** RandomIterator, iterator/daw_random_iterator.h: ++, --, lines 65-68, 76-79; it++, it--,
    lines 70-74, 81-85; +=, -=, lines 43-51; + and -, lines 87-101, which change the iterator
    and set it back. *)
Inductive itop := OpInc | OpDec | OpPostInc | OpPostDec | OpAddAssign (n : Z) | OpSubAssign (n : Z) | OpPlus (n : Z) | OpMinus (n : Z).
Definition random_op (len p : Z) (o : itop) : res (Z * result_it) :=
  match o with
  | OpInc => p <- it_inc len p ;; Ok (p, Self)
  | OpDec => p <- it_dec len p ;; Ok (p, Self)
  | OpPostInc => q <- it_inc len p ;; Ok (q, NewIt p)
  | OpPostDec => q <- it_dec len p ;; Ok (q, NewIt p)
  | OpAddAssign n => p <- it_add len p n ;; Ok (p, Self)
  | OpSubAssign n => p <- it_add len p (- n) ;; Ok (p, Self)
  | OpPlus n => let old := p in p <- it_add len p n ;; let temp := p in Ok (old, NewIt temp)
  | OpMinus n => let old := p in p <- it_add len p (- n) ;; let temp := p in Ok (old, NewIt temp)
  end.
(** wrap_iter, wrap_iter.h: lines 54-80 (next and prev of the iterator inside), += lines
    82-85; - and -= negate the offset, lines 87-94 (overflow for the smallest). *)
Definition wrap_op (len p : Z) (o : itop) : res (Z * result_it) :=
  match o with
  | OpInc => p <- it_inc len p ;; Ok (p, Self)
  | OpDec => p <- it_dec len p ;; Ok (p, Self)
  | OpPostInc => let tmp := p in p <- it_inc len p ;; Ok (p, NewIt tmp)
  | OpPostDec => let tmp := p in p <- it_dec len p ;; Ok (p, NewIt tmp)
  | OpAddAssign n => p <- it_add len p n ;; Ok (p, Self)
  | OpSubAssign n => if n =? ptrdiff_min then UB else p <- it_add len p (- n) ;; Ok (p, Self)
  | OpPlus n => w <- it_add len p n ;; Ok (p, NewIt w)
  | OpMinus n => if n =? ptrdiff_min then UB else w <- it_add len p (- n) ;; Ok (p, NewIt w)
  end.
(** pointer_iterator, iterator/daw_pointer_iterator.h: ++ lines 65-68; it++ lines 70-74, whose
    result type is a reference, bound to the local; -- lines 76-79, whose result is a copy;
    it-- lines 81-85; += and -= lines 87-95; + lines 97-101; there is no operator-( n ): the
    function of lines 103-107 is called -= too, and is chosen for const iterators. *)
Definition pointer_op (len p : Z) (o : itop) : option (res (Z * result_it)) :=
  match o with
  | OpInc => Some (p <- it_inc len p ;; Ok (p, Self))
  | OpDec => Some (p <- it_dec len p ;; Ok (p, NewIt p))
  | OpPostInc => Some (q <- it_inc len p ;; Ok (q, GoneIt))
  | OpPostDec => Some (q <- it_dec len p ;; Ok (q, NewIt p))
  | OpAddAssign n => Some (p <- it_add len p n ;; Ok (p, Self))
  | OpSubAssign n => Some (p <- it_add len p (- n) ;; Ok (p, Self))
  | OpPlus n => Some (q <- it_add len p n ;; Ok (p, NewIt q))
  | OpMinus n => None
  end.
Definition pointer_const_sub_assign (len p n : Z) : res (Z * result_it) :=
  q <- it_add len p (- n) ;; Ok (p, NewIt q).
(** An operation applied to the result of another, as in --( --it ) or *it++. *)
Definition then_op (op : Z -> itop -> res (Z * result_it)) (p : Z) (a b : itop) : res Z :=
  '(p, r) <- op p a ;;
  match r with
  | Self => '(p, _) <- op p b ;; Ok p
  | NewIt q => '(_, _) <- op q b ;; Ok p
  | GoneIt => UB
  end.

(** * Checks of daw_exception.h *)
Inductive outcome (A : Type) := Returned (a : A) | Thrown (e : nat) | Aborted.
Arguments Returned {A} a.
Arguments Thrown {A} e.
Arguments Aborted {A}.
Section Checks.
  (** Are exceptions enabled in the compiler?  Is NODEBUGTHROW not defined? *)
  Variables (exceptions debug : bool).
  (** daw_throw, lines 66-101; an exception type is a number. *)
  Definition daw_throw {A} (e : nat) : outcome A := if exceptions then Thrown e else Aborted.
  (** debug_throw, lines 103-111. *)
  Definition debug_throw (e : nat) : outcome unit := if debug then daw_throw e else Returned tt.
  (** dbg_throw_on_false with arguments, lines 171-177 and 199-200. *)
  Definition dbg_throw_on_false (e : nat) (test : bool) : outcome unit :=
    if debug then (if negb test then debug_throw e else Returned tt) else Returned tt.
  (** dbg_throw_on_true, lines 226-231: not conditional, but debug_throw is. *)
  Definition dbg_throw_on_true (e : nat) (test : bool) : outcome unit :=
    if test then debug_throw e else Returned tt.
  (** daw_throw_on_false, lines 330-336, 346-351; daw_throw_on_true, lines 353-358, 425-439. *)
  Definition daw_throw_on_false (e : nat) (test : bool) : outcome unit := if negb test then daw_throw e else Returned tt.
  Definition daw_throw_on_true (e : nat) (test : bool) : outcome unit := if test then daw_throw e else Returned tt.
  (** daw_throw_on_null_or_return, lines 250-258, and with dbg_, lines 129-146; pointers are numbers, 0 is null. *)
  Definition daw_throw_on_null_or_return (e : nat) (p : Z) : outcome Z := if p =? 0 then daw_throw e else Returned p.
  Definition dbg_throw_on_null_or_return (e : nat) (p : Z) : outcome Z :=
    if debug then (if p =? 0 then daw_throw e else Returned p) else Returned p.
  (** daw_throw_on_false_or_return( value, test ), lines 319-328. *)
  Definition daw_throw_on_false_or_return {A} (e : nat) (v : A) (test : bool) : outcome A :=
    if negb test then daw_throw e else Returned v.
  (** precondition_check and postcondition_check, lines 271-292: [None] is Terminator. *)
  Definition precondition_check (e : option nat) (condition : bool) : outcome unit :=
    if negb condition then match e with None => Aborted | Some e => daw_throw e end else Returned tt.
  (** dbg_precondition_check, lines 294-302, 312-314: the exception type is not used. *)
  Definition dbg_precondition_check (e : nat) (condition : bool) : outcome unit :=
    if debug then (if negb condition then Aborted else Returned tt) else Returned tt.
  (** assert_all_false, lines 441-454, with the number of elements tested;
      assert_all_true, lines 456-466. *)
  Fixpoint assert_all_false {T} (e : nat) (l : list T) (pred : T -> bool) : outcome unit * nat :=
    match l with
    | [] => (Returned tt, 0%nat)
    | x :: l => if pred x then (daw_throw e, 1%nat) else let (r, n) := assert_all_false e l pred in (r, S n)
    end.
  Definition assert_all_true {T} (e : nat) (l : list T) (pred : T -> bool) : outcome unit * nat :=
    assert_all_false e l (fun x => negb (pred x)).
  (** no_exception, lines 468-480: noexcept; without exceptions nothing is caught. *)
  Definition no_exception (r : outcome unit) : outcome unit :=
    match r with Thrown _ => Returned tt | r => r end.
End Checks.

(** * daw_ordering_to_integer.h *)
(** The representation of the orderings of the standard library: -1, 0, 1, and
    [unordered] for the unordered one (2 or -127 in the common libraries). *)
Inductive ordering := OLess | OEqual | OGreater | OUnordered.
Definition order_repr (unordered : Z) (o : ordering) : Z :=
  match o with OLess => -1 | OEqual => 0 | OGreater => 1 | OUnordered => unordered end.
(** order_to_enum, lines 69-79: the value of the enumeration is the representation. *)
Definition order_to_enum (unordered : Z) (o : ordering) : Z := order_repr unordered o.
(** equal_or_equivalent, lines 81-84, of an ordering of the standard library, or of one of the
    enumerations (converted to signed char). *)
Definition equal_or_equivalent (unordered : Z) (o : ordering) : bool := order_repr unordered o =? 0.
Definition to_schar (z : Z) : Z := let m := z mod 256 in if m <? 128 then m else m - 256.
Definition enum_equal_or_equivalent (e : Z) : bool := to_schar e =? 0.

(** * daw_logic.h, lines 14-25: the left folds with & and |, starting with the other
    arguments; all arguments have been evaluated before the call. *)
Definition nsc_and (lhs : bool) (rhs : list bool) : bool := fold_left andb (rhs ++ [lhs]) true.
Definition nsc_or (lhs : bool) (rhs : list bool) : bool := fold_left orb (rhs ++ [lhs]) false.
