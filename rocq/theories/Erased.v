(** Model of iterator/InputIterator.h (a type-erased iterator), daw_observer_ptr.h with
    daw_monadic_pointer_ops.h, and of the references handed out by daw_rw_ref.h,
    daw_prop_const_ptr.h and daw_poly_var.h.

    Memory for the erased iterators is a list of cells; a freed cell is [None] and is not
    used again.  No proofs in this file. *)
From Verif Require Import Common.
Open Scope Z_scope.

(** * iterator/InputIterator.h *)

(** A heap object: the type of the erased iterator and the position it stands at. *)
Definition heap : Type := list (option (nat * Z)).

(** An InputIterator, lines 97-109: the pointer, null after a move, and the table of functions,
    which is that of one type. *)
Record handle : Type := mk_handle { h_ptr : option nat; h_vt : nat }.

(** The heap and all InputIterators made so far; [None] for a destroyed one. *)
Record ist : Type := mk_ist { i_heap : heap; i_hs : list (option handle) }.

(** as_orig of the functions of type [vt], lines 34-37: reading an object of another type, a
    freed one, or through a null pointer is undefined. *)
Definition cell (hp : heap) (vt : nat) (p : option nat) : res (nat * Z) :=
  match p with
  | None => UB
  | Some p =>
    match nth_error hp p with
    | Some (Some (ty, pos)) => if Nat.eqb ty vt then Ok (p, pos) else UB
    | _ => UB
    end
  end.

(** op_del, lines 64-67: delete of a null pointer does nothing. *)
Definition op_del (hp : heap) (vt : nat) (p : option nat) : res heap :=
  match p with
  | None => Ok hp
  | Some _ => '(a, _) <- cell hp vt p ;; Ok (upd hp a None)
  end.

(** op_clone, lines 88-92. *)
Definition op_clone (hp : heap) (vt : nat) (p : option nat) : res (heap * nat) :=
  '(_, pos) <- cell hp vt p ;; Ok (hp ++ [Some (vt, pos)], length hp).

(** op_inc, lines 76-79. *)
Definition op_inc (hp : heap) (vt : nat) (p : option nat) : res heap :=
  '(a, pos) <- cell hp vt p ;; Ok (upd hp a (Some (vt, pos + 1))).

(** A live InputIterator; using a destroyed one is undefined. *)
Definition get_h (s : ist) (i : nat) : res handle :=
  match nth_error (i_hs s) i with
  | Some (Some h) => Ok h
  | _ => UB
  end.

Inductive iop :=
| IMake (ty : nat) (pos : Z)     (* InputIterator( it ) *)
| ICopy (h : nat)                (* copy constructor *)
| IMove (h : nat)                (* move constructor *)
| ICopyAssign (d s : nat)
| IMoveAssign (d s : nat)
| IInc (h : nat)                 (* ++it *)
| IPostInc (h : nat)             (* it++; the result is a new InputIterator *)
| IDestroy (h : nat).

Definition istep (s : ist) (o : iop) : res ist :=
  let hp := i_heap s in
  let hs := i_hs s in
  match o with
  | IMake ty pos => (* lines 114-130 *)
    Ok (mk_ist (hp ++ [Some (ty, pos)]) (hs ++ [Some (mk_handle (Some (length hp)) ty)]))
  | ICopy i => (* lines 132-134 *)
    h <- get_h s i ;;
    '(hp', p) <- op_clone hp (h_vt h) (h_ptr h) ;;
    Ok (mk_ist hp' (hs ++ [Some (mk_handle (Some p) (h_vt h))]))
  | IMove i => (* lines 147-149 *)
    h <- get_h s i ;;
    Ok (mk_ist hp (upd hs i (Some (mk_handle None (h_vt h))) ++ [Some h]))
  | ICopyAssign d i => (* lines 136-145 *)
    dst <- get_h s d ;;
    src <- get_h s i ;;
    if Nat.eqb d i then Ok s
    else
      '(hp', tmp) <- op_clone hp (h_vt src) (h_ptr src) ;;
      hp'' <- op_del hp' (h_vt src) (h_ptr dst) ;;
      Ok (mk_ist hp'' (upd hs d (Some (mk_handle (Some tmp) (h_vt src)))))
  | IMoveAssign d i => (* lines 151-157 *)
    dst <- get_h s d ;;
    src <- get_h s i ;;
    if Nat.eqb d i then Ok s
    else Ok (mk_ist hp (upd (upd hs d (Some src)) i (Some (mk_handle None (h_vt src)))))
  | IInc i => (* lines 173-176 *)
    h <- get_h s i ;;
    hp' <- op_inc hp (h_vt h) (h_ptr h) ;;
    Ok (mk_ist hp' hs)
  | IPostInc i => (* lines 178-182 *)
    h <- get_h s i ;;
    '(hp', p) <- op_clone hp (h_vt h) (h_ptr h) ;;
    hp'' <- op_inc hp' (h_vt h) (h_ptr h) ;;
    Ok (mk_ist hp'' (hs ++ [Some (mk_handle (Some p) (h_vt h))]))
  | IDestroy i => (* lines 159-161 *)
    h <- get_h s i ;;
    hp' <- op_del hp (h_vt h) (h_ptr h) ;;
    Ok (mk_ist hp' (upd hs i None))
  end.

Fixpoint irun (s : ist) (ops : list iop) : res ist :=
  match ops with
  | [] => Ok s
  | o :: ops => s' <- istep s o ;; irun s' ops
  end.

Definition ist0 : ist := mk_ist [] [].

(** operator*, lines 163-171: the position read. *)
Definition iread (s : ist) (i : nat) : res Z :=
  h <- get_h s i ;; '(_, pos) <- cell (i_heap s) (h_vt h) (h_ptr h) ;; Ok pos.

(** operator==, lines 191-197; a failed assert is [Throw]. *)
Definition iequal (checked : bool) (s : ist) (i j : nat) : res bool :=
  l <- get_h s i ;;
  r <- get_h s j ;;
  if checked && negb (Nat.eqb (h_vt l) (h_vt r)) then Throw
  else
    '(_, a) <- cell (i_heap s) (h_vt l) (h_ptr l) ;;
    '(_, b) <- cell (i_heap s) (h_vt l) (h_ptr r) ;;
    Ok (a =? b).

(** Objects allocated and not freed. *)
Definition ilive (s : ist) : nat :=
  length (filter (fun c => match c with Some _ => true | None => false end) (i_heap s)).

(** * daw_monadic_pointer_ops.h and daw_observer_ptr.h *)

(** A pointer: null or an address. *)
Definition ptr : Type := option Z.

Section Monadic.
  Context {R : Type}.
  (** A function together with the list of the arguments it has been called with. *)
  Definition call (f : ptr -> R) (p : ptr) : R * list ptr := (f p, [p]).
  (** and_then, daw_monadic_pointer_ops.h lines 19-30; [empty] is R{ }. *)
  Definition and_then (empty : R) (p : ptr) (f : ptr -> R) : R * list ptr :=
    match p with
    | Some _ => call f p
    | None => (empty, [])
    end.
  (** transform, lines 41-44. *)
  Definition transform (p : ptr) (f : ptr -> R) : R * list ptr := call f p.
End Monadic.
(** or_else, lines 32-39: the result and whether the function was called. *)
Definition or_else (p : ptr) (f : unit -> ptr) : ptr * bool :=
  match p with
  | None => (f tt, true)
  | Some _ => (p, false)
  end.

(** observer_ptr, daw_observer_ptr.h: release lines 47-51, reset lines 53-55. *)
Definition obs_release (p : ptr) : ptr * ptr := (p, None).
Definition obs_reset (p q : ptr) : ptr := q.
(** operator*, value and operator->, lines 69-82; assert fails for null. *)
Definition obs_deref {T} (checked : bool) (mem : Z -> T) (p : ptr) : res T :=
  match p with
  | Some a => Ok (mem a)
  | None => if checked then Throw else UB
  end.
(** Addresses are ordered with null as address 0. *)
Definition addr_of (p : ptr) : Z := match p with Some a => a | None => 0 end.
(** operator<=> with a pointer, lines 97-107. *)
Definition obs_cmp (p q : ptr) : comparison :=
  if addr_of p =? addr_of q then Eq else if addr_of p <? addr_of q then Lt else Gt.

(** * References handed out by wrappers *)

(** A reference to an object in memory, or to an object that is gone when the function
    returns. *)
Inductive place := InMemory (a : Z) | Gone.
Definition load {T} (mem : Z -> T) (r : place) : res T :=
  match r with
  | InMemory a => Ok (mem a)
  | Gone => UB
  end.
Definition store {T} (mem : Z -> T) (r : place) (x : T) : res (Z -> T) :=
  match r with
  | InMemory a => Ok (fun b => if b =? a then x else mem b)
  | Gone => UB
  end.

(** rw_ref, daw_rw_ref.h lines 18-62: the address referred to; operator=( reference ), lines
    33-36, and get, the conversions and operator( ), lines 38-61. *)
Definition rw_assign (self target : Z) : Z := target.
Definition rw_get (self : Z) : place := InMemory self.

(** prop_const_ptr, daw_prop_const_ptr.h: the pointer afterwards and the object that the
    reference returned refers to, which holds a pointer.  Prefix increment, lines 77-80:
    the object itself, here at address [this]. *)
Definition pcp_pre_inc (this p : Z) : Z * place := (p + 1, InMemory this).
(** Postfix increment and decrement, lines 82-86 and 93-97: a reference to the local
    [result]. *)
Definition pcp_post_inc (this p : Z) : Z * place := (p + 1, Gone).
Definition pcp_post_dec (this p : Z) : Z * place := (p - 1, Gone).
(** operator+=, -=, + and -, lines 99-119, 129-132. *)
Definition pcp_add (p d : Z) : Z := p + d.
Definition pcp_sub (p d : Z) : Z := p - d.
Definition pcp_diff (p q : Z) : Z := p - q.

(** poly_var, daw_poly_var.h: [a] is the address of the value in the variant.  The constant
    operator*, lines 39-43: the result of the lambda is deduced as Base, a copy.  operator->,
    lines 51-61. *)
Definition pv_star (a : Z) : place := Gone.
Definition pv_arrow (a : Z) : place := InMemory a.
