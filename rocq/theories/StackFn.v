(** Model of include/daw/daw_stack_function.h ("fn.h" below): daw::function, which
    keeps a callable in a buffer inside itself, and of include/daw/daw_poly_value.h
    ("pv.h").  No proofs in this file.

    A callable is a state, a flag whether it is an empty one (a null function pointer,
    an empty std::function) and perhaps a resource that its destructor releases.  The
    storage of fn.h is bytes: copying it copies the state and the name of the resource.

    Outcomes: [UB] is the use of a resource that was released or of an object that is
    gone.  [Throw] is a mistake of the using program: a variable is used before or
    after its life.  A call that throws std::bad_function_call is the result [BadCall].

    Simplifications: a callable that was moved from owns no resource; the callable does
    not become empty by being called; calls do not change other variables; the sizes
    are checked at compile time and not modelled; the converting templates between
    functions of different sizes do not compile (they store the abstract base). *)
From Verif Require Import Common.
Open Scope Z_scope.

Record callable := Callable { c_empty : bool; c_state : Z; c_res : option nat }.
(** fn.h:41-114 the buffer: 126-139 an empty_child; 144-200 a function_child that
    holds the callable, or a function_child<F &> that holds a reference to the object
    it was made from (249-255: Func is F & for an lvalue). *)
Inductive content := CEmpty | COwn (c : callable) | CRef (o : nat).
(** The callables of the program, its functions, and which resources are not released. *)
Record fworld := FWorld { objs : list (option callable); funs : list (option content); live : list bool }.

Inductive outcome := Done | Returned (x : Z) | BadCall.

Definition fun_at (w : fworld) (f : nat) : res content :=
  match nth_error (funs w) f with Some (Some c) => Ok c | _ => Throw end.
Definition no_fun (w : fworld) (f : nat) : res unit :=
  match nth_error (funs w) f with Some None => Ok tt | _ => Throw end.
Definition obj_at (w : fworld) (o : nat) : res callable :=
  match nth_error (objs w) o with Some (Some c) => Ok c | _ => Throw end.
Definition set_fun (w : fworld) (f : nat) (c : option content) : fworld := FWorld (objs w) (upd (funs w) f c) (live w).
Definition set_obj (w : fworld) (o : nat) (c : option callable) : fworld := FWorld (upd (objs w) o c) (funs w) (live w).

(** A callable is made, with a new resource if [r]. *)
Definition new_callable (w : fworld) (e : bool) (st : Z) (r : bool) : fworld * callable :=
  if r then (FWorld (objs w) (funs w) (live w ++ [true]), Callable e st (Some (length (live w))))
  else (w, Callable e st None).
(** Its destructor. *)
Definition destroy_callable (w : fworld) (c : callable) : res fworld :=
  match c_res c with
  | None => Ok w
  | Some k =>
      match nth_error (live w) k with
      | Some true => Ok (FWorld (objs w) (funs w) (upd (live w) k false))
      | _ => UB
      end
  end.
(** fn.h:87-89 clean. *)
Definition clean (w : fworld) (c : content) : res fworld :=
  match c with CEmpty | CRef _ => Ok w | COwn c => destroy_callable w c end.
(** fn.h:202-225 store_if_not_empty of a temporary: the callable is moved into the
    storage or, if it is empty, destroyed by the caller. *)
Definition store_temp (w : fworld) (e : bool) (st : Z) (r : bool) : res (fworld * content) :=
  let (w, c) := new_callable w e st r in
  if e then w <- destroy_callable w c ;; Ok (w, CEmpty) else Ok (w, COwn c).
(** The same of an object. *)
Definition store_object (w : fworld) (o : nat) : res content :=
  c <- obj_at w o ;; Ok (if c_empty c then CEmpty else CRef o).

(** The callable a content runs; [UB] if it is a reference to an object that is gone
    (fn.h:184-199 empty( ) already reads it) or its resource was released. *)
Definition usable (w : fworld) (c : callable) : bool :=
  match c_res c with
  | None => true
  | Some k => match nth_error (live w) k with Some b => b | None => false end
  end.
Definition callable_of (w : fworld) (c : content) : res (option callable) :=
  match c with
  | CEmpty => Ok None
  | COwn c => Ok (Some c)
  | CRef o => match nth_error (objs w) o with Some (Some c) => Ok (Some c) | _ => UB end
  end.

Inductive fn_op :=
| NewObject (o : nat) (e : bool) (st : Z) (r : bool)  (* the program makes a callable *)
| SetObject (o : nat) (st : Z)                        (* and changes its state *)
| EndObject (o : nat)                                 (* and destroys it *)
| FromTemp (f : nat) (e : bool) (st : Z) (r : bool)   (* function vf( F{ } ): 283-292 *)
| FromObject (f o : nat)                              (* function vf( vo ): 283-292 *)
| Default (f : nat)                                   (* function vf: 246-247, 258-260 *)
| CopyFn (f g : nat)                                  (* function vf( vg ) or of move( vg ): 49-50 *)
| AssignFn (f g : nat)                                (* vf = vg or move( vg ): 52-68 *)
| AssignTemp (f : nat) (e : bool) (st : Z) (r : bool) (* vf = F{ }: 294-306, 61-68, 45-47 *)
| AssignObject (f o : nat)                            (* vf = vo *)
| DestroyFn (f : nat)                                 (* 45-47 *)
| CallFn (f : nat) (x : Z)                            (* 308-318, 160-170 *)
| CallConst (f : nat) (x : Z).                        (* 320-330, 172-182 *)

Section Calls.
  (** What the callable does: the new state and the result; as a const callable. *)
  Variable act : Z -> Z -> Z * Z.
  Variable look : Z -> Z -> Z.

  (** fn.h:308-318 operator( ). *)
  Definition call_fn (w : fworld) (f : nat) (x : Z) : res (fworld * outcome) :=
    c <- fun_at w f ;;
    k <- callable_of w c ;;
    match k with
    | None => Ok (w, BadCall)
    | Some k =>
        if negb (usable w k) then UB
        else if c_empty k then Ok (w, BadCall)
        else
          let (st, y) := act (c_state k) x in
          let k := Callable (c_empty k) st (c_res k) in
          match c with
          | CRef o => Ok (set_obj w o (Some k), Returned y)
          | _ => Ok (set_fun w f (Some (COwn k)), Returned y)
          end
    end.
  (** fn.h:320-330 operator( ) const; a referenced object is not const through it. *)
  Definition call_const (w : fworld) (f : nat) (x : Z) : res (fworld * outcome) :=
    c <- fun_at w f ;;
    match c with
    | CRef _ => call_fn w f x
    | _ =>
        k <- callable_of w c ;;
        match k with
        | None => Ok (w, BadCall)
        | Some k =>
            if negb (usable w k) then UB
            else if c_empty k then Ok (w, BadCall)
            else Ok (w, Returned (look (c_state k) x))
        end
    end.

  Definition done (r : res fworld) : res (fworld * outcome) := w <- r ;; Ok (w, Done).
  (** fn.h:61-68: clean, then the bytes. *)
  Definition replace (w : fworld) (f : nat) (new : content) : res fworld :=
    old <- fun_at w f ;;
    w <- clean w old ;;
    Ok (set_fun w f (Some new)).

  Definition fn_step (w : fworld) (op : fn_op) : res (fworld * outcome) :=
    match op with
    | NewObject o e st r =>
        match nth_error (objs w) o with
        | Some None => let (w, c) := new_callable w e st r in Ok (set_obj w o (Some c), Done)
        | _ => Throw
        end
    | SetObject o st => c <- obj_at w o ;; Ok (set_obj w o (Some (Callable (c_empty c) st (c_res c))), Done)
    | EndObject o => c <- obj_at w o ;; w <- destroy_callable w c ;; Ok (set_obj w o None, Done)
    | FromTemp f e st r =>
        _ <- no_fun w f ;;
        '(w, c) <- store_temp w e st r ;;
        Ok (set_fun w f (Some c), Done)
    | FromObject f o =>
        _ <- no_fun w f ;;
        c <- store_object w o ;;
        Ok (set_fun w f (Some c), Done)
    | Default f => _ <- no_fun w f ;; Ok (set_fun w f (Some CEmpty), Done)
    | CopyFn f g => _ <- no_fun w f ;; c <- fun_at w g ;; Ok (set_fun w f (Some c), Done)
    | AssignFn f g =>
        c <- fun_at w g ;;
        if (f =? g)%nat then Ok (w, Done) else done (replace w f c)
    | AssignTemp f e st r =>
        _ <- fun_at w f ;;
        '(w, c) <- store_temp w e st r ;;
        w <- replace w f c ;;
        done (clean w c)
    | AssignObject f o =>
        _ <- fun_at w f ;;
        c <- store_object w o ;;
        done (replace w f c)
    | DestroyFn f => c <- fun_at w f ;; w <- clean w c ;; Ok (set_fun w f None, Done)
    | CallFn f x => call_fn w f x
    | CallConst f x => call_const w f x
    end.
  Fixpoint fn_run (w : fworld) (ops : list fn_op) : res (fworld * list outcome) :=
    match ops with
    | [] => Ok (w, [])
    | op :: ops => '(w, y) <- fn_step w op ;; '(w, ys) <- fn_run w ops ;; Ok (w, y :: ys)
    end.
End Calls.
(** [n] objects and [m] functions, none of them alive yet. *)
Definition fn_start (n m : nat) : fworld := FWorld (repeat None n) (repeat None m) [].

(** * poly_value *)
(** pv.h:91-186.  A stored value: its type (a number) and its content; the type decides
    what is left in a value that was moved from ([moved]).  The m_storage of each
    poly_value variable is a pointer to a heap object; [None] in [pvars]: the variable is
    not alive, in [heap]: the object was deleted. *)
Record pval := PVal { p_type : nat; p_value : Z }.
Record pworld := PWorld { pvars : list (option nat); heap : list (option pval) }.

Inductive pv_op :=
| PvMake (i t : nat) (x : Z)        (* 97-110 *)
| PvCopy (i j : nat)                (* 112-113 *)
| PvMove (i j : nat)                (* 122-123 *)
| PvAssign (i j : nat)              (* 115-120 *)
| PvMoveAssign (i j : nat)          (* 125-130 *)
| PvSet (i : nat) (x : Z)           (* a change of the value through operator*: 158-160 *)
| PvGet (i : nat)                   (* 146-156 *)
| PvEnd (i : nat).                  (* 132 *)

Section Poly.
  Variable moved : nat -> Z -> Z.

  Definition pv_ptr (w : pworld) (i : nat) : res nat :=
    match nth_error (pvars w) i with Some (Some k) => Ok k | _ => Throw end.
  Definition pv_free (w : pworld) (i : nat) : res unit :=
    match nth_error (pvars w) i with Some None => Ok tt | _ => Throw end.
  Definition pv_deref (w : pworld) (k : nat) : res pval :=
    match nth_error (heap w) k with Some (Some v) => Ok v | _ => UB end.
  Definition pv_point (w : pworld) (i : nat) (k : option nat) : pworld := PWorld (upd (pvars w) i k) (heap w).
  Definition pv_write (w : pworld) (k : nat) (v : option pval) : pworld := PWorld (pvars w) (upd (heap w) k v).
  (** pv.h:76-82 create. *)
  Definition pv_new (w : pworld) (v : pval) : pworld * nat := (PWorld (pvars w) (heap w ++ [Some v]), length (heap w)).
  Definition pv_delete (w : pworld) (k : nat) : res pworld := _ <- pv_deref w k ;; Ok (pv_write w k None).
  (** pv.h:55-59 copy( ), 61-65 move( ). *)
  Definition store_copy (w : pworld) (k : nat) : res (pworld * nat) := v <- pv_deref w k ;; Ok (pv_new w v).
  Definition store_move (w : pworld) (k : nat) : res (pworld * nat) :=
    v <- pv_deref w k ;;
    Ok (pv_new (pv_write w k (Some (PVal (p_type v) (moved (p_type v) (p_value v))))) v).
  (** unique_ptr: m_storage = …. *)
  Definition pv_reset (w : pworld) (i k : nat) : res pworld :=
    old <- pv_ptr w i ;; pv_delete (pv_point w i (Some k)) old.

  Definition pv_step (w : pworld) (op : pv_op) : res (pworld * option pval) :=
    match op with
    | PvMake i t x =>
        _ <- pv_free w i ;;
        let (w, k) := pv_new w (PVal t x) in Ok (pv_point w i (Some k), None)
    | PvCopy i j =>
        _ <- pv_free w i ;;
        p <- pv_ptr w j ;;
        '(w, k) <- store_copy w p ;;
        Ok (pv_point w i (Some k), None)
    | PvMove i j =>
        _ <- pv_free w i ;;
        p <- pv_ptr w j ;;
        '(w, k) <- store_move w p ;;
        Ok (pv_point w i (Some k), None)
    | PvAssign i j =>
        _ <- pv_ptr w i ;;
        p <- pv_ptr w j ;;
        if (i =? j)%nat then Ok (w, None)
        else '(w, k) <- store_copy w p ;; w <- pv_reset w i k ;; Ok (w, None)
    | PvMoveAssign i j =>
        _ <- pv_ptr w i ;;
        p <- pv_ptr w j ;;
        if (i =? j)%nat then Ok (w, None)
        else '(w, k) <- store_move w p ;; w <- pv_reset w i k ;; Ok (w, None)
    | PvSet i x =>
        p <- pv_ptr w i ;;
        v <- pv_deref w p ;;
        Ok (pv_write w p (Some (PVal (p_type v) x)), None)
    | PvGet i => p <- pv_ptr w i ;; v <- pv_deref w p ;; Ok (w, Some v)
    | PvEnd i =>
        p <- pv_ptr w i ;;
        w <- pv_delete w p ;;
        Ok (pv_point w i None, None)
    end.
  Fixpoint pv_run (w : pworld) (ops : list pv_op) : res (pworld * list (option pval)) :=
    match ops with
    | [] => Ok (w, [])
    | op :: ops => '(w, y) <- pv_step w op ;; '(w, ys) <- pv_run w ops ;; Ok (w, y :: ys)
    end.
End Poly.
Definition pv_start (n : nat) : pworld := PWorld (repeat None n) [].
