(** Model of daw_function_ref.h, daw_function_view.h and daw_not_null.h.

    Objects live at addresses (natural numbers), which are names: an address is not used
    again after the object there was destroyed.  A callable object has a class and a state;
    calls are const and give a value.  No proofs in this file. *)
From Verif Require Import Common.
Open Scope Z_scope.

(** * function_ref and function_view *)

(** What the storage of a view holds: a function pointer (null or not), the address of an
    object, or, in function_view, nothing but the class of an empty object. *)
Inductive target := TFun (f : option nat) | TObj (a : nat) | TEmpty (c : nat).
Inductive object :=
| Unborn
| Dead
| Callable (c : nat) (state : Z)
| FRef (t : target)
| FView (t : target).
Definition memory := nat -> object.
Definition set (m : memory) (a : nat) (o : object) : memory := fun b => if (b =? a)%nat then o else m b.

Section Calls.
  (** The result of a function, and of a call of an object of a class with a state. *)
  Variable function : nat -> Z -> Z.
  Variable method : nat -> Z -> Z -> Z.
  (** The classes without members that are default constructible. *)
  Variable stateless : nat -> bool.

  (** operator( ): daw_function_ref.h lines 55-60, 98-103 (122-127, 164-170 for void),
      daw_function_view.h lines 39-61, 112-115 (78-98, 126-129).  [fuel] bounds the depth of the calls. *)
  Fixpoint call (fuel : nat) (m : memory) (a : nat) (x : Z) : res Z :=
    match fuel with
    | O => OutOfFuel
    | S fuel =>
        match m a with
        | Unborn | Dead => UB
        | Callable c s => Ok (method c s x)
        | FRef t | FView t =>
            match t with
            | TFun None => UB
            | TFun (Some f) => Ok (function f x)
            | TEmpty c => Ok (method c 0 x)
            | TObj b => call fuel m b x
            end
        end
    end.

  (** The storage of function_ref( Func const & ), daw_function_ref.h lines 67-83; the
      implicit copy constructor and assignment are preferred for a function_ref. *)
  Definition ref_target (m : memory) (src : nat) : res target :=
    match m src with
    | Unborn | Dead => UB
    | FRef t => Ok t
    | Callable _ _ | FView _ => Ok (TObj src)
    end.
  (** The storage of function_view( Func && ), daw_function_view.h lines 39-61, 107-110:
      from an lvalue that is not const, the template is preferred to the copy constructor
      also for a function_view; from const lvalues and from rvalues the copy or move
      constructor is. *)
  Definition view_target (m : memory) (src : nat) (const_or_rvalue : bool) : res target :=
    match m src with
    | Unborn | Dead => UB
    | FView t => if const_or_rvalue then Ok t else Ok (TObj src)
    | FRef _ => Ok (TObj src)
    | Callable c _ => if stateless c then Ok (TEmpty c) else Ok (TObj src)
    end.

  Inductive action :=
  | Create (a c : nat) (s : Z)                 (* a callable object *)
  | Change (a : nat) (s : Z)                   (* its state *)
  | Destroy (a : nat)
  | RefFun (a : nat) (f : option nat)          (* function_ref from a function pointer *)
  | RefOf (a src : nat)                        (* function_ref from an object: constructor or = *)
  | ViewFun (a : nat) (f : option nat)         (* function_view from a function pointer *)
  | ViewOf (a src : nat) (const_or_rvalue : bool)  (* function_view a( src ) *)
  | ViewAssign (a src : nat).                  (* a = src of function_views: implicit assignment *)

  (** May a function_ref, or a function_view, be made at or assigned to the address? *)
  Definition ref_place (o : object) : bool := match o with Unborn | FRef _ => true | _ => false end.
  Definition view_place (o : object) : bool := match o with Unborn | FView _ => true | _ => false end.

  Definition act (m : memory) (x : action) : res memory :=
    match x with
    | Create a c s => match m a with Unborn => Ok (set m a (Callable c s)) | _ => UB end
    | Change a s => match m a with Callable c _ => Ok (set m a (Callable c s)) | _ => UB end
    | Destroy a => match m a with Unborn | Dead => UB | _ => Ok (set m a Dead) end
    | RefFun a f => if ref_place (m a) then Ok (set m a (FRef (TFun f))) else UB
    | RefOf a src => if ref_place (m a) then t <- ref_target m src ;; Ok (set m a (FRef t)) else UB
    | ViewFun a f => if view_place (m a) then Ok (set m a (FView (TFun f))) else UB
    | ViewOf a src k => if view_place (m a) then t <- view_target m src k ;; Ok (set m a (FView t)) else UB
    | ViewAssign a src => match m a, m src with FView _, FView t => Ok (set m a (FView t)) | _, _ => UB end
    end.
  Fixpoint acts (m : memory) (l : list action) : res memory :=
    match l with [] => Ok m | x :: l => m <- act m x ;; acts m l end.
End Calls.

(** * not_null *)
Section NotNull.
  (** Pointers are addresses; 0 is null.  [moves] : is Pointer a class whose move leaves null
      in the source (shared_ptr)?  Raw pointers are copied.  [same_array p q]: does the
      result q of arithmetic on p stay in the array of p (otherwise it is undefined)? *)
  Variable moves : bool.
  Variable same_array : Z -> Z -> bool.
  (** daw_assume.h: undefined behaviour if the condition is false. *)
  Definition assume_not_null (p : Z) : res unit := if p =? 0 then UB else Ok tt.
  Definition checked (p : Z) : res Z := if p =? 0 then Throw else Ok p.   (* std::terminate *)

  Inductive nn_action :=
  | NnNew (p : Z)               (* not_null( ptr ), daw_not_null.h lines 130-136 (94-101) *)
  | NnNever (p : Z)             (* not_null( never_null, ptr ), lines 148-151 *)
  | NnAssign (i : nat) (p : Z)  (* = ptr, lines 138-146 (119-128) *)
  | NnCopy (i : nat)            (* implicit copy construction of a new object *)
  | NnMove (i : nat)            (* implicit move construction of a new object *)
  | NnAdd (i : nat) (n : Z)     (* ++, --, +=, -=, lines 206-262, in elements *)
  | NnPost (i : nat) (n : Z).   (* postfix ++ and --, lines 222-237: the old value is a new object *)
  Definition nn_act (l : list Z) (x : nn_action) : res (list Z) :=
    match x with
    | NnNew p => p <- checked p ;; Ok (l ++ [p])
    | NnNever p => _ <- assume_not_null p ;; Ok (l ++ [p])
    | NnAssign i p => p <- checked p ;; wr l i p
    | NnCopy i => p <- rd l i ;; Ok (l ++ [p])
    | NnMove i => p <- rd l i ;; l <- (if moves then wr l i 0 else Ok l) ;; Ok (l ++ [p])
    | NnAdd i n => p <- rd l i ;; _ <- assume_not_null p ;;
                   if same_array p (p + n) then wr l i (p + n) else UB
    | NnPost i n => p <- rd l i ;; _ <- assume_not_null p ;;
                    if same_array p (p + n) then l <- wr l i (p + n) ;; Ok (l ++ [p]) else UB
    end.
  Fixpoint nn_acts (l : list Z) (xs : list nn_action) : res (list Z) :=
    match xs with [] => Ok l | x :: xs => l <- nn_act l x ;; nn_acts l xs end.
  (** get, operator*, operator->, lines 153-198. *)
  Definition nn_get (l : list Z) (i : nat) : res Z := p <- rd l i ;; _ <- assume_not_null p ;; Ok p.
  (** operator-( not_null ), ==, <, lines 272-278, 317-322, 355-360. *)
  Definition nn_sub (l : list Z) (i j : nat) : res Z := p <- nn_get l i ;; q <- nn_get l j ;; Ok (p - q).
  Definition nn_eq (l : list Z) (i j : nat) : res bool := p <- nn_get l i ;; q <- nn_get l j ;; Ok (p =? q).
  Definition nn_lt (l : list Z) (i j : nat) : res bool := p <- nn_get l i ;; q <- nn_get l j ;; Ok (p <? q).
End NotNull.
