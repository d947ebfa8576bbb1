(** Vocabulary for the properties of SmallClasses.v. No proofs in this file. *)
From Verif Require Import Common OldRange SmallClasses.
Open Scope Z_scope.

(** * CFile *)
Definition alive (s : cst) (i : nat) : Prop := exists p, nth_error (c_objs s) i = Some (Some p).
(** Object i holds file f. *)
Definition owns (s : cst) (i f : nat) : Prop := nth_error (c_objs s) i = Some (Some (Some f)).
Definition is_open (s : cst) (f : nat) : Prop := nth_error (c_files s) f = Some true.
Definition unowned (s : cst) (f : nat) : Prop := forall i, ~ owns s i f.
(** What a client may do: use objects that exist, hand over only open files that no object
    holds, and close such files itself. *)
Definition may_hand_over (s : cst) (f : option nat) : Prop :=
  match f with None => True | Some f => is_open s f /\ unowned s f end.
Definition allowed (s : cst) (o : cop) : Prop :=
  match o with
  | COpen => True
  | CClient f => is_open s f /\ unowned s f
  | CMake f => may_hand_over s f
  | CMoveAssign d i => alive s d /\ alive s i
  | CReset i f => alive s i /\ may_hand_over s f
  | CMove i | CRelease i | CReset0 i | CClose i | CDestroy i => alive s i
  end.
Inductive reachable : cst -> Prop :=
| reach_start : reachable cst0
| reach_step : forall s o s', reachable s -> allowed s o -> cstep s o = Ok s' -> reachable s'.
(** The operations that end what object i holds. *)
Definition closes_what (o : cop) (i : nat) : Prop :=
  o = CClose i \/ o = CReset0 i \/ o = CDestroy i \/ exists f, o = CReset i f.

(** * zip_container *)
(** The variables cs hold the lists ls. *)
Definition held (st : store) (cs : list nat) (ls : list (list Z)) : Prop :=
  Forall2 (fun c l => nth_error st c = Some (true, l)) cs ls.
(** Row k: the element at k of every list. *)
Definition row (ls : list (list Z)) (k : nat) : list Z := map (fun l => nth k l 0) ls.

(** * Iterators: what pointers do *)
(** The position that the operation refers to. *)
Definition target (p : Z) (o : itop) : Z :=
  match o with
  | OpInc | OpPostInc => p + 1
  | OpDec | OpPostDec => p - 1
  | OpAddAssign n | OpPlus n => p + n
  | OpSubAssign n | OpMinus n => p - n
  end.
(** Where the iterator is afterwards. *)
Definition after (p : Z) (o : itop) : Z :=
  match o with OpPlus _ | OpMinus _ => p | _ => target p o end.
(** The value of the expression. *)
Definition value_of (p : Z) (o : itop) : result_it :=
  match o with
  | OpInc | OpDec | OpAddAssign _ | OpSubAssign _ => Self
  | OpPostInc | OpPostDec => NewIt p
  | OpPlus _ | OpMinus _ => NewIt (target p o)
  end.
Definition inside (len p : Z) (o : itop) : Prop := 0 <= target p o <= len.

(** * Checks: r is the value v when the condition holds; otherwise exception e, or the end
    of the program if there are no exceptions. *)
Definition is_check {A} (exceptions : bool) (e : nat) (ok : bool) (v : A) (r : outcome A) : Prop :=
  (ok = true -> r = Returned v) /\
  (ok = false -> exceptions = true -> r = Thrown e) /\
  (ok = false -> exceptions = false -> r = Aborted).
