(** Vocabulary for the theorems about Vector of deprecated/daw_vector.h. *)
From Verif Require Import Common OldVector.
Open Scope nat_scope.

(** What malloc may be: it provides at least what was asked for. *)
Definition malloc_ok (esize page : nat) (usable : nat -> nat) : Prop :=
  1 <= esize /\ 1 <= page /\ forall n, n <= usable n.

(** The operations as operations on a list; None: the call is not allowed. *)
Definition list_step {T} (dflt : T) (l : list T) (o : vop T) : option (list T) :=
  match o with
  | PushBack x => Some (l ++ [x])
  | PushSelf i => match nth_error l i with Some x => Some (l ++ [x]) | None => None end
  | PopBack => if length l =? 0 then None else Some (removelast l)
  | Clear => Some []
  | Resize n => Some (firstn n l ++ repeat dflt (n - length l))
  | Reserve _ => Some l
  | Insert i vs => if length l <? i then None else Some (firstn i l ++ vs ++ skipn i l)
  | Write i x => if i <? length l then Some (upd l i x) else None
  end.

(** The operations for which Vector keeps its promise, in the state with content [l]:
    no reference to an own element; raw memory is assigned to only when the type allows it;
    and insertion only where it works. *)
Definition harmless {T} (trivial : bool) (l : list T) (o : vop T) : bool :=
  match o with
  | PushSelf _ => false
  | Resize n => trivial || (n <=? length l)
  | Insert i vs =>
      (length vs =? 0) ||
      (trivial && ((i =? length l) || ((length vs <=? i) && (i <=? 2 * length vs))))
  | _ => true
  end.
Fixpoint list_run {T} (trivial : bool) (dflt : T) (os : list (vop T)) (l : list T) : option (list T) :=
  match os with
  | [] => Some l
  | o :: os =>
      if harmless trivial l o
      then match list_step dflt l o with Some l => list_run trivial dflt os l | None => None end
      else None
  end.

(** The Vector has these elements, in this order. *)
Definition holds {T} (h : memory T) (v : vec) (l : list T) : Prop :=
  len v = length l /\ forall i x, nth_error l i = Some x -> v_get h v i = Ok x.
(** Block [a] is allocated. *)
Definition live {T} (h : memory T) (a : nat) : Prop := exists b, nth_error h a = Some (Some b).
(** Compared with [h0], the only blocks allocated are those that [mine] says. *)
Definition only_new {T} (h0 h : memory T) (mine : nat -> Prop) : Prop :=
  (forall a, a < length h0 -> nth_error h a = nth_error h0 a) /\
  (forall a, length h0 <= a -> live h a <-> mine a).
(** No two elements with the same index are equal. *)
Definition apart {T} (eqb : T -> T -> bool) (l m : list T) : Prop :=
  forall i x y, nth_error l i = Some x -> nth_error m i = Some y -> eqb x y = false.
(** Moving a trivially copyable object copies it. *)
Definition moves_ok {T} (trivial : bool) (moved : T -> T) : Prop := trivial = true -> forall x, moved x = x.
