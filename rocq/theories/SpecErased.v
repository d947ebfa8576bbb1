(** What the theorems on type-erased iterators and pointer wrappers are stated with. *)
From Verif Require Import Common Erased.
Open Scope Z_scope.

(** An InputIterator as its user sees it: destroyed, moved from, or an iterator of some type at
    some position. *)
Inductive aval := Dead | Moved | At (ty : nat) (pos : Z).

(** The state the user sees and the number of iterators overwritten by a move assignment. *)
Definition ast : Type := (list aval * nat)%type.

Definition val (a : list aval) (i : nat) : aval := nth i a Dead.

(** The effect of the operations as independent values.  [None]: the operation is not
    allowed, because it uses a destroyed or moved-from iterator, or because it
    copy-assigns an iterator of another type. *)
Definition spec_step (s : ast) (o : iop) : option ast :=
  let '(a, lost) := s in
  match o with
  | IMake ty pos => Some (a ++ [At ty pos], lost)
  | ICopy i => match val a i with
               | At ty pos => Some (a ++ [At ty pos], lost)
               | _ => None
               end
  | IMove i => match val a i with
               | Dead => None
               | v => Some (upd a i Moved ++ [v], lost)
               end
  | ICopyAssign d i =>
    match val a d, val a i with
    | Dead, _ => None
    | _, Dead => None
    | At ty' _, At ty pos =>
      if Nat.eqb d i then Some (a, lost)
      else if Nat.eqb ty' ty then Some (upd a d (At ty pos), lost) else None
    | Moved, At ty pos => Some (upd a d (At ty pos), lost)
    | _, Moved => if Nat.eqb d i then Some (a, lost) else None
    end
  | IMoveAssign d i =>
    match val a d, val a i with
    | Dead, _ => None
    | _, Dead => None
    | At _ _, v => if Nat.eqb d i then Some (a, lost)
                   else Some (upd (upd a d v) i Moved, Datatypes.S lost)
    | Moved, v => if Nat.eqb d i then Some (a, lost)
                  else Some (upd (upd a d v) i Moved, lost)
    end
  | IInc i => match val a i with
              | At ty pos => Some (upd a i (At ty (pos + 1)), lost)
              | _ => None
              end
  | IPostInc i => match val a i with
                  | At ty pos => Some (upd a i (At ty (pos + 1)) ++ [At ty pos], lost)
                  | _ => None
                  end
  | IDestroy i => match val a i with
                  | Dead => None
                  | _ => Some (upd a i Dead, lost)
                  end
  end.

Fixpoint spec_run (s : ast) (ops : list iop) : option ast :=
  match ops with
  | [] => Some s
  | o :: ops => match spec_step s o with
                | Some s' => spec_run s' ops
                | None => None
                end
  end.

(** The number of iterators that stand somewhere. *)
Definition engaged (a : list aval) : nat :=
  length (filter (fun v => match v with At _ _ => true | _ => false end) a).
