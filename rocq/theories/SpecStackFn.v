(** Vocabulary for daw_stack_function.h and daw_poly_value.h. *)
From Verif Require Import Common StackFn.
Open Scope Z_scope.

(** * daw::function as a value *)
(** Functions that own plain data: [None] is a variable that is not alive, [Some None]
    an empty function, [Some (Some st)] one with a callable in state [st]. *)
Definition fvalues := list (option (option Z)).
(** Statements whose callables are temporaries without resources. *)
Definition plain (op : fn_op) : Prop :=
  match op with
  | FromTemp _ _ _ r | AssignTemp _ _ _ r => r = false
  | Default _ | CopyFn _ _ | AssignFn _ _ | DestroyFn _ | CallFn _ _ | CallConst _ _ => True
  | NewObject _ _ _ _ | SetObject _ _ | EndObject _ | FromObject _ _ | AssignObject _ _ => False
  end.
(** What they mean; [None]: the program uses a variable that is not alive, or makes one
    that is. *)
Section Values.
  Variable act : Z -> Z -> Z * Z.
  Variable look : Z -> Z -> Z.
  Definition of_temp (e : bool) (st : Z) : option Z := if e then None else Some st.
  Definition value_step (v : fvalues) (op : fn_op) : option (fvalues * outcome) :=
    match op with
    | FromTemp f e st _ =>
        match nth_error v f with Some None => Some (upd v f (Some (of_temp e st)), Done) | _ => None end
    | Default f => match nth_error v f with Some None => Some (upd v f (Some None), Done) | _ => None end
    | CopyFn f g =>
        match nth_error v f, nth_error v g with Some None, Some (Some c) => Some (upd v f (Some c), Done) | _, _ => None end
    | AssignFn f g =>
        match nth_error v f, nth_error v g with Some (Some _), Some (Some c) => Some (upd v f (Some c), Done) | _, _ => None end
    | AssignTemp f e st _ =>
        match nth_error v f with Some (Some _) => Some (upd v f (Some (of_temp e st)), Done) | _ => None end
    | DestroyFn f => match nth_error v f with Some (Some _) => Some (upd v f None, Done) | _ => None end
    | CallFn f x =>
        match nth_error v f with
        | Some (Some (Some st)) => Some (upd v f (Some (Some (fst (act st x)))), Returned (snd (act st x)))
        | Some (Some None) => Some (v, BadCall)
        | _ => None
        end
    | CallConst f x =>
        match nth_error v f with
        | Some (Some (Some st)) => Some (v, Returned (look st x))
        | Some (Some None) => Some (v, BadCall)
        | _ => None
        end
    | _ => None
    end.
  Fixpoint value_run (v : fvalues) (ops : list fn_op) : option (fvalues * list outcome) :=
    match ops with
    | [] => Some (v, [])
    | op :: ops =>
        match value_step v op with
        | Some (v, y) => match value_run v ops with Some (v, ys) => Some (v, y :: ys) | None => None end
        | None => None
        end
    end.
End Values.
(** What a function variable shows: its callable's state. *)
Definition shown (c : option content) : option (option Z) :=
  match c with
  | None => None
  | Some CEmpty => Some None
  | Some (COwn c) => Some (Some (c_state c))
  | Some (CRef _) => None
  end.

(** * Resources *)
(** Statements that do not copy the bytes of a callable with a resource in state [w],
    and do not refer to objects. *)
Definition holds (c : option content) (k : nat) : Prop := exists x, c = Some (COwn x) /\ c_res x = Some k.
Definition no_resource (w : fworld) (f : nat) : Prop := forall c k, nth_error (funs w) f = Some c -> ~ holds c k.
Definition careful (w : fworld) (op : fn_op) : Prop :=
  match op with
  | CopyFn _ g => no_resource w g
  | AssignFn f g => f = g \/ no_resource w g
  | AssignTemp _ e _ r => e = true \/ r = false
  | FromObject _ _ | AssignObject _ _ => False
  | _ => True
  end.
Section Careful.
  Variable act : Z -> Z -> Z * Z.
  Variable look : Z -> Z -> Z.
  Fixpoint careful_run (w : fworld) (ops : list fn_op) : Prop :=
    match ops with
    | [] => True
    | op :: ops => careful w op /\ forall w' y, fn_step act look w op = Ok (w', y) -> careful_run w' ops
    end.
End Careful.
(** Resource [k] is not released; a callable that is alive has it. *)
Definition is_live (w : fworld) (k : nat) : Prop := nth_error (live w) k = Some true.
Definition in_use (w : fworld) (k : nat) : Prop :=
  (exists f c, nth_error (funs w) f = Some c /\ holds c k) \/
  (exists o c, nth_error (objs w) o = Some (Some c) /\ c_res c = Some k).

(** * poly_value as a value *)
Section PolyValues.
  Variable moved : nat -> Z -> Z.
  Definition pv_left (v : pval) : pval := PVal (p_type v) (moved (p_type v) (p_value v)).
  Definition poly_step (s : list (option pval)) (op : pv_op) : option (list (option pval) * option pval) :=
    match op with
    | PvMake i t x => match nth_error s i with Some None => Some (upd s i (Some (PVal t x)), None) | _ => None end
    | PvCopy i j =>
        match nth_error s i, nth_error s j with Some None, Some (Some v) => Some (upd s i (Some v), None) | _, _ => None end
    | PvMove i j =>
        match nth_error s i, nth_error s j with
        | Some None, Some (Some v) => Some (upd (upd s j (Some (pv_left v))) i (Some v), None)
        | _, _ => None
        end
    | PvAssign i j =>
        match nth_error s i, nth_error s j with Some (Some _), Some (Some v) => Some (upd s i (Some v), None) | _, _ => None end
    | PvMoveAssign i j =>
        match nth_error s i, nth_error s j with
        | Some (Some _), Some (Some v) =>
            Some (if (i =? j)%nat then s else upd (upd s j (Some (pv_left v))) i (Some v), None)
        | _, _ => None
        end
    | PvSet i x => match nth_error s i with Some (Some v) => Some (upd s i (Some (PVal (p_type v) x)), None) | _ => None end
    | PvGet i => match nth_error s i with Some (Some v) => Some (s, Some v) | _ => None end
    | PvEnd i => match nth_error s i with Some (Some _) => Some (upd s i None, None) | _ => None end
    end.
  Fixpoint poly_run (s : list (option pval)) (ops : list pv_op) : option (list (option pval) * list (option pval)) :=
    match ops with
    | [] => Some (s, [])
    | op :: ops =>
        match poly_step s op with
        | Some (s, y) => match poly_run s ops with Some (s, ys) => Some (s, y :: ys) | None => None end
        | None => None
        end
    end.
End PolyValues.
(** What each variable points to, and the number of heap objects that are not deleted. *)
Definition pv_shown (w : pworld) : list (option pval) :=
  map (fun p => match p with Some k => match nth_error (heap w) k with Some v => v | None => None end | None => None end) (pvars w).
Definition count_some {A} (l : list (option A)) : nat := length (filter (fun o => match o with Some _ => true | None => false end) l).
