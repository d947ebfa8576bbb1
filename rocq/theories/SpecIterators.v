(** Vocabulary for the statements about the iterators (IteratorsProps.v). *)
From Verif Require Import Common Ints Iterators.
Open Scope Z_scope.

(** [op] applied [n] times, each time to the last result. *)
Fixpoint times {S} (n : nat) (op : S -> res S) (s : S) : res S :=
  match n with
  | O => Ok s
  | S n => s <- op s ;; times n op s
  end.

(** Steps forward (true) and back (false), as a number. *)
Fixpoint net (ops : list bool) : Z :=
  match ops with
  | [] => 0
  | b :: ops => (if b then 1 else -1) + net ops
  end.
(** The same steps, made with [inc] and [dec]. *)
Fixpoint steps {S} (inc dec : S -> res S) (ops : list bool) (s : S) : res S :=
  match ops with
  | [] => Ok s
  | b :: ops => s <- (if b then inc s else dec s) ;; steps inc dec ops s
  end.

(** start, start + step, ..., n values. *)
Definition arith (start step : Z) (n : nat) : list Z :=
  map (fun i => start + step * Z.of_nat i) (seq 0 n).

(** The index of the first predicate that holds for [x]. *)
Fixpoint which {A} (preds : list (A -> bool)) (x : A) : option nat :=
  match preds with
  | [] => None
  | p :: preds => if p x then Some 0%nat else option_map S (which preds x)
  end.
(** The elements for which one of the predicates holds, each with that index. *)
Fixpoint matches {A} (preds : list (A -> bool)) (l : list A) : list (A * Z) :=
  match l with
  | [] => []
  | x :: l => match which preds x with
              | Some i => (x, Z.of_nat i) :: matches preds l
              | None => matches preds l
              end
  end.

(** Type-erased iterators as plain values: destroyed, moved from, or holding a value
    [v] of the erased type [t]. *)
Inductive slot (V : Type) := Gone | Emptied | Holds (t : nat) (v : V).
Arguments Gone {V}. Arguments Emptied {V}. Arguments Holds {V} t v.
Definition held {V} (ss : list (slot V)) : nat :=
  length (filter (fun s => match s with Holds _ _ => true | _ => false end) ss).
(** The allocated heap cells. *)
Definition allocated {V} (cs : list (option (nat * V))) : nat :=
  length (filter (fun c => match c with Some _ => true | None => false end) cs).

Definition slot_at {V} (ss : list (slot V)) (i : nat) : slot V := nth i ss Gone.
(** What an operation does to the values; None when it uses an object that is gone or
    reads one that was moved from. *)
Definition ispec {V} (nxt : nat -> V -> V) (o : @iop V) (ss : list (slot V)) : option (list (slot V)) :=
  match o with
  | IMake t v => Some (ss ++ [Holds t v])
  | ICopy j => match slot_at ss j with Holds t v => Some (ss ++ [Holds t v]) | _ => None end
  | IMove j => match slot_at ss j with Gone => None | s => Some (upd ss j Emptied ++ [s]) end
  | ICopyAssign i j =>
      match slot_at ss i with
      | Gone => None
      | _ => if (i =? j)%nat then Some ss
             else match slot_at ss j with Holds t v => Some (upd ss i (Holds t v)) | _ => None end
      end
  | IMoveAssign i j =>
      match slot_at ss i with
      | Gone => None
      | _ => if (i =? j)%nat then Some ss
             else match slot_at ss j with Gone => None | s => Some (upd (upd ss j Emptied) i s) end
      end
  | IInc i => match slot_at ss i with Holds t v => Some (upd ss i (Holds t (nxt t v))) | _ => None end
  | IDestroy i => match slot_at ss i with Gone => None | _ => Some (upd ss i Gone) end
  end.
(** Copy assignment replaces a value of the same type only, and move assignment goes to
    moved-from objects only. *)
Definition same_kind {V} (o : @iop V) (ss : list (slot V)) : bool :=
  match o with
  | ICopyAssign i j =>
      match slot_at ss i, slot_at ss j with Holds t _, Holds u _ => (t =? u)%nat | _, _ => true end
  | IMoveAssign i j => (i =? j)%nat || match slot_at ss i with Holds _ _ => false | _ => true end
  | _ => true
  end.
Fixpoint same_kind_run {V} (nxt : nat -> V -> V) (os : list (@iop V)) (ss : list (slot V)) : option (list (slot V)) :=
  match os with
  | [] => Some ss
  | o :: os => if same_kind o ss
               then match ispec nxt o ss with Some ss => same_kind_run nxt os ss | None => None end
               else None
  end.
(** The same history in the code. *)
Fixpoint irun {V} (nxt : nat -> V -> V) (os : list (@iop V)) (w : istate) : res (@istate V) :=
  match os with
  | [] => Ok w
  | o :: os => w <- istep nxt o w ;; irun nxt os w
  end.
(** What *i reads. *)
Definition reads {V} (w : @istate V) (i : nat) : slot V :=
  match nth_error (objs w) i with
  | Some (Some o) =>
      match m_iterator o with
      | None => Emptied
      | Some c => match cell_of w (m_vtable o) c with Ok v => Holds (m_vtable o) v | _ => Gone end
      end
  | _ => Gone
  end.
