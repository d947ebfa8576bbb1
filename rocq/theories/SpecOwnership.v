(** What a program sees of variables that each own at most one object, with no heap:
    used in the statements of OwnershipProps.v.  No proofs in this file. *)
From Verif Require Import Common Ownership.

(** [held]: for each variable [None] after its end, [Some None] when it is empty, else
    the value of its object.  [mine]: the objects that belong to the program itself. *)
Record holding (V : Type) := Holding { held : list (option (option V)); mine : list V }.
Arguments Holding {V}. Arguments held {V}. Arguments mine {V}.

Section Spec.
  Context {V : Type}.
  Notation holding := (holding V).
  Definition at_first : holding := Holding [] [].
  Definition lives (h : holding) (i : nat) : bool :=
    match nth_error (held h) i with Some (Some _) => true | _ => false end.
  Definition full (h : holding) (i : nat) : bool :=
    match nth_error (held h) i with Some (Some (Some _)) => true | _ => false end.
  Definition at_var (h : holding) (i : nat) : option (option V) := nth i (held h) None.
  Definition change (h : holding) (i : nat) (x : option (option V)) : holding := Holding (upd (held h) i x) (mine h).
  Definition extend (h : holding) (x : option (option V)) : holding := Holding (held h ++ [x]) (mine h).

  (** [swaps]: move assignment exchanges instead of emptying the right side. *)
  Definition effect (swaps : bool) (h : holding) (o : oop V) : holding :=
    match o with
    | Make v => extend h (Some (Some v))
    | MakeNull => extend h (Some None)
    | Adopt k => Holding (held h ++ [Some (nth_error (mine h) k)]) (firstn k (mine h) ++ skipn (S k) (mine h))
    | MoveNew i => extend (change h i (Some None)) (at_var h i)
    | MoveTo i j =>
        if i =? j then h
        else change (change h i (at_var h j)) j (if swaps then at_var h i else Some None)
    | CopyNew i => extend h (at_var h i)
    | CopyTo i j => change h i (at_var h j)
    | SwapWith i j => change (change h i (at_var h j)) j (at_var h i)
    | Reset i => change h i (Some None)
    | ResetTo i v | Write i v | Assign i v => change h i (Some (Some v))
    | Release i =>
        Holding (upd (held h) i (Some None)) (mine h ++ match at_var h i with Some (Some v) => [v] | _ => [] end)
    | Destroy i => change h i None
    end.
  (** A history, when each of its operations is [allowed] where it happens. *)
  Fixpoint effects (swaps : bool) (allowed : holding -> oop V -> bool) (os : list (oop V)) (h : holding) : option holding :=
    match os with
    | [] => Some h
    | o :: os => if allowed h o then effects swaps allowed os (effect swaps h o) else None
    end.

  (** Only living variables are used, only full ones are written through, only pointers
      that belong to the program are handed over. *)
  Definition proper (h : holding) (o : oop V) : bool :=
    match o with
    | Make _ | MakeNull => true
    | Adopt k => k <? length (mine h)
    | MoveNew i | CopyNew i | Reset i | ResetTo i _ | Release i | Assign i _ | Destroy i => lives h i
    | MoveTo i j | CopyTo i j | SwapWith i j => lives h i && lives h j
    | Write i _ => full h i
    end.
  Definition is_copy (o : oop V) : bool := match o with CopyNew _ | CopyTo _ _ => true | _ => false end.
  Definition is_assign (o : oop V) : bool := match o with Assign _ _ => true | _ => false end.
  Definition is_reset_to (o : oop V) : bool := match o with ResetTo _ _ => true | _ => false end.
  (** daw::unique_ptr: everything its interface has. *)
  Definition unique_ops (h : holding) (o : oop V) : bool := proper h o && negb (is_copy o) && negb (is_assign o).
  (** daw::maybe_unique_ptr, without reset( p ). *)
  Definition maybe_ops (h : holding) (o : oop V) : bool := unique_ops h o && negb (is_reset_to o).
  (** copiable_unique_ptr: everything its interface has. *)
  Definition copiable_ops (h : holding) (o : oop V) : bool := proper h o && negb (is_assign o) && negb (is_reset_to o).
  (** value_ptr, of which only full ones are copied. *)
  Definition value_ops (h : holding) (o : oop V) : bool :=
    proper h o &&
    match o with
    | Adopt _ | CopyTo _ _ | ResetTo _ _ | Release _ => false
    | CopyNew i => full h i
    | _ => true
    end.
  (** heap_value, where one that was moved from is not copied from or assigned to. *)
  Definition heap_ops (h : holding) (o : oop V) : bool :=
    proper h o &&
    match o with
    | MakeNull | Adopt _ | Reset _ | ResetTo _ _ | Release _ | Assign _ _ => false
    | CopyNew i => full h i
    | CopyTo i j => full h i && full h j
    | _ => true
    end.
  (** unique_resource, where reset( ) is called and [MoveTo], [Release] are used ... *)
  Definition resource_ops (h : holding) (o : oop V) : bool :=
    proper h o &&
    match o with
    | CopyNew _ | CopyTo _ _ | SwapWith _ _ | Assign _ _ => false
    | Reset i => negb (full h i)   (* ... only on an empty one *)
    | MoveTo _ j => full h j       (* ... only from a full one *)
    | Release i => full h i        (* ... only of a full one *)
    | _ => true
    end.

  (** The heap agrees: every variable holds, and the program has, an object with that
      value, and each object that has not been deleted has exactly one owner. *)
  Definition pointers {A} (s : st V A) : list (option (option nat)) := map (option_map ptr) (vars s).
  Definition shows (cs : list (option V)) (p : option (option nat)) (x : option (option V)) : Prop :=
    match p, x with
    | None, None => True
    | Some None, Some None => True
    | Some (Some a), Some (Some v) => nth_error cs a = Some (Some v)
    | _, _ => False
    end.
  Definition owned_by (p : option (option nat)) : list nat := match p with Some (Some a) => [a] | _ => [] end.
  Definition exists_at (cs : list (option V)) (a : nat) : bool :=
    match nth_error cs a with Some (Some _) => true | _ => false end.
  Definition owners (ps : list (option (option nat))) (ls : list nat) (a : nat) : nat :=
    count_occ Nat.eq_dec (flat_map owned_by ps ++ ls) a.
  Definition represents {A} (s : st V A) (h : holding) : Prop :=
    Forall2 (shows (cells s)) (pointers s) (held h) /\
    Forall2 (fun a v => nth_error (cells s) a = Some (Some v)) (loose s) (mine h) /\
    (forall a, owners (pointers s) (loose s) a = if exists_at (cells s) a then 1 else 0).
  (** Each deleted object was deleted once. *)
  Definition deleted_once {A} (s : st V A) : Prop :=
    NoDup (map fst (log s)) /\ (forall a, In a (map fst (log s)) <-> nth_error (cells s) a = Some None).
  (** [step] does what it should in every history of [allowed] operations. *)
  Definition owns_properly {A} (step : st V A -> oop V -> res (st V A)) (swaps : bool) (allowed : holding -> oop V -> bool) : Prop :=
    forall os h, effects swaps allowed os at_first = Some h ->
    exists s, run step os start = Ok s /\ represents s h /\ deleted_once s.
End Spec.
(** unique_array: the arrays keep their length. *)
Definition array_ops {T} (h : holding (list T)) (o : oop (list T)) : bool :=
  proper h o &&
  match o with
  | Make _ | MakeNull | MoveNew _ | MoveTo _ _ | Destroy _ => true
  | Write i l => match at_var h i with Some (Some l') => length l =? length l' | _ => false end
  | _ => false
  end.

Definition size_of {T} (ov : option (list T)) : nat := match ov with Some l => length l | None => 0 end.
(** m_size is the length of the array. *)
Definition sized {T} (s : st (list T) nat) (h : holding (list T)) : Prop :=
  Forall2 (fun x y => match x, y with Some o, Some ov => aux o = size_of ov | _, _ => True end) (vars s) (held h).

(** Scope guards that are not moved: what becomes of each handler. *)
Inductive fate := Armed | Cancelled | Run.
Section Guards.
  Context {F : Type}.
  (** For each guard its handler, what became of it, and whether the guard still lives. *)
  Record book := Book { entries : list (F * fate * bool); done_in_order : list F }.
  Definition g_effect (b : book) (o : gop F) : option book :=
    match o with
    | Guard f => Some (Book (entries b ++ [(f, Armed, true)]) (done_in_order b))
    | GMove _ | GAssign _ _ => None
    | Cancel i =>
        match nth_error (entries b) i with
        | Some (f, Armed, true) => Some (Book (upd (entries b) i (f, Cancelled, true)) (done_in_order b))
        | Some (f, _, true) => Some b
        | _ => None
        end
    | RunNow i =>
        match nth_error (entries b) i with
        | Some (f, Armed, true) => Some (Book (upd (entries b) i (f, Run, true)) (done_in_order b ++ [f]))
        | _ => None
        end
    | Leave i =>
        match nth_error (entries b) i with
        | Some (f, Armed, true) => Some (Book (upd (entries b) i (f, Run, false)) (done_in_order b ++ [f]))
        | Some (f, w, true) => Some (Book (upd (entries b) i (f, w, false)) (done_in_order b))
        | _ => None
        end
    end.
  Fixpoint g_effects (os : list (gop F)) (b : book) : option book :=
    match os with
    | [] => Some b
    | o :: os => match g_effect b o with Some b => g_effects os b | None => None end
    end.
  Definition handlers_run (b : book) : list F :=
    flat_map (fun e => match e with (f, Run, _) => [f] | _ => [] end) (entries b).
  Definition left_armed (b : book) : Prop := exists f, In (f, Armed, false) (entries b).
End Guards.
Arguments book : clear implicits.
Arguments Book {F}.

(** union_pair: what it holds. *)
Definition tag_of {V0 V1} (x : either V0 V1) : tags :=
  match x with Nothing => type_nothing | First _ => type_0 | Second _ => type_1 end.
Definition holds {V0 V1} (u : upair V0 V1) (x : either V0 V1) : Prop := stored u = x /\ tag u = tag_of x.
Definition is_first {V0 V1} (x : either V0 V1) : bool := match x with First _ => true | _ => false end.
(** The object that a union_pair holding [x] destroys when it is given another, which it
    does unless it can assign to it. *)
Definition destroyed {V0 V1} (x : either V0 V1) (same : bool) : list (either V0 V1) :=
  match x with Nothing => [] | _ => if same then [] else [x] end.
Definition is_second {V0 V1} (x : either V0 V1) : bool := match x with Second _ => true | _ => false end.

(** sbo_storage without an object. *)
Definition vacant {V} (s : sbo V) : Prop := engaged s = none /\ heap s = None.
