(** What C334-C337 talk about. *)
From Verif Require Import Common CStrings.

(** * C strings *)
(** The characters before the first NUL. *)
Fixpoint text (l : list Z) : list Z :=
  match l with
  | [] => []
  | ch :: l => if (ch =? 0)%Z then [] else ch :: text l
  end.
Definition terminated (l : list Z) : Prop := In 0%Z l.
(** Live memory in which every buffer has a NUL. *)
Definition strings (m : list buf) : Prop := Forall (fun b => b_live b = true /\ terminated (b_chars b)) m.
(** The text of the buffer that a pointer points to. *)
Definition pointee (m : list buf) (p : option nat) : list Z :=
  match p with
  | Some a => match nth_error m a with Some b => text (b_chars b) | None => [] end
  | None => []
  end.
(** The variables [vs] are pointers [xs]; a variable without an object is [None]. *)
Definition view_of (m : list buf) (v : option cstr) (x : option (option nat)) : Prop :=
  match v, x with
  | None, None => True
  | Some s, Some p => c_data s = p /\ c_size s = length (pointee m p) /\ (c_local s = true -> p = None) /\
                      (forall a, p = Some a -> a < length m)
  | _, _ => False
  end.
Definition views (m : list buf) (vs : list (option cstr)) (xs : list (option (option nat))) : Prop :=
  Forall2 (view_of m) vs xs.
(** A program with pointers: construction, assignment and swap. *)
Definition n_step (size : nat) (xs : list (option (option nat))) (o : cop) : option (list (option (option nat))) :=
  let get x := match nth_error xs x with Some (Some p) => Some p | _ => None end in
  let free x := match nth_error xs x with Some None => true | _ => false end in
  match o with
  | COf x a => if free x && (a <? size) then Some (upd xs x (Some (Some a))) else None
  | CDefault x => if free x then Some (upd xs x (Some None)) else None
  | CMoveTo x y => match get y with Some p => if free x then Some (upd xs x (Some p)) else None | None => None end
  | CAssign x y => match get x, get y with Some _, Some p => Some (upd xs x (Some p)) | _, _ => None end
  | CSwap x y => match get x, get y with
                 | Some p, Some q => Some (upd (upd xs x (Some q)) y (Some p))
                 | _, _ => None
                 end
  | CNullify x => match get x with Some _ => Some (upd xs x (Some None)) | None => None end
  | CDestroy x => match get x with Some _ => Some (upd xs x None) | None => None end
  | COwn _ => None
  end.
Fixpoint n_run (size : nat) (xs : list (option (option nat))) (os : list cop) : option (list (option (option nat))) :=
  match os with
  | [] => Some xs
  | o :: os => match n_step size xs o with Some xs => n_run size xs os | None => None end
  end.
Definition borrowing (o : cop) : Prop := match o with COwn _ => False | _ => True end.

(** * Ownership *)
(** Every buffer is referred to by at most one object, and is live memory of new[]. *)
Definition exclusive (m : list buf) (vs : list (option cstr)) : Prop :=
  (forall x y s t a, nth_error vs x = Some (Some s) -> nth_error vs y = Some (Some t) ->
    c_data s = Some a -> c_data t = Some a -> x = y) /\
  (forall x s a, nth_error vs x = Some (Some s) -> c_data s = Some a ->
    exists b, nth_error m a = Some b /\ b_live b = true /\ b_heap b = true).
(** The operations after which this is still so. *)
Definition moves_nothing (o : cop) : Prop :=
  match o with CSwap _ _ | CNullify _ | COwn _ | CDestroy _ | CDefault _ => True | _ => False end.
(** What an object points to, and whether it owns it. *)
Definition holds (v : option cstr) : option (option nat * bool) :=
  match v with Some s => Some (c_data s, c_local s) | None => None end.
(** A program with owners: destroying an owner frees what it points to.  The second result is what
    was freed, in order. *)
Definition o_step (xs : list (option (option nat * bool))) (o : cop) :
    option (list (option (option nat * bool)) * list nat) :=
  let get x := match nth_error xs x with Some (Some h) => Some h | _ => None end in
  match o with
  | CSwap x y => match get x, get y with
                 | Some g, Some h => Some (upd (upd xs x (Some h)) y (Some g), [])
                 | _, _ => None
                 end
  | CNullify x => match get x with Some _ => Some (upd xs x (Some (None, false)), []) | None => None end
  | COwn x => match get x with Some (p, _) => Some (upd xs x (Some (p, true)), []) | None => None end
  | CDestroy x => match get x with
                  | Some (Some a, true) => Some (upd xs x None, [a])
                  | Some _ => Some (upd xs x None, [])
                  | None => None
                  end
  | CDefault x => match nth_error xs x with Some None => Some (upd xs x (Some (None, true)), []) | _ => None end
  | _ => None
  end.
Fixpoint o_run (xs : list (option (option nat * bool))) (os : list cop) :
    option (list (option (option nat * bool)) * list nat) :=
  match os with
  | [] => Some (xs, [])
  | o :: os => match o_step xs o with
               | Some (xs, freed) =>
                   match o_run xs os with Some (xs, freed') => Some (xs, freed ++ freed') | None => None end
               | None => None
               end
  end.
Definition dead (b : buf) : buf := Buf (b_chars b) (b_heap b) false.
(** [m2] is [m1] after the buffers in [freed] were deleted. *)
Definition after_freeing (freed : list nat) (m1 m2 : list buf) : Prop :=
  length m2 = length m1 /\
  (forall a b, nth_error m1 a = Some b -> In a freed -> b_live b = true /\ nth_error m2 a = Some (dead b)) /\
  (forall a, ~ In a freed -> nth_error m2 a = nth_error m1 a).
(** The pointers of all objects. *)
Definition pointers (vs : list (option cstr)) : list nat :=
  flat_map (fun v => match v with Some s => match c_data s with Some a => [a] | None => [] end | None => [] end) vs.
Definition owns (v : option cstr) : Prop := exists a n, v = Some (CStr (Some a) n true).

(** * Order of texts: by the first difference, a text before its continuations. *)
Inductive before : list Z -> list Z -> Prop :=
| before_end : forall y t, before [] (y :: t)
| before_here : forall x y s t, (x < y)%Z -> before (x :: s) (y :: t)
| before_later : forall x s t, before s t -> before (x :: s) (x :: t).
(** What an operator says about two texts. *)
Definition says (o : cmp) (s t : list Z) : Prop :=
  match o with
  | CEq => s = t | CNe => s <> t | CLt => before s t | CGt => before t s
  | CLe => before s t \/ s = t | CGe => before t s \/ s = t
  end.
Definition bytes (l : list Z) : Prop := Forall (fun x => 0 <= x)%Z l.

(** * generate_n *)
Section Calls.
Context {S V : Type} (call : S -> V * S).
(** The function after k calls, and the results of the first k calls. *)
Fixpoint after (k : nat) (f : S) : S := match k with 0 => f | Datatypes.S k => after k (snd (call f)) end.
Fixpoint results (k : nat) (f : S) : list V :=
  match k with 0 => [] | Datatypes.S k => fst (call f) :: results k (snd (call f)) end.
(** The iterator at a position whose function was called k times. *)
Definition counted (f : S) (x : nat * nat) : git S := Git (fst x) (after (snd x) f).
(** An iterator: its position, and how often it and those it was copied from were dereferenced
    before the copy.  An output is the number of a call. *)
Definition k_step (its : list (nat * nat)) (o : gop) : option (list (nat * nat) * list nat) :=
  match o with
  | GBegin x => if x <? length its then Some (upd its x (0, 0), []) else None
  | GCopy x y => match nth_error its y with
                 | Some it => if x <? length its then Some (upd its x it, []) else None
                 | None => None
                 end
  | GDeref x => match nth_error its x with Some (p, k) => Some (upd its x (p, k + 1), [k]) | None => None end
  | GInc x => match nth_error its x with Some (p, k) => Some (upd its x (p + 1, k), []) | None => None end
  | GPostInc x y => match nth_error its y with
                    | Some (p, k) => if x <? length its then Some (upd (upd its y (p + 1, k)) x (p, k), []) else None
                    | None => None
                    end
  end.
Fixpoint k_run (its : list (nat * nat)) (os : list gop) : option (list (nat * nat) * list nat) :=
  match os with
  | [] => Some (its, [])
  | o :: os => match k_step its o with
               | Some (its, out) => match k_run its os with Some (its, out') => Some (its, out ++ out') | None => None end
               | None => None
               end
  end.
End Calls.
