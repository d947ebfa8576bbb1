(** What C327-C333 talk about. *)
From Verif Require Import Common Ints Tuples.

(** * Tuples: a list of elements *)
(** The elements [cs] have the values [vs]. *)
Definition shows {V} (mem : list V) (cs : list (cell V)) (vs : list V) : Prop :=
  Forall2 (fun c v => match c with Own x => x = v | Ref i => nth_error mem i = Some v end) cs vs.
Definition l_step {V} (s : list V * list (cell V)) (o : top V) : option (list V * list (cell V)) :=
  let (mem, cs) := s in
  match o with
  | TSet k v => match nth_error cs k with
                | Some (Own _) => Some (mem, upd cs k (Own v))
                | Some (Ref i) => if i <? length mem then Some (upd mem i v, cs) else None
                | None => None
                end
  | TMem i v => if i <? length mem then Some (upd mem i v, cs) else None
  end.
Fixpoint l_run {V} (s : list V * list (cell V)) (os : list (top V)) : option (list V * list (cell V)) :=
  match os with
  | [] => Some s
  | o :: os => match l_step s o with Some s => l_run s os | None => None end
  end.
(** At how many leading positions two lists are equal. *)
Fixpoint agree {V} (eq : V -> V -> bool) (vs ws : list V) : nat :=
  match vs, ws with
  | v :: vs, w :: ws => if eq v w then S (agree eq vs ws) else 0
  | _, _ => 0
  end.
(** Equality of two lists, and the number of comparisons: none if the sizes differ, else up to
    the first difference. *)
Definition same_list {V} (eq : V -> V -> bool) (vs ws : list V) : bool :=
  (length vs =? length ws) && (agree eq vs ws =? length vs).
Definition comparisons {V} (eq : V -> V -> bool) (vs ws : list V) : nat :=
  if length vs =? length ws then Nat.min (length vs) (S (agree eq vs ws)) else 0.

(** * Arrays *)
Definition a_spec {V} (a : list V) (o : aop V) : option (list V) :=
  match o with
  | AFill v => Some (repeat v (length a))
  | AFillFrom k => match nth_error a k with Some v => Some (repeat v (length a)) | None => None end
  | ASet i v => if i <? length a then Some (upd a i v) else None
  | ASetFront v => match a with [] => None | _ :: t => Some (v :: t) end
  | ASetBack v => match a with [] => None | _ => Some (removelast a ++ [v]) end
  end.
Fixpoint a_spec_run {V} (a : list V) (os : list (aop V)) : option (list V) :=
  match os with
  | [] => Some a
  | o :: os => match a_spec a o with Some a => a_spec_run a os | None => None end
  end.

(** * Bit patterns *)
Definition patterns (w : Z) (mem : list Z) : Prop := Forall (fun x => 0 <= x < 2 ^ w)%Z mem.
(** [mem] with the elements from [out] replaced by [l]. *)
Definition overwrite {A} (mem : list A) (out : nat) (l : list A) : list A :=
  firstn out mem ++ l ++ skipn (out + length l) mem.

(** * Formats *)
(** A text in which the braces are doubled. *)
Fixpoint escape (t : list Z) : list Z :=
  match t with
  | [] => []
  | c :: t => if ((c =? 123) || (c =? 125))%Z then c :: c :: escape t else c :: escape t
  end.
(** A format of texts, each followed by a field, and a text at the end. *)
Fixpoint fields (ts : list (list Z)) (last : list Z) : list Z :=
  match ts with
  | [] => escape last
  | t :: ts => escape t ++ [123; 125]%Z ++ fields ts last
  end.
(** The texts with the arguments between them. *)
Fixpoint filled (ts args : list (list Z)) (last : list Z) : list Z :=
  match ts, args with
  | t :: ts, a :: args => t ++ a ++ filled ts args last
  | _, _ => last
  end.

(** * Calls *)
(** A function called with values, again and again: its results and its state. *)
Fixpoint called {V R S} (f : S -> list V -> R * S * list (nat * V)) (s : S) (calls : list (list V)) : list (list V * R) * S :=
  match calls with
  | [] => ([], s)
  | vs :: calls => let '(r, s, _) := f s vs in let '(l, s) := called f s calls in ((vs, r) :: l, s)
  end.
(** The last value assigned to parameter [k]. *)
Fixpoint last_to {V} (k : nat) (kvs : list (nat * V)) (old : option V) : option V :=
  match kvs with
  | [] => old
  | kv :: kvs => last_to k kvs (if fst kv =? k then Some (snd kv) else old)
  end.
