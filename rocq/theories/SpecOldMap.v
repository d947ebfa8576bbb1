(** Vocabulary for the theorems about ordered_map and quick_sort. *)
From Coq Require Import Permutation.
From Verif Require Import Common OldMap.
Open Scope nat_scope.

(** Keys the comparison does not tell apart. *)
Definition same_key {K} (comp : K -> K -> bool) (a b : K) : bool := negb (comp a b) && negb (comp b a).
(** A map as the order of its keys and the value of every key. *)
Definition mspec (K V : Type) : Type := list K * (K -> option V).
Definition set_key {K V} (comp : K -> K -> bool) (f : K -> option V) (k : K) (v : V) : K -> option V :=
  fun x => if same_key comp x k then Some v else f x.
Definition add_key {K V} (s : mspec K V) (k : K) : list K :=
  match snd s k with None => fst s ++ [k] | Some _ => fst s end.
Definition spec_step {K V} (comp : K -> K -> bool) (dflt : V) (s : mspec K V) (o : mop) : mspec K V :=
  match o with
  | MInsert k v => match snd s k with None => (add_key s k, set_key comp (snd s) k v) | Some _ => s end
  | MIndex k => match snd s k with None => (add_key s k, set_key comp (snd s) k dflt) | Some _ => s end
  | MIndexSet k v => (add_key s k, set_key comp (snd s) k v)
  | MAtSet k v => match snd s k with None => s | Some _ => (fst s, set_key comp (snd s) k v) end
  | MClear => ([], fun _ => None)
  end.
Definition spec_run {K V} (comp : K -> K -> bool) (dflt : V) (os : list mop) : mspec K V :=
  fold_left (spec_step comp dflt) os ([], fun _ => None).
(** The value read through at( ). *)
Definition read_key {K V} (comp : K -> K -> bool) (m : list (K * V)) (k : K) : res V := p <- om_at comp m k ;; om_value m p.
(** No two keys are the same. *)
Definition distinct {K} (comp : K -> K -> bool) (l : list K) : Prop :=
  forall i j a b, nth_error l i = Some a -> nth_error l j = Some b -> same_key comp a b = true -> i = j.

(** What std::partition may do: a rearrangement with the true answers first. *)
Definition partitions (order : list bool -> list nat) : Prop :=
  forall bs, Permutation (order bs) (seq 0 (length bs)) /\
    exists n m, map (fun i => nth i bs false) (order bs) = repeat true n ++ repeat false m.
(** The stable one. *)
Definition stable (bs : list bool) : list nat :=
  filter (fun i => nth i bs false) (seq 0 (length bs)) ++ filter (fun i => negb (nth i bs false)) (seq 0 (length bs)).
(** 2k numbers, the largest two of which are the outermost. *)
Fixpoint killer (k : nat) : list nat :=
  match k with
  | O => []
  | S k => 2 * k :: killer k ++ [2 * k + 1]
  end.
(** The first element is a smallest one. *)
Definition least_first {T} (comp : T -> T -> bool) (l : list T) : Prop :=
  match l with [] => True | h :: _ => Forall (fun y => comp y h = false) l end.
