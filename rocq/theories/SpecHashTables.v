(** Specification vocabulary for the hash tables. *)
From Verif Require Import Common Ints Pipelines SpecPipes Iterators HashTables.
Open Scope Z_scope.

(** [eqb] decides equality. *)
Definition decides {K} (eqb : K -> K -> bool) : Prop := forall a b, eqb a b = true <-> a = b.

(** Maps as lists of key value pairs. *)
Section Maps.
Context {K V : Type}.
Variable eqb : K -> K -> bool.
Fixpoint alookup (m : list (K * V)) (k : K) : option V :=
  match m with
  | [] => None
  | (k', v) :: m => if eqb k' k then Some v else alookup m k
  end.
Definition aremove (k : K) (m : list (K * V)) : list (K * V) := filter (fun p => negb (eqb (fst p) k)) m.
Definition aset (k : K) (v : V) (m : list (K * V)) : list (K * V) := (k, v) :: aremove k m.
Definition has (m : list (K * V)) (k : K) : bool := match alookup m k with Some _ => true | None => false end.
(** Setting a key of a map that has room for [n] keys; None: there is no room. *)
Definition put (n : nat) (k : K) (v : V) (m : list (K * V)) : option (list (K * V)) :=
  if has m k || (length m <? n)%nat then Some (aset k v m) else None.
(** A history of puts. *)
Fixpoint puts (n : nat) (items : list (K * V)) (m : list (K * V)) : option (list (K * V)) :=
  match items with
  | [] => Some m
  | (k, v) :: items => match put n k v m with Some m => puts n items m | None => None end
  end.
(** What a history of changes to a bounded_hash_map should do. *)
Definition op_key (o : @mop K V) : K := match o with MInsert k _ | MSet k _ | MErase k => k end.
Definition map_op (n : nat) (o : @mop K V) (m : list (K * V)) : option (list (K * V)) :=
  match o with
  | MInsert k v | MSet k v => put n k v m
  | MErase k => Some (aremove k m)
  end.
Fixpoint map_ops (n : nat) (os : list (@mop K V)) (m : list (K * V)) : option (list (K * V)) :=
  match os with
  | [] => Some m
  | o :: os => match map_op n o m with Some m => map_ops n os m | None => None end
  end.
Definition erases (o : @mop K V) : bool := match o with MErase _ => true | _ => false end.
End Maps.

(** The different keys of a list. *)
Fixpoint distinct {K} (eqb : K -> K -> bool) (ks : list K) : list K :=
  match ks with
  | [] => []
  | k :: ks => if existsb (eqb k) ks then distinct eqb ks else k :: distinct eqb ks
  end.
(** The keys in a set after a history. *)
Definition sop_key {K} (o : sop K) : K := match o with SInsert k | SErase k => k end.
Fixpoint set_ops {K} (eqb : K -> K -> bool) (os : list (sop K)) (s : list K) : list K :=
  match os with
  | [] => s
  | SInsert k :: os => set_ops eqb os (k :: s)
  | SErase k :: os => set_ops eqb os (filter (fun x => negb (eqb x k)) s)
  end.

(** The slot where the search for a key with this hash starts, with [n] slots. *)
Definition home (n : nat) (hash : Z) : nat :=
  Z.to_nat (((hash * 18446744073709551557 + 18446744073709551533) mod 2 ^ 64) mod Z.of_nat n).
(** Different keys of [ks] start at different slots. *)
Definition no_collisions {K} (n : nat) (h : K -> Z) (ks : list K) : Prop :=
  forall a b, In a ks -> In b ks -> home n (h a) = home n (h b) -> a = b.
(** Different keys of [ks] have different hashes. *)
Definition inj_on {K} (f : K -> Z) (ks : list K) : Prop := forall a b, In a ks -> In b ks -> f a = f b -> a = b.

(** The pairs of [items] that fall in bucket [b] of [nb]. *)
Definition in_bucket {K V} (h : K -> Z) (nb : Z) (items : list (K * V)) (b : nat) : list (K * V) :=
  filter (fun p => Z.to_nat (h (fst p) mod nb) =? b)%nat items.
(** The number of slots of a perfect_hash_table for [n] keys: the smallest power of two
    greater than [n]. *)
Definition table_size (n : Z) : Z := 2 ^ (Z.log2 n + 1).

(** What a user sees of a bounded_hash_map with [n] slots that should hold the map [m]:
    lookups, counts, sizes, find and a loop over it. *)
Record shows {K V} (eqb : K -> K -> bool) (h : K -> Z) (n : nat) (l : @map_slots K V) (m : list (K * V)) : Prop := {
  sh_try_get : forall k, mp_try_get eqb h l k = Ok (alookup eqb m k);
  sh_exists : forall k, mp_exists eqb h l k = Ok (has eqb m k);
  sh_count : forall k, mp_count eqb h l k = Ok (if has eqb m k then 1 else 0);
  sh_at : forall k v, alookup eqb m k = Some v -> mp_at eqb h l k = Ok v;
  sh_at_absent : forall k, alookup eqb m k = None ->
    mp_at eqb h l k = if (length m <? n)%nat then Throw else UB;
  sh_find : forall k v, alookup eqb m k = Some v ->
    exists p, mp_find eqb h l k = Ok p /\ p <> mp_capacity l /\ it_get l p = Ok (k, v);
  sh_size : mp_size l = zlen m;
  sh_empty : bs_empty l = match m with [] => true | _ => false end;
  sh_loop : exists m', visits (mp_range l) m' /\ Permutation m m'
}.
