(** Model of the hash tables: hash_set_t (daw_hash_set.h), bounded_hash_set_t and
    bounded_hash_map (deprecated/daw_bounded_hash_set.h, daw_bounded_hash_map.h),
    static_hash_t (static_hash_table.h), fixed_lookup (deprecated/daw_fixed_lookup.h)
    and perfect_hash_table (daw_min_perfect_hash.h).  No proofs in this file.

    A hash function is a parameter [h] with values in [0, 2^64); key comparison is a
    parameter [eqb].  A slot of a table is None while it is marked empty.  Copies of
    keys and values do not throw. *)
From Verif Require Import Common Ints SortIntro Math Pipelines Iterators.
Open Scope Z_scope.

(** * Linear probing. *)
(** daw_hash_set.h 27-33, daw_bounded_hash_set.h 302-307, daw_bounded_hash_map.h
    324-329, static_hash_table.h 47-53, daw_fixed_lookup.h 100-106 with HashSize 8: the
    remainder by 0 is UB. *)
Definition prime_a : Z := 18446744073709551557.
Definition prime_b : Z := 18446744073709551533.
Definition scale_by (w a b hash range : Z) : res Z :=
  if range =? 0 then UB else Ok (wrap w (wrap w (hash * a) + b) mod range).
Definition scale_hash (hash range : Z) : res Z := scale_by 64 prime_a prime_b hash range.

Section Probe.
Context {K V : Type}.
Variable eqb : K -> K -> bool.
Definition slots := list (option (K * V)).

(** One of the two loops of find_index, over the slots [l] with the numbers from [n]. *)
Fixpoint probe (l : slots) (key : K) (n : nat) : option nat :=
  match l with
  | [] => None
  | None :: _ => Some n
  | Some (k, _) :: l => if eqb k key then Some n else probe l key (S n)
  end.
(** Both loops, from slot [start] on. *)
Definition probe_from (l : slots) (start : nat) (key : K) : option nat :=
  match probe (skipn start l) key start with
  | Some n => Some n
  | None => probe (firstn start l) key 0
  end.
(** daw_hash_set.h 35-56, daw_bounded_hash_set.h 309-330, daw_bounded_hash_map.h
    331-346, static_hash_table.h 71-90 find_impl. *)
Definition find_index (l : slots) (hash : Z) (key : K) : res (option nat) :=
  s <- scale_hash hash (zlen l) ;; Ok (probe_from l (Z.to_nat s) key).
End Probe.

(** * hash_set_t (daw_hash_set.h) *)
Section HashSet.
Context {K : Type}.
Variable eqb : K -> K -> bool.
Variable h : K -> Z.
Definition set_slots := @slots K unit.

(** 59-60 the constructor. *)
Definition hs_make (n : nat) : set_slots := repeat None n.
(** 62-70 insert: the slot number and the set. *)
Definition hs_insert (l : set_slots) (key : K) : res (nat * set_slots) :=
  i <- find_index eqb l (h key) key ;;
  match i with
  | None => Throw
  | Some n => Ok (n, upd l n (Some (key, tt)))
  end.
(** 82-89 exists. *)
Definition hs_exists (l : set_slots) (key : K) : res bool :=
  i <- find_index eqb l (h key) key ;;
  match i with
  | None => Ok false
  | Some n => s <- rd l n ;; Ok (match s with Some _ => true | None => false end)
  end.
(** 91-93 count. *)
Definition hs_count (l : set_slots) (key : K) : res Z :=
  b <- hs_exists l key ;; Ok (if b then 1 else 0).

(** * bounded_hash_set_t (deprecated/daw_bounded_hash_set.h) *)
(** 300, 333-334 the constructor. *)
Definition bs_make (n : nat) : set_slots := repeat None n.
(** 336-364 insert; std::abort is Throw. *)
Definition bs_insert (l : set_slots) (key : K) : res (nat * set_slots) :=
  i <- find_index eqb l (h key) key ;;
  match i with
  | None => Throw
  | Some n =>
      s <- rd l n ;;
      match s with
      | Some _ => Ok (n, l)
      | None => Ok (n, upd l n (Some (key, tt)))
      end
  end.
(** 366-375 erase: only has_value is reset. *)
Definition bs_erase (l : set_slots) (key : K) : res (option nat * set_slots) :=
  i <- find_index eqb l (h key) key ;;
  match i with
  | None => Ok (None, l)
  | Some n => Ok (Some n, upd l n None)
  end.
(** 377-385 exists and count. *)
Definition bs_exists (l : set_slots) (key : K) : res bool := hs_exists l key.
(** 451-457 find (the const overload 459-465 is ill-formed): the position of the iterator, length l for end( ). *)
Definition bs_find (l : set_slots) (key : K) : res nat :=
  i <- find_index eqb l (h key) key ;;
  Ok (match i with None => length l | Some n => n end).
End HashSet.

(** empty: daw_bounded_hash_set.h 398-404, daw_bounded_hash_map.h 467-473. *)
Definition is_used {S} (s : option S) : bool := match s with Some _ => true | None => false end.
Definition bs_empty {S} (l : list (option S)) : bool := negb (existsb is_used l).

(** The first occupied slot, or the end (begin( ): daw_bounded_hash_set.h 406-431,
    daw_bounded_hash_map.h 475-500). *)
Fixpoint first_used {S} (l : list (option S)) : nat :=
  match l with
  | None :: l => Datatypes.S (first_used l)
  | _ => 0
  end.
(** operator++ of the iterators (daw_bounded_hash_set.h 77-83 const and 168-174,
    daw_bounded_hash_map.h 100-106 const and 191-197): the slot is read before its position is
    compared with [last]; [past] allows one step beyond (set iterator). *)
Fixpoint it_scan {S} (fuel : nat) (past : bool) (l : list (option S)) (last p : nat) : res nat :=
  match fuel with
  | O => OutOfFuel
  | Datatypes.S fuel =>
      s <- rd l p ;;
      match s with
      | Some _ => Ok p
      | None => if (if past then (p <=? last)%nat else (p <? last)%nat) then it_scan fuel past l last (Datatypes.S p) else Ok p
      end
  end.
Definition it_next {S} (past : bool) (l : list (option S)) (last p : nat) : res nat :=
  it_scan (Datatypes.S (Datatypes.S (length l))) past l last (Datatypes.S p).
(** operator* *)
Definition it_get {S} (l : list (option S)) (p : nat) : res S :=
  s <- rd l p ;; match s with Some x => Ok x | None => UB end.
(** A loop from begin( ) to end( ) over the slots before [last]. *)
Definition it_range {S} (past : bool) (l : list (option S)) (last : nat) : range S :=
  forward nat (first_used (firstn last l)) (fun p => (p =? last)%nat) (it_get l) (it_next past l last).

(** * bounded_hash_map (deprecated/daw_bounded_hash_map.h).  m_data has N + 1 slots, of which the last is never used. *)
Section HashMap.
Context {K V : Type}.
Variable eqb : K -> K -> bool.
Variable h : K -> Z.
Variable dflt : V.
Definition map_slots := @slots K V.

(** 322, 355 the default constructor. *)
Definition mp_make (n : nat) : map_slots := repeat None (S n).
(** 450-452 capacity. *)
Definition mp_capacity (l : map_slots) : nat := length l - 1.
(** 331-346 find_index. *)
Definition mp_find_index (l : map_slots) (key : K) : res (option nat) :=
  find_index eqb (firstn (mp_capacity l) l) (h key) key.
(** 348-352, 377-391 insert: *index of an empty optional is UB. *)
Definition mp_insert (l : map_slots) (key : K) (v : V) : res map_slots :=
  i <- mp_find_index l key ;;
  match i with None => UB | Some n => wr l n (Some (key, v)) end.
(** 357-375 the constructors. *)
Fixpoint mp_from (l : map_slots) (items : list (K * V)) : res map_slots :=
  match items with
  | [] => Ok l
  | (k, v) :: items => l <- mp_insert l k v ;; mp_from l items
  end.
(** 393-400 exists. *)
Definition mp_exists (l : map_slots) (key : K) : res bool :=
  i <- mp_find_index l key ;;
  match i with
  | None => Ok false
  | Some n => s <- rd l n ;; Ok (match s with Some _ => true | None => false end)
  end.
(** 402-420 operator[]: the slot and the table; the slot holds a value then. *)
Definition mp_index (l : map_slots) (key : K) : res (nat * map_slots) :=
  i <- mp_find_index l key ;;
  match i with
  | None => UB
  | Some n =>
      s <- rd l n ;;
      match s with
      | Some _ => Ok (n, l)
      | None => Ok (n, upd l n (Some (key, dflt)))
      end
  end.
(** m[key] = v. *)
Definition mp_set (l : map_slots) (key : K) (v : V) : res map_slots :=
  ' (n, l) <- mp_index l key ;;
  s <- rd l n ;;
  match s with Some (k, _) => wr l n (Some (k, v)) | None => UB end.
(** 422-428 the const operator[]; std::abort is Throw. *)
Definition mp_at (l : map_slots) (key : K) : res V :=
  i <- mp_find_index l key ;;
  match i with
  | None => UB
  | Some n => s <- rd l n ;; match s with Some (_, v) => Ok v | None => Throw end
  end.
(** 430-441 try_get. *)
Definition mp_try_get (l : map_slots) (key : K) : res (option V) :=
  i <- mp_find_index l key ;;
  match i with
  | None => Ok None
  | Some n => s <- rd l n ;; Ok (match s with Some (_, v) => Some v | None => None end)
  end.
(** 443-448 count. *)
Definition mp_count (l : map_slots) (key : K) : res Z :=
  b <- mp_exists l key ;; Ok (if b then 1 else 0).
(** 454-465 size. *)
Fixpoint mp_size_from (init : Z) (l : map_slots) : Z :=
  match l with
  | [] => init
  | Some _ :: l => mp_size_from (sz (init + 1)) l
  | None :: l => mp_size_from init l
  end.
Definition mp_size (l : map_slots) : Z := mp_size_from 0 l.
(** 517-533 find: the position of the iterator; end( ) is capacity( ). *)
Definition mp_find (l : map_slots) (key : K) : res nat :=
  i <- mp_find_index l key ;;
  Ok (match i with None => mp_capacity l | Some n => n end).
(** 535-540 erase. *)
Definition mp_erase (l : map_slots) (key : K) : res map_slots :=
  i <- mp_find_index l key ;;
  match i with None => Ok l | Some n => wr l n None end.
(** 475-515 a loop over all items. *)
Definition mp_range (l : map_slots) : range (K * V) := it_range false l (mp_capacity l).

Inductive mop := MInsert (k : K) (v : V) | MSet (k : K) (v : V) | MErase (k : K).
Definition mp_step (o : mop) (l : map_slots) : res map_slots :=
  match o with
  | MInsert k v => mp_insert l k v
  | MSet k v => mp_set l k v
  | MErase k => mp_erase l k
  end.
Fixpoint mp_run (os : list mop) (l : map_slots) : res map_slots :=
  match os with
  | [] => Ok l
  | o :: os => l <- mp_step o l ;; mp_run os l
  end.
End HashMap.

(** A history of a bounded_hash_set_t. *)
Inductive sop {K : Type} := SInsert (k : K) | SErase (k : K).
Arguments sop : clear implicits.
Fixpoint bs_run {K} (eqb : K -> K -> bool) (h : K -> Z) (os : list (sop K)) (l : set_slots) : res set_slots :=
  match os with
  | [] => Ok l
  | SInsert k :: os => ' (_, l) <- bs_insert eqb h l k ;; bs_run eqb h os l
  | SErase k :: os => ' (_, l) <- bs_erase eqb h l k ;; bs_run eqb h os l
  end.
(** insert of several keys into a hash_set_t. *)
Fixpoint hs_run {K} (eqb : K -> K -> bool) (h : K -> Z) (ks : list K) (l : set_slots) : res set_slots :=
  match ks with
  | [] => Ok l
  | k :: ks => ' (_, l) <- hs_insert eqb h l k ;; hs_run eqb h ks l
  end.

(** * static_hash_t and fixed_lookup keep hashes, not keys.  A slot with hash 0 is
    empty; its value is value_type{ } ([dflt]).  Values are never removed. *)
Section ByHash.
Context {K V : Type}.
Variable h : K -> Z.
Variable dflt : V.

(** static_hash_table.h 55-69 hash_fn, on size_t. *)
Definition st_hash (key : K) : Z := sz (h key mod (2 ^ 64 - 1 - 1) + 1).
(** 71-90 find_impl, 136-140 find: a position or Capacity. *)
Definition st_find (l : @slots Z V) (key : K) : res nat :=
  i <- find_index Z.eqb l (st_hash key) (st_hash key) ;;
  Ok (match i with None => length l | Some n => n end).
(** The value in slot [n]. *)
Definition slot_value (l : @slots Z V) (n : nat) : res V :=
  s <- rd l n ;; Ok (match s with Some (_, v) => v | None => dflt end).
(** 142-155 operator[]: the slot number and the table.  A full table is accessed at
    Capacity: UB. *)
Definition st_index (l : @slots Z V) (key : K) : res (nat * @slots Z V) :=
  n <- st_find l key ;; v <- slot_value l n ;;
  l <- wr l n (Some (st_hash key, v)) ;; Ok (n, l).
(** t[key] = v; also one step of the constructors 115-134. *)
Definition st_set (l : @slots Z V) (key : K) (v : V) : res (@slots Z V) :=
  n <- st_find l key ;; wr l n (Some (st_hash key, v)).
(** 165-170 the const operator[] (the template 157-163 is ill-formed). *)
Definition st_get (l : @slots Z V) (key : K) : res V := n <- st_find l key ;; slot_value l n.
(** 115-134 the constructors. *)
Fixpoint st_from (l : @slots Z V) (items : list (K * V)) : res (@slots Z V) :=
  match items with
  | [] => Ok l
  | (k, v) :: items => l <- st_set l k v ;; st_from l items
  end.
Definition st_make (n : nat) (items : list (K * V)) : res (@slots Z V) := st_from (repeat None n) items.

(** daw_fixed_lookup.h, HashSize 8: 90-98 hash_fn. *)
Definition fl_hash (key : K) : Z := sz (h key mod (2 ^ 64 - 1 - 2) + 2).
(** 108-138 lookup: a position and whether it was found. *)
Definition fl_lookup (l : @slots Z V) (hash : Z) : res (nat * bool) :=
  i <- find_index Z.eqb l hash hash ;;
  match i with
  | None => Ok (length l, false)
  | Some n => s <- rd l n ;; Ok (n, match s with Some _ => true | None => false end)
  end.
(** 144-151 find_existing. *)
Definition fl_find_existing (l : @slots Z V) (key : K) : res nat :=
  ' (n, found) <- fl_lookup l (fl_hash key) ;; if (found : bool) then Ok n else Throw.
(** 153-163 insert. *)
Definition fl_insert (l : @slots Z V) (key : K) (v : V) : res (nat * @slots Z V) :=
  ' (n, found) <- fl_lookup l (fl_hash key) ;;
  if negb found && (n =? length l)%nat then Throw
  else l <- wr l n (Some (fl_hash key, v)) ;; Ok (n, l).
(** 165-171 get_existing, 173-176 the const operator[]. *)
Definition fl_get_existing (l : @slots Z V) (n : nat) : res V := slot_value l n.
Definition fl_get (l : @slots Z V) (key : K) : res V := n <- fl_find_existing l key ;; slot_value l n.
(** 178-187 operator[]. *)
Definition fl_index (l : @slots Z V) (key : K) : res (nat * @slots Z V) :=
  ' (n, found) <- fl_lookup l (fl_hash key) ;;
  if negb found && (n =? length l)%nat then Throw
  else v <- slot_value l n ;; l <- wr l n (Some (fl_hash key, v)) ;; Ok (n, l).
(** 189-193 exists. *)
Definition fl_exists (l : @slots Z V) (key : K) : res bool :=
  ' (_, found) <- fl_lookup l (fl_hash key) ;; Ok found.
(** 79-87 size. *)
Definition fl_size (l : @slots Z V) : Z := mp_size_from 0 l.
Fixpoint fl_run (items : list (K * V)) (l : @slots Z V) : res (@slots Z V) :=
  match items with
  | [] => Ok l
  | (k, v) :: items => ' (_, l) <- fl_insert l k v ;; fl_run items l
  end.
End ByHash.

(** * perfect_hash_table (daw_min_perfect_hash.h) for N key value pairs (in an array).  hash_result is size_t.
    daw::array accesses outside of the array are UB.  The items are reached through
    pointers, so a bucket_t is trivially copyable and daw::sort exchanges buckets by
    copying; the items of a bucket are modelled by the pairs pointed to. *)
(** 89-97 next_pow2: sz >>= 1 until it is 0, at most 64 times. *)
Fixpoint next_pow2_loop (fuel : nat) (s ret : Z) : Z :=
  match fuel with
  | O => ret
  | S fuel => if 0 <? s then next_pow2_loop fuel (s / 2) (sz (ret * 2)) else ret
  end.
Definition next_pow2 (n : Z) : Z := next_pow2_loop 64 n 1.
(** 99-103 get_bucket_count. *)
Definition bucket_count (n : Z) : Z := next_pow2 n / 2.
(** 105-113 hash_combine. *)
Definition hash_combine (seed hash : Z) : Z :=
  let s := sz (seed + 1) in
  Z.lxor s (sz (sz (sz (hash + 2654435769) + sz (s * 64)) + s / 4)).

Section Perfect.
Context {K V : Type}.
Variable eqb : K -> K -> bool.
Variable h : K -> Z.
Variable dk : K.   (* Key{ } *)
Variable dv : V.   (* Value{ } *)

(** 230-239 bucket_t: bucket_index and the items. *)
Definition bucket := (nat * list (K * V))%type.
(** 243-247 m_salts, m_values, m_keys. *)
Record table := Table { m_salts : list Z; m_values : list V; m_keys : list K }.

(** 166-169: the items in their buckets; the list index is the bucket_index until the
    sort. *)
Fixpoint distribute (nb : Z) (items : list (K * V)) (bs : list bucket) : res (list bucket) :=
  match items with
  | [] => Ok bs
  | (k, v) :: items =>
      let b := Z.to_nat (h k mod nb) in
      x <- rd bs b ;;
      bs <- wr bs b (fst x, snd x ++ [(k, v)]) ;;
      distribute nb items bs
  end.
(** 284-299: the slots wanted with this salt, None if one is taken. *)
Fixpoint slots_for (ds salt : Z) (claimed : list bool) (items : list (K * V)) (this : list nat) : res (option (list nat)) :=
  match items with
  | [] => Ok (Some this)
  | (k, _) :: items =>
      let wanted := Z.to_nat (hash_combine (conv u64 salt) (h k) mod ds) in
      c <- rd claimed wanted ;;
      if c || existsb (Nat.eqb wanted) this then Ok None
      else slots_for ds salt claimed items (this ++ [wanted])
  end.
(** 303-308: store the items. *)
Fixpoint store (items : list (K * V)) (ps : list nat) (t : table) (claimed : list bool) : res (table * list bool) :=
  match items, ps with
  | (k, v) :: items, p :: ps =>
      ks <- wr (m_keys t) p k ;;
      vs <- wr (m_values t) p v ;;
      claimed <- wr claimed p true ;;
      store items ps (Table (m_salts t) vs ks) claimed
  | _, _ => Ok (t, claimed)
  end.
(** 283-311: the loop over the salts. *)
Fixpoint salt_loop (fuel : nat) (ds salt : Z) (b : bucket) (t : table) (claimed : list bool) : res (table * list bool) :=
  match fuel with
  | O => OutOfFuel
  | S fuel =>
      ps <- slots_for ds salt claimed (snd b) [] ;;
      match ps with
      | Some ps =>
          salts <- wr (m_salts t) (fst b) salt ;;
          store (snd b) ps (Table salts (m_values t) (m_keys t)) claimed
      | None => salt <- calc i64 (salt + 1) ;; salt_loop fuel ds salt b t claimed
      end
  end.
(** 265-312 find_salt_for_bucket: a bucket with one item claims the first free slot and
    then goes on to the salts, as there is no return. *)
Fixpoint first_free (l : list bool) : nat :=
  match l with true :: l => S (first_free l) | _ => 0 end.
Definition find_salt (fuel : nat) (ds : Z) (b : bucket) (t : table) (claimed : list bool) : res (table * list bool) :=
  match snd b with
  | [(k, v)] =>
      let pos := first_free claimed in
      if (pos =? length claimed)%nat then Throw
      else
        claimed <- wr claimed pos true ;;
        salts <- wr (m_salts t) (fst b) (- (Z.of_nat pos + 1)) ;;
        ks <- wr (m_keys t) pos k ;;
        vs <- wr (m_values t) pos v ;;
        salt_loop fuel ds 1 b (Table salts vs ks) claimed
  | _ => salt_loop fuel ds 1 b t claimed
  end.
(** 178-185: the buckets in order, up to the first empty one. *)
Fixpoint place (fuel : nat) (ds : Z) (bs : list bucket) (t : table) (claimed : list bool) : res table :=
  match bs with
  | [] => Ok t
  | b :: bs =>
      match snd b with
      | [] => Ok t
      | _ => ' (t, claimed) <- find_salt fuel ds b t claimed ;; place fuel ds bs t claimed
      end
  end.
(** 171-174: larger buckets first. *)
Definition larger (a b : bucket) : bool := (length (snd b) <? length (snd a))%nat.
(** 153-190 the constructors; [limit] is the bound below which daw::sort uses an
    insertion sort. *)
Definition build (limit fuel : nat) (items : list (K * V)) : res table :=
  let n := zlen items in
  let nb := bucket_count n in
  let ds := next_pow2 n in
  let empty := map (fun i => (i, [])) (seq 0 (Z.to_nat nb)) in
  bs <- distribute nb items empty ;;
  bs <- sort larger limit 0 (length bs) bs ;;
  place fuel ds bs
    (Table (repeat 0 (Z.to_nat nb)) (repeat dv (Z.to_nat ds)) (repeat dk (Z.to_nat ds)))
    (repeat false (Z.to_nat ds)).
(** 314-323 find_data_index. *)
Definition data_index (t : table) (key : K) : res nat :=
  salt <- rd (m_salts t) (Z.to_nat (h key mod zlen (m_salts t))) ;;
  if salt <? 0 then Ok (Z.to_nat (- salt - 1))
  else Ok (Z.to_nat (hash_combine (conv u64 salt) (h key) mod zlen (m_keys t))).
(** 192-199, 210-216 find: the value pointed to; 205-208 contains; 218-227 operator[]. *)
Definition ph_find (t : table) (key : K) : res (option V) :=
  p <- data_index t key ;; k <- rd (m_keys t) p ;;
  if eqb key k then v <- rd (m_values t) p ;; Ok (Some v) else Ok None.
Definition ph_contains (t : table) (key : K) : res bool :=
  p <- data_index t key ;; k <- rd (m_keys t) p ;; Ok (eqb key k).
Definition ph_at (t : table) (key : K) : res V := p <- data_index t key ;; rd (m_values t) p.
End Perfect.
