(** Model of deprecated/daw_ordered_map.h and deprecated/daw_stack_quick_sort.h.
    No proofs in this file. *)
From Coq Require Import Bool.
From Verif Require Import Common AlgSearch.
Open Scope nat_scope.

(** ordered_map, lines 88-354, with std::vector as the container: the pairs in a list, a
    position for an iterator.  The constructors from ranges (lines 230-283) pass a pair to
    find( ) and are not modelled, nor are rbegin( ) and rend( ), whose return types do not fit. *)
Section Map.
  Context {K V : Type} (comp : K -> K -> bool) (dflt : V).
  Notation om := (list (K * V)).
  (** 208-224 find: end( ) is the size. *)
  Definition om_find (m : om) (key : K) : nat :=
    find_if (fun item => negb (comp (fst item) key) && negb (comp key (fst item))) m.
  (** 305-325 insert: a pair is put at pos, which is end( ). *)
  Definition om_insert (m : om) (k : K) (v : V) : om * nat * bool :=
    let pos := om_find m k in
    if pos =? length m then (firstn pos m ++ (k, v) :: skipn pos m, pos, true)
    else (m, pos, false).
  (** 327-334 operator[]: the position whose second is referred to. *)
  Definition om_index (m : om) (k : K) : om * nat :=
    let pos := om_find m k in
    if pos =? length m then let '(m, pos, _) := om_insert m k dflt in (m, pos) else (m, pos).
  (** 336-352 at. *)
  Definition om_at (m : om) (k : K) : res nat :=
    let pos := om_find m k in if pos =? length m then Throw else Ok pos.
  (** pos->second, and its assignment. *)
  Definition om_value (m : om) (pos : nat) : res V := p <- rd m pos ;; Ok (snd p).
  Definition om_assign (m : om) (pos : nat) (v : V) : res om := p <- rd m pos ;; wr m pos (fst p, v).

  Inductive mop := MInsert (k : K) (v : V) | MIndex (k : K) | MIndexSet (k : K) (v : V) | MAtSet (k : K) (v : V) | MClear.
  (** A call that throws leaves the map as it is. *)
  Definition om_step (m : om) (o : mop) : res om :=
    match o with
    | MInsert k v => let '(m, _, _) := om_insert m k v in Ok m
    | MIndex k => let (m, _) := om_index m k in Ok m
    | MIndexSet k v => let (m, p) := om_index m k in om_assign m p v
    | MAtSet k v => match om_at m k with Ok p => om_assign m p v | Throw => Ok m | UB => UB | OutOfFuel => OutOfFuel end
    | MClear => Ok []
    end.
  Fixpoint om_run (os : list mop) (m : om) : res om :=
    match os with
    | [] => Ok m
    | o :: os => m <- om_step m o ;; om_run os m
    end.
End Map.
Arguments MInsert {K V}. Arguments MIndex {K V}. Arguments MIndexSet {K V}. Arguments MAtSet {K V}. Arguments MClear {K V}.

(** quick_sort *)
Section Sort.
  Context {T : Type} (comp : T -> T -> bool).
  (** 22-42: bit_count_v<size_t> * 2 * 2 entries. *)
  Definition stack_room : nat := 2 * (2 * 64).
  (** 44-52. *)
  Definition median (a b c : T) : T :=
    if negb (Bool.eqb (comp a b) (comp a c)) then a
    else if negb (Bool.eqb (comp a b) (comp c b)) then b
    else c.
  (** std::partition: where each element comes from is decided by the answers of the
      predicate; the point of partition is the number of true answers. *)
  Definition pick (l : list T) (is : list nat) : list T := flat_map (fun i => match nth_error l i with Some x => [x] | None => [] end) is.
  Definition partition (order : list bool -> list nat) (l : list T) (pred : T -> bool) : list T * nat :=
    (pick l (order (map pred l)), length (filter pred l)).
  Definition slice (l : list T) (first last : nat) : list T := firstn (last - first) (skipn first l).
  Definition part_at (order : list bool -> list nat) (l : list T) (first last : nat) (pred : T -> bool) : list T * nat :=
    let (s, n) := partition order (slice l first last) pred in (firstn first l ++ s ++ skipn last l, first + n).
  (** 24-29 push_back; the top of the stack comes first here. *)
  Definition push (st : list (nat * nat)) (x : nat * nat) : res (list (nat * nat)) :=
    if length st <? stack_room then Ok (x :: st) else UB.
  (** 67-91; [n] bounds the loop. *)
  Fixpoint qs_loop (order : list bool -> list nat) (n : nat) (st : list (nat * nat)) (l : list T) : res (list T) :=
    match st with
    | [] => Ok l
    | (first, last) :: st =>
        match n with
        | O => OutOfFuel
        | S n =>
            let dist := last - first in
            if dist <=? 1 then Ok l
            else
              let mid := first + dist / 2 in
              a <- rd l first ;; b <- rd l mid ;; c <- rd l (last - 1) ;;
              let pivot := median a b c in
              let (l, less_pivot) := part_at order l first last (fun v => comp v pivot) in
              let (l, split2) := part_at order l less_pivot last (fun v => negb (comp pivot v)) in
              st <- push st (split2, last) ;; st <- push st (first, less_pivot) ;;
              qs_loop order n st l
        end
    end.
  (** 56-92. *)
  Definition quick_sort (order : list bool -> list nat) (l : list T) : res (list T) :=
    st <- push [] (0, length l) ;; qs_loop order (S (length l)) st l.
End Sort.
