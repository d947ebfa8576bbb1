(** Model of the search algorithms of include/daw/daw_algorithm.h (and
    algorithms/daw_algorithm_find.h, daw_algorithm_adjacent_find.h).
    A range is a list; a returned iterator is the offset from the start of the
    range, [length l] standing for the end.  Single-pass forward scans are
    structural recursions; algorithms that jump use positions with checked
    reads. *)
From Verif Require Import Common.

Section Halving.
  Context {A V : Type}.

  (** lower_bound, daw_algorithm.h 288-307. *)
  Fixpoint lower_bound_loop (fuel : nat) (cmp : A -> V -> bool) (first last : nat)
      (value : V) (l : list A) : res nat :=
    match fuel with
    | O => OutOfFuel
    | S fuel =>
        if first =? last then Ok first
        else
          let mid := first + (last - first) / 2 in
          x <- rd l mid ;;
          if cmp x value then lower_bound_loop fuel cmp (S mid) last value l
          else lower_bound_loop fuel cmp first mid value l
    end.

  Definition lower_bound (cmp : A -> V -> bool) (value : V) (l : list A) : res nat :=
    lower_bound_loop (S (length l)) cmp 0 (length l) value l.

  (** upper_bound, daw_algorithm.h 1335-1360. *)
  Fixpoint upper_bound_loop (fuel : nat) (comp : V -> A -> bool) (first count : nat)
      (value : V) (l : list A) : res nat :=
    match fuel with
    | O => OutOfFuel
    | S fuel =>
        if 0 <? count then
          let step := count / 2 in
          let it := first + step in
          x <- rd l it ;;
          if negb (comp value x)
          then upper_bound_loop fuel comp (S it) (count - (step + 1)) value l
          else upper_bound_loop fuel comp first step value l
        else Ok first
    end.

  Definition upper_bound (comp : V -> A -> bool) (value : V) (l : list A) : res nat :=
    upper_bound_loop (S (length l)) comp 0 (length l) value l.

  (** binary_search, daw_algorithm.h 339-365, with midpoint 273-284 inlined;
      [less1] is [less_than( element, value )], [less2] the other order. *)
  Fixpoint binary_search_loop (fuel : nat) (less1 : A -> V -> bool) (less2 : V -> A -> bool)
      (first it_last last : nat) (value : V) (l : list A) : res nat :=
    match fuel with
    | O => OutOfFuel
    | S fuel =>
        if first <? it_last then
          if negb (first <=? it_last) then Throw
          else
            let mid := first + (it_last - first) / 2 in
            x <- rd l mid ;;
            if less1 x value then
              binary_search_loop fuel less1 less2 (S mid) it_last last value l
            else if less2 value x then
              binary_search_loop fuel less1 less2 first mid last value l
            else Ok mid
        else Ok last
    end.

  Definition binary_search (less1 : A -> V -> bool) (less2 : V -> A -> bool)
      (value : V) (l : list A) : res nat :=
    if 0 <? length l
    then binary_search_loop (S (length l)) less1 less2 0 (length l) (length l) value l
    else Throw.
End Halving.

(** * Clamped iterator motion.  Positions are integers, a container occupies
    [0, n]; distances are 64-bit ptrdiff_t values. *)
Definition to_ptrdiff (z : Z) : Z :=
  let m := (z mod 2 ^ 64)%Z in if (m <? 2 ^ 63)%Z then m else (m - 2 ^ 64)%Z.

(** daw_algorithm.h 103-107, first loop: forward steps. *)
Fixpoint step_forward (fuel : nat) (it last dist : Z) : res (Z * Z) :=
  match fuel with
  | O => OutOfFuel
  | S fuel =>
      if negb (it =? last)%Z && (0 <? dist)%Z
      then step_forward fuel (it + 1)%Z last (dist - 1)%Z
      else Ok (it, dist)
  end.

(** daw_algorithm.h 109-110, second loop: backward steps. *)
Fixpoint step_back (fuel : nat) (first it dist : Z) : res Z :=
  match fuel with
  | O => OutOfFuel
  | S fuel =>
      if negb (it =? first)%Z && (dist <? 0)%Z
      then step_back fuel first (it - 1)%Z (dist + 1)%Z
      else Ok it
  end.

(** safe_advance_impl for step-by-step iterators, 93-111. *)
Definition safe_advance_steps (fuel : nat) (first it last dist : Z) : res Z :=
  '(it, dist) <- step_forward fuel it last dist ;;
  step_back fuel first it dist.

(** safe_advance_impl for random access iterators, 113-141; negating the most
    negative ptrdiff_t is undefined. *)
Definition safe_advance_ra (first it last dist : Z) : res Z :=
  if (dist <? 0)%Z then
    let dist_to_first := (it - first)%Z in
    if (dist_to_first <? 0)%Z then Ok first
    else if (dist =? - 2 ^ 63)%Z then UB
    else Ok (it - Z.min dist_to_first (- dist))%Z
  else
    let dist_to_last := (last - it)%Z in
    if (dist_to_last <? 0)%Z then Ok last
    else Ok (it + Z.min dist_to_last dist)%Z.

(** Which safe_advance_impl is selected. *)
Definition safe_advance_impl (random_access : bool) (fuel : nat) (first it last dist : Z) : res Z :=
  if random_access then safe_advance_ra first it last dist
  else safe_advance_steps fuel first it last dist.

(** safe_advance, 151-188: container [0,n]. *)
Definition safe_advance (ra : bool) (fuel : nat) (n it distance : Z) : res Z :=
  safe_advance_impl ra fuel 0 it n (to_ptrdiff distance).

(** safe_next, 197-206. *)
Definition safe_next (ra : bool) (fuel : nat) (it last n : Z) : res Z :=
  safe_advance_impl ra fuel it it last (to_ptrdiff n).

(** safe_prev, 215-224; [-d] overflows for the most negative [d]. *)
Definition safe_prev (ra : bool) (fuel : nat) (it first n : Z) : res Z :=
  let d := to_ptrdiff n in
  if (d =? - 2 ^ 63)%Z then UB
  else safe_advance_impl ra fuel first it it (- d).

(** begin_at, 231-258. *)
Definition begin_at (ra : bool) (fuel : nat) (n k : Z) : res Z :=
  safe_advance ra fuel n 0 (to_ptrdiff k).

(** * Linear scans *)
Section Scan.
  Context {A : Type}.

  (** find_if, algorithms/daw_algorithm_find.h 61-78; find_first_of with a
      predicate, 19-35, is the same loop. *)
  Fixpoint find_if (pred : A -> bool) (l : list A) : nat :=
    match l with
    | [] => 0
    | x :: t => if pred x then 0 else S (find_if pred t)
    end.

  (** find, daw_algorithm.h 309-320; [eqb] is [operator==]. *)
  Fixpoint find {V} (eqb : A -> V -> bool) (value : V) (l : list A) : nat :=
    match l with
    | [] => 0
    | x :: t => if eqb x value then 0 else S (find eqb value t)
    end.

  (** find_if_not, daw_algorithm.h 322-336. *)
  Fixpoint find_if_not (pred : A -> bool) (l : list A) : nat :=
    match l with
    | [] => 0
    | x :: t => if negb (pred x) then 0 else S (find_if_not pred t)
    end.

  (** find_first_of with a set of values, daw_algorithm_find.h 37-55. *)
  Fixpoint find_first_of_set {V} (eqb : A -> V -> bool) (s : list V) (l : list A) : nat :=
    match l with
    | [] => 0
    | x :: t =>
        if (fix inner (s : list V) : bool :=
              match s with
              | [] => false
              | y :: s' => if eqb x y then true else inner s'
              end) s
        then 0 else S (find_first_of_set eqb s t)
    end.

  (** find_index_if, daw_algorithm.h 1963-1978. *)
  Fixpoint find_index_if_loop (pred : A -> bool) (idx : nat) (l : list A) : option nat :=
    match l with
    | [] => None
    | x :: t => if pred x then Some idx else find_index_if_loop pred (S idx) t
    end.
  Definition find_index_if (pred : A -> bool) (l : list A) : option nat :=
    find_index_if_loop pred 0 l.

  (** find_index, daw_algorithm.h 1980-1987. *)
  Definition find_index {V} (eqb : A -> V -> bool) (value : V) (l : list A) : option nat :=
    find_index_if (fun v => eqb v value) l.

  (** find_index_of, daw_algorithm.h 2027-2035; [neqb] is [operator!=]. *)
  Fixpoint find_index_of {V} (neqb : A -> V -> bool) (v : V) (l : list A) : nat :=
    match l with
    | [] => 0
    | x :: t => if neqb x v then S (find_index_of neqb v t) else 0
    end.

  (** find_index_of_if, daw_algorithm.h 2037-2045. *)
  Fixpoint find_index_of_if (pred : A -> bool) (l : list A) : nat :=
    match l with
    | [] => 0
    | x :: t => if negb (pred x) then S (find_index_of_if pred t) else 0
    end.

  (** contains, daw_algorithm.h 2047-2058. *)
  Fixpoint contains {V} (cmp : A -> V -> bool) (value : V) (l : list A) : bool :=
    match l with
    | [] => false
    | x :: t => if cmp x value then true else contains cmp value t
    end.

  (** contains_if, daw_algorithm.h 2060-2069. *)
  Fixpoint contains_if (pred : A -> bool) (l : list A) : bool :=
    match l with
    | [] => false
    | x :: t => if pred x then true else contains_if pred t
    end.

  (** adjacent_find, algorithms/daw_algorithm_adjacent_find.h 12-31. *)
  Fixpoint adjacent_find_loop (p : A -> A -> bool) (x : A) (l : list A) : nat :=
    match l with
    | [] => 1
    | y :: t => if p x y then 0 else S (adjacent_find_loop p y t)
    end.
  Definition adjacent_find (p : A -> A -> bool) (l : list A) : nat :=
    match l with
    | [] => 0
    | x :: t => adjacent_find_loop p x t
    end.

  (** find_last_of, daw_algorithm.h 543-560: the end of the leading run.
      [prev] is the position remembered so far, [cur] the current one. *)
  Fixpoint find_last_of_loop (pred : A -> bool) (prev cur : nat) (l : list A) : nat :=
    match l with
    | [] => prev
    | x :: t => if negb (pred x) then prev else find_last_of_loop pred cur (S cur) t
    end.
  Definition find_last_of (pred : A -> bool) (l : list A) : nat :=
    find_last_of_loop pred (length l) 0 l.

  (** find_first_range_of, daw_algorithm.h 562-575. *)
  Definition find_first_range_of (pred : A -> bool) (l : list A) : nat * nat :=
    let first := find_if pred l in
    let rest := skipn first l in
    let second := find_last_of pred rest in
    (first, first + (if second =? length rest then second else S second)).
End Scan.

Section Scan2.
  Context {A : Type}.

  (** find_one_of, daw_algorithm.h 2114-2127: position and index of the first
      predicate that holds ([None]: the index is size_t(-1)). *)
  Fixpoint find_one_of (preds : list (A -> bool)) (l : list A) : nat * option nat :=
    match l with
    | [] => (0, None)
    | x :: t =>
        match find_index_if (fun p => p x) preds with
        | Some idx => (0, Some idx)
        | None => let '(p, i) := find_one_of preds t in (S p, i)
        end
    end.

  (** all_of / any_of / none_of, daw_algorithm.h 1924-1936 *)
  Definition all_of (p : A -> bool) (l : list A) : bool := find_if_not p l =? length l.
  Definition any_of (p : A -> bool) (l : list A) : bool := negb (find_if p l =? length l).
  Definition none_of (p : A -> bool) (l : list A) : bool := find_if p l =? length l.

  (** satisfies_one on a value, 593-622; the first function is mandatory. *)
  Fixpoint satisfies_one (value : A) (func : A -> bool) (funcs : list (A -> bool)) : bool :=
    match funcs with
    | [] => func value
    | f :: fs => func value || satisfies_one value f fs
    end.

  (** satisfies_one on a range, 632-657. *)
  Fixpoint satisfies_one_range (l : list A) (func : A -> bool) (funcs : list (A -> bool)) : bool :=
    match l with
    | [] => false
    | x :: t => if satisfies_one x func funcs then true else satisfies_one_range t func funcs
    end.

  (** satisfies_all on a value, 663-684. *)
  Fixpoint satisfies_all (value : A) (func : A -> bool) (funcs : list (A -> bool)) : bool :=
    match funcs with
    | [] => func value
    | f :: fs => func value && satisfies_all value f fs
    end.

  (** satisfies_all on a range, 694-717. *)
  Fixpoint satisfies_all_range (l : list A) (func : A -> bool) (funcs : list (A -> bool)) : bool :=
    match l with
    | [] => true
    | x :: t => if negb (satisfies_all x func funcs) then false
                else satisfies_all_range t func funcs
    end.

  (** all_equal, 1799-1814 *)
  Definition all_equal (comp : A -> A -> bool) (l : list A) : bool :=
    match l with
    | [] => true
    | x :: t =>
        (fix loop (t : list A) : bool :=
           match t with
           | [] => true
           | y :: t' => if negb (comp x y) then false else loop t'
           end) t
    end.

  (** count_if, 2013-2024 (ResultType wide enough to hold the count). *)
  Fixpoint count_if_loop (pred : A -> bool) (result : nat) (l : list A) : nat :=
    match l with
    | [] => result
    | x :: t => count_if_loop pred (if pred x then S result else result) t
    end.
  Definition count_if (pred : A -> bool) (l : list A) : nat := count_if_loop pred 0 l.

  (** search, 1574-1604.  Inner loop outcome: *)
  Inductive inner_out := Matched | AtEnd | Mismatch.
  Context {B : Type}.
  Fixpoint search_inner (comp : A -> B -> bool) (it : list A) (s_it : list B) : inner_out :=
    match s_it with
    | [] => Matched
    | y :: s' =>
        match it with
        | [] => AtEnd
        | x :: it' => if negb (comp x y) then Mismatch else search_inner comp it' s'
        end
    end.
  (** The outer [for( ;; ++first )]; advancing past the end would be undefined,
      hence [UB] when a mismatch is reported on the empty rest. *)
  Fixpoint search (comp : A -> B -> bool) (l : list A) (s : list B) : res nat :=
    match search_inner comp l s with
    | Matched => Ok 0
    | AtEnd => Ok (length l)
    | Mismatch =>
        match l with
        | [] => UB
        | _ :: t => p <- search comp t s ;; Ok (S p)
        end
    end.
End Scan2.
