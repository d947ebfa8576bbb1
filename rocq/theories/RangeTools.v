(** Model of the loops of daw_container_algorithm.h, of iterator/daw_sorted_insert_iterator.h
    (with iterator/daw_function_iterator.h), of pipelines/foreach.h, elements.h, swizzle.h,
    maybe.h and sample.h (on pipelines/filter.h), and of daw_swap.h.

    Ranges are lists; output goes to an array, writing outside it is undefined.  The
    wrappers of std algorithms in daw_container_algorithm.h are not modelled; the second
    copy_n (lines 476-499) and the operators + and - with a number of the element
    iterators do not compile when used.  No proofs in this file. *)
From Verif Require Import Common AlgSearch.
Open Scope Z_scope.

(** * daw_container_algorithm.h *)
Section Containers.
  Context {A St : Type}.

  (** copy, lines 422-434: [d] is the position of the destination in the array [out]. *)
  Fixpoint copy (src : list A) (out : list A) (d : nat) : res (list A) :=
    match src with
    | [] => Ok out
    | x :: src => out <- wr out d x ;; copy src out (S d)
    end.

  (** copy_n, lines 436-447. *)
  Fixpoint copy_n_loop (n : nat) (src : list A) (i : nat) (out : list A) (d : nat) : res (list A) :=
    match n with
    | O => Ok out
    | S n => x <- rd src i ;; out <- wr out d x ;; copy_n_loop n src (S i) out (S d)
    end.
  Definition copy_n (src : list A) (count : Z) (out : list A) (d : nat) : res (list A) :=
    let count := Z.min count (Z.of_nat (length src)) in
    copy_n_loop (Z.to_nat count) src 0 out d.

  (** copy_if, lines 449-474: the array and the returned position. *)
  Fixpoint copy_if (src : list A) (out : list A) (d : nat) (pred : A -> bool) : res (list A * nat) :=
    match src with
    | [] => Ok (out, d)
    | x :: src => if pred x then out <- wr out d x ;; copy_if src out (S d) pred
                  else copy_if src out d pred
    end.

  (** for_each_with_pos( container, first, last, func ), lines 502-521.  The function may
      change its own state and the element. *)
  Variable func : St -> A -> Z -> St * A.
  Fixpoint each_pos_loop (fuel : nat) (st : St) (l : list A) (it : nat) (row last : Z) : res (St * list A) :=
    match fuel with
    | O => OutOfFuel
    | S fuel =>
        if row <? last then
          x <- rd l it ;;
          let '(st, x') := func st x row in
          l <- wr l it x' ;;
          each_pos_loop fuel st l (S it) (row + 1) last
        else Ok (st, l)
    end.
  Definition for_each_with_pos (st : St) (l : list A) (first last : Z) : res (St * list A) :=
    it <- begin_at true 0 (Z.of_nat (length l)) first ;;
    each_pos_loop (S (Z.to_nat (last - first))) st l (Z.to_nat it) first last.
  (** for_each_with_pos( container, func ), lines 523-534. *)
  Definition for_each_with_pos_all (st : St) (l : list A) : res (St * list A) :=
    for_each_with_pos st l 0 (Z.of_nat (length l)).
End Containers.

(** for_each_subset, lines 545-562: the function gets the container and a position. *)
Fixpoint subset_loop {C : Type} (func : C -> Z -> C) (fuel : nat) (c : C) (first last : Z) : res C :=
  match fuel with
  | O => OutOfFuel
  | S fuel => if first <? last then subset_loop func fuel (func c first) (first + 1) last else Ok c
  end.
Definition for_each_subset {C : Type} (func : C -> Z -> C) (c : C) (first last : Z) : res C :=
  subset_loop func (S (Z.to_nat (last - first))) c first last.

(** * iterator/daw_sorted_insert_iterator.h *)
Section SortedInsert.
  Context {A : Type}.
  Variable comp : A -> A -> bool.
  (** [*it = value], lines 24-61 and daw_function_iterator.h lines 37-44: std::lower_bound,
      as a halving search, and emplace there. *)
  Definition sorted_insert (c : list A) (value : A) : res (list A) :=
    pos <- lower_bound comp value c ;;
    Ok (firstn pos c ++ value :: skipn pos c).
  (** A sequence of [*it = value; ++it]. *)
  Fixpoint sorted_insert_all (c : list A) (values : list A) : res (list A) :=
    match values with
    | [] => Ok c
    | v :: values => c <- sorted_insert c v ;; sorted_insert_all c values
    end.
End SortedInsert.

(** * pipelines/sample.h *)
Section Sample.
  Context {A E : Type}.
  (** One call of the distribution with the engine. *)
  Variable draw : E -> Z * E.
  Variable number_to_keep : Z.

  (** filter_view with the predicate of Sample (filter.h lines 43-66, 105-111; sample.h lines
      37-43): what is left of the range, and the engine that the predicate owns. *)
  Fixpoint settle (rest : list A) (e : E) : list A * E :=
    match rest with
    | [] => ([], e)
    | x :: t => let '(n, e) := draw e in
                if n <=? number_to_keep then (rest, e) else settle t e
    end.
  (** operator++, filter.h lines 105-111; undefined at the end. *)
  Definition advance (v : list A * E) : res (list A * E) :=
    match v with
    | ([], _) => UB
    | (_ :: t, e) => Ok (settle t e)
    end.
  (** A loop over begin( ) .. end( ): begin is a copy of the view, with its engine. *)
  Fixpoint traverse (fuel : nat) (v : list A * E) : res (list A) :=
    match fuel with
    | O => OutOfFuel
    | S fuel =>
        match v with
        | ([], _) => Ok []
        | (x :: _, _) => v <- advance v ;; l <- traverse fuel v ;; Ok (x :: l)
        end
    end.
  (** Sample_t::operator( ), sample.h lines 27-44; daw_ensure stops the program ([Throw]).
      The engine of the Sample_t object, which is const here, is copied. *)
  Definition sample (sample_size : Z) (l : list A) (e : E) : res (list A * E) :=
    if number_to_keep <? sample_size then Ok (settle l e) else Throw.
  Definition run_view (v : list A * E) : res (list A) := traverse (S (length (fst v))) v.
End Sample.

(** * pipelines/foreach.h, lines 17-73 *)
Section ForEach.
  Context {A St : Type}.
  (** The function may change its own state and the element. *)
  Variable fn : St -> A -> St * A.
  (** ForEach_t::operator( ) and ForEachApply_t::operator( ). *)
  Fixpoint for_each (st : St) (r : list A) : St * list A :=
    match r with
    | [] => (st, [])
    | x :: r => let '(st, x') := fn st x in
                let '(st, r') := for_each st r in (st, x' :: r')
    end.
  (** ForEachIndexed, lines 64-73. *)
  Fixpoint indexed_loop (fuel : nat) (st : St) (r : list A) (n : nat) : res (St * list A) :=
    match fuel with
    | O => OutOfFuel
    | S fuel => if (n <? length r)%nat then
                  x <- rd r n ;;
                  let '(st, x') := fn st x in
                  r <- wr r n x' ;;
                  indexed_loop fuel st r (S n)
                else Ok (st, r)
    end.
  Definition for_each_indexed (st : St) (r : list A) : res (St * list A) := indexed_loop (S (length r)) st r 0.
End ForEach.

(** * pipelines/maybe.h, elements.h, swizzle.h: the elements that a loop over the view sees *)

(** maybe_view, lines 18-52: from the pointer (a cell or null) to one past it. *)
Definition maybe_elements {A : Type} (m_value : option A) : list A :=
  match m_value with Some x => [x] | None => [] end.

Section Elements.
  Context {V : Type}.
  (** A tuple is the list of its elements; std::get< Index >. *)
  Definition get_elem (index : nat) (t : list V) : res V := rd t index.
  Fixpoint get_elems (indices : list nat) (t : list V) : res (list V) :=
    match indices with
    | [] => Ok []
    | i :: indices => x <- get_elem i t ;; l <- get_elems indices t ;; Ok (x :: l)
    end.
  (** A loop over element_view (lines 162-195) or elements_view (lines 354-388): [*it] of the
      position, ++ of the underlying iterator, until it equals the end. *)
  Fixpoint view_loop {W : Type} (fuel : nat) (get : list V -> res W) (r : list (list V)) (it last : nat) : res (list W) :=
    match fuel with
    | O => OutOfFuel
    | S fuel => if (it =? last)%nat then Ok []
                else t <- rd r it ;; x <- get t ;; l <- view_loop fuel get r (S it) last ;; Ok (x :: l)
    end.
  Definition element (index : nat) (r : list (list V)) : res (list V) :=
    view_loop (S (length r)) (get_elem index) r 0 (length r).
  Definition elements (indices : list nat) (r : list (list V)) : res (list (list V)) :=
    view_loop (S (length r)) (get_elems indices) r 0 (length r).
  (** Swizzle of tuples, swizzle.h lines 25-41: a map_view with the same accesses.  (Of other
      values, lines 42-48, the range is zipped with itself: not modelled.) *)
  Definition swizzle (indices : list nat) (r : list (list V)) : res (list (list V)) :=
    view_loop (S (length r)) (get_elems indices) r 0 (length r).
End Elements.

(** * daw_swap.h *)
Section Swap.
  Context {A : Type}.
  (** cswap of two objects in memory, trivially copyable (lines 49-51) or scalar (52-54):
      [tmp = lhs; lhs = exchange( rhs, tmp )]. *)
  Definition cswap (mem : list A) (lhs rhs : nat) : res (list A) :=
    tmp <- rd mem lhs ;;
    old <- rd mem rhs ;;
    mem <- wr mem rhs tmp ;;
    wr mem lhs old.
  (** iter_swap, lines 67-75. *)
  Definition iter_swap (mem : list A) (lhs rhs : nat) : res (list A) :=
    tmp <- rd mem lhs ;;
    r <- rd mem rhs ;;
    mem <- wr mem lhs r ;;
    wr mem rhs tmp.
  (** swap_ranges, lines 77-88, of two arrays of pointers, given as the lists of what they
      point to: [daw::iter_swap( *first1, *first2 )] swaps through the elements.  (For
      elements that cannot be dereferenced it does not compile.)  cswap of two
      std::array (lines 90-96) is a call of it.  The result is the memory and the two arrays. *)
  Fixpoint swap_ranges (mem : list A) (ptrs1 ptrs2 : list nat) : res (list A * list nat * list nat) :=
    match ptrs1, ptrs2 with
    | [], _ => Ok (mem, ptrs1, ptrs2)
    | _ :: _, [] => UB
    | p :: t1, q :: t2 => mem <- iter_swap mem p q ;; '(mem, t1, t2) <- swap_ranges mem t1 t2 ;; Ok (mem, p :: t1, q :: t2)
    end.
End Swap.
