(** Model of daw_algorithm_cx.h (cx.h): rotate, nth_element and partition.

    Iterators are positions in the array that the range is part of; reading or swapping
    outside the array is undefined behaviour.  Comparators and predicates are pure
    functions.  slide (cx.h:46-64) makes a pair of the result of rotate, which is void, so
    it does not compile when it is used; it is not modelled.  No proofs in this file. *)
From Verif Require Import Common.

(** cx.h:33-43: the loop of rotate. *)
Fixpoint rotate_loop {A} (fuel : nat) (l : list A) (first middle last tmp : nat) : res (list A) :=
  match fuel with
  | O => OutOfFuel
  | S fuel =>
      if first =? tmp then Ok l
      else
        l <- swap_at l first tmp;;
        let first := S first in
        let tmp := S tmp in
        if tmp =? last then rotate_loop fuel l first middle last middle
        else if first =? middle then rotate_loop fuel l first tmp last tmp
        else rotate_loop fuel l first middle last tmp
  end.
(** cx.h:25-44 rotate.  Each step advances first and tmp, or moves tmp back behind first. *)
Definition rotate {A} (l : list A) (first middle last : nat) : res (list A) :=
  rotate_loop (S (length l)) l first middle last middle.

(** cx.h:84-90: the inner loop; [n] is last - j. *)
Fixpoint nth_inner {A} (comp : A -> A -> bool) (n : nat) (l : list A) (first min_idx j : nat) : res (list A) :=
  match n with
  | O => Ok l
  | S n =>
      x <- rd l j;;
      m <- rd l min_idx;;
      if comp x m then
        l <- swap_at l first j;;
        nth_inner comp n l first j (S j)
      else nth_inner comp n l first min_idx (S j)
  end.
(** cx.h:81-92: the outer loop; [n] is nth - first. *)
Fixpoint nth_outer {A} (comp : A -> A -> bool) (n : nat) (l : list A) (first last : nat) : res (list A) :=
  match n with
  | O => Ok l
  | S n =>
      l <- nth_inner comp (last - S first) l first first (S first);;
      nth_outer comp n l (S first) last
  end.
(** cx.h:66-93 nth_element, for first <= nth <= last. *)
Definition nth_element {A} (comp : A -> A -> bool) (l : list A) (first nth last : nat) : res (list A) :=
  if first =? last then Ok l else nth_outer comp (nth - first) l first last.

(** daw_algorithm.h:322-336 find_if_not; [n] is last - first. *)
Fixpoint find_if_not {A} (p : A -> bool) (n : nat) (l : list A) (first : nat) : res nat :=
  match n with
  | O => Ok first
  | S n =>
      x <- rd l first;;
      if p x then find_if_not p n l (S first) else Ok first
  end.
(** cx.h:109-114: the loop of partition; [n] is last - it.  iter_swap swaps the values. *)
Fixpoint partition_loop {A} (p : A -> bool) (n : nat) (l : list A) (first it : nat) : res (list A * nat) :=
  match n with
  | O => Ok (l, first)
  | S n =>
      x <- rd l it;;
      if p x then
        l <- swap_at l it first;;
        partition_loop p n l (S first) (S it)
      else partition_loop p n l first (S it)
  end.
(** cx.h:95-116 partition: the array afterwards, and the iterator it returns. *)
Definition partition {A} (p : A -> bool) (l : list A) (first last : nat) : res (list A * nat) :=
  first <- find_if_not p (last - first) l first;;
  if first =? last then Ok (l, first)
  else partition_loop p (last - S first) l first (S first).
