(** Model of daw::sort_to of include/daw/daw_sort_n.h: the output buffer is a
    list written from position [first_out] on; input and output are distinct.
    The result is the returned output position and the buffer. *)
From Verif Require Import Common SortNet SortIntro.

(** daw::algorithm::copy, algorithms/daw_algorithm_copy.h 25-41. *)
Fixpoint copy_to {A} (input : list A) (o : nat) (out : list A) : res (nat * list A) :=
  match input with
  | [] => Ok (o, out)
  | x :: t => out' <- wr out o x ;; copy_to t (S o) out'
  end.

(** sort_to for non-integral elements, daw_sort_n.h 730-744. *)
Definition sort_to_copy {A} (comp : A -> A -> bool) (limit : nat)
    (input : list A) (first_out : nat) (out : list A) : res (nat * list A) :=
  '(last_out, out1) <- copy_to input first_out out ;;
  out2 <- sort comp limit first_out last_out out1 ;;
  Ok (last_out, out2).

(** [static_cast<std::size_t>( v % 10 )] used as an index into 10 counters
    (760, 768, 777): C++ [%] truncates, so a negative remainder becomes a huge
    index, outside the array. *)
Definition digit (v : Z) : res nat :=
  let r := Z.rem v 10 in
  if (r <? 0)%Z then UB else Ok (Z.to_nat r).

(** daw_sort_n.h 757-762 *)
Fixpoint count_pass (input : list Z) (counts : list nat) : res (list nat) :=
  match input with
  | [] => Ok counts
  | v :: t =>
      p <- digit v ;;
      c <- rd counts p ;;
      counts' <- wr counts p (S c) ;;
      count_pass t counts'
  end.

(** daw::algorithm::partial_sum, algorithms/daw_algorithm_partial_sum.h 16-43;
    [sum] is the running sum (0 before the first element). *)
Fixpoint partial_sum (sum : nat) (l : list nat) : list nat :=
  match l with
  | [] => []
  | x :: t => (sum + x) :: partial_sum (sum + x) t
  end.

(** daw_sort_n.h 766-772; [counts[pos] - 1U] at 0 would be a huge index. *)
Fixpoint place_asc (input : list Z) (counts : list nat) (first_out : nat)
    (out : list Z) : res (list Z) :=
  match input with
  | [] => Ok out
  | v :: t =>
      p <- digit v ;;
      c <- rd counts p ;;
      c1 <- dec c ;;
      out' <- wr out (first_out + c1) v ;;
      counts' <- wr counts p c1 ;;
      place_asc t counts' first_out out'
  end.

Definition to_int64 (z : Z) : Z :=
  let m := (z mod 2 ^ 64)%Z in if (m <? 2 ^ 63)%Z then m else (m - 2 ^ 64)%Z.

(** daw_sort_n.h 774-781: the loop never advances first_in, so [v] and the
    counter cell [c] are the same in every step; [k] counts [++rf].
    [rf[n]] is the element at [first_out + d - 1 - (k + n)], [n] being the
    64-bit [counts[pos] - 1U] converted to difference_type. *)
Fixpoint place_desc (steps k d : nat) (v : Z) (c : Z) (first_out : nat)
    (out : list Z) : res (list Z) :=
  match steps with
  | O => Ok out
  | S steps =>
      let n := to_int64 (c - 1) in
      let pos := (Z.of_nat (first_out + d) - 1 - (Z.of_nat k + n))%Z in
      if (pos <? 0)%Z then UB
      else
        out' <- wr out (Z.to_nat pos) v ;;
        place_desc steps (S k) d v ((c - 1) mod 2 ^ 64)%Z first_out out'
  end.

(** daw_sort_n.h 747-784 *)
Definition counting_sort (comp : Z -> Z -> bool) (input : list Z)
    (first_out : nat) (out : list Z) : res (nat * list Z) :=
  counts <- count_pass input (repeat 0 10) ;;
  let counts := partial_sum 0 counts in
  let d := length input in
  if comp 0%Z 1%Z then
    out' <- place_asc input counts first_out out ;;
    Ok (first_out + d, out')
  else
    match input with
    | [] => Ok (first_out + d, out)
    | v :: _ =>
        p <- digit v ;;
        c <- rd counts p ;;
        out' <- place_desc d 0 d v (Z.of_nat c) first_out out ;;
        Ok (first_out + d, out')
    end.

(** sort_to for integral elements, daw_sort_n.h 787-801. *)
Definition sort_to_integral (comp : Z -> Z -> bool) (limit : nat)
    (input : list Z) (first_out : nat) (out : list Z) : res (nat * list Z) :=
  '(last_out, out1) <- counting_sort comp input first_out out ;;
  out2 <- sort comp limit first_out last_out out1 ;;
  Ok (last_out, out2).
