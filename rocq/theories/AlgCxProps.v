(** Rotating, selecting and partitioning: daw_algorithm_cx.h. *)
From Coq Require Import Permutation.
From Verif Require Import Common AlgCx SpecAlgCx AlgCxProofs.

(** * C268 Rotating a range *)

(** The range from first to last, with [middle] in between, becomes the part from [middle] on followed by the part before it.  Missing: a range whose middle is its end, see below. *)
Theorem C268_rotate_partial :
  forall (T : Type) (before X Y after : list T), (Y = [] -> X = []) ->
  exists l', rotate (before ++ X ++ Y ++ after) (length before) (length before + length X) (length before + length X + length Y) = Ok l' /\
    range_becomes before (X ++ Y) (Y ++ X) after (before ++ X ++ Y ++ after) l'.
Proof. exact c268_rotate_partial. Qed.

(** With [middle] equal to [last] nothing is to be rotated; but the loop starts with the element past the end, and runs out of every array. *)
Theorem C268_rotate_refuted :
  forall (T : Type) (l : list T) first last, (first < last)%nat -> rotate l first last last = UB.
Proof. exact c268_rotate_refuted. Qed.

Example C268_ex : rotate [0; 1; 2; 3; 4; 5; 6; 7] 1 3 7 = Ok [0; 3; 4; 5; 6; 1; 2; 7] /\ rotate [0; 1; 2; 3; 4; 5; 6; 7] 1 6 7 = Ok [0; 6; 1; 2; 3; 4; 5; 7]
  /\ rotate [0; 1; 2] 0 3 3 = UB /\ rotate [0; 1; 2; 3; 4] 1 2 2 = UB /\ rotate [0; 1; 2] 1 1 1 = Ok [0; 1; 2].
Proof. repeat split. Qed.
Print Assumptions C268_rotate_partial.
Print Assumptions C268_rotate_refuted.

(** * C269 Selecting the nth element *)

(** The call ends within the range and rearranges it.  Missing: that the element at the position is the one a sorted range has there, which fails, see below. *)
Theorem C269_nth_element_partial :
  forall (T : Type) (comp : T -> T -> bool) (before a after : list T) n, (n <= length a)%nat ->
  exists b, nth_element comp (before ++ a ++ after) (length before) (length before + n) (length before + length a) = Ok (before ++ b ++ after) /\
    Permutation a b.
Proof. exact c269_nth_element_partial. Qed.

(** The smallest element is to be selected, and the first is not: nothing is done. *)
Theorem C269_nth_first_refuted :
  forall (T : Type) (comp : T -> T -> bool) (before after a : list T) x y, In y a -> comp y x = true ->
  nth_element comp (before ++ (x :: a) ++ after) (length before) (length before) (length before + length (x :: a)) = Ok (before ++ (x :: a) ++ after) /\
  ~ nth_selected comp (x :: a) (x :: a) 0.
Proof. exact c269_nth_first_refuted. Qed.

(** Three elements of which the first is the greatest: the second position gets that one. *)
Theorem C269_nth_second_refuted :
  forall (T : Type) (comp : T -> T -> bool) (before after : list T) x y z, comp y x = true -> comp z x = true ->
  nth_element comp (before ++ [x; y; z] ++ after) (length before) (length before + 1) (length before + 3) = Ok (before ++ [z; x; y] ++ after) /\
  ~ nth_selected comp [x; y; z] [z; x; y] 1.
Proof. exact c269_nth_second_refuted. Qed.

Example C269_ex : nth_element Nat.ltb [9; 3; 1; 2; 0] 1 2 4 = Ok [9; 2; 3; 1; 0] /\ nth_element Nat.ltb [3; 1; 2] 0 0 3 = Ok [3; 1; 2]
  /\ nth_element Nat.ltb [2; 1; 3] 0 1 3 = Ok [1; 2; 3] /\ nth_element Nat.ltb [2; 1] 0 1 3 = UB.
Proof. repeat split. Qed.
Print Assumptions C269_nth_element_partial.
Print Assumptions C269_nth_first_refuted.
Print Assumptions C269_nth_second_refuted.

(** * C270 Partitioning a range *)

(** The elements that satisfy the predicate come first, in their order, and the iterator returned points behind them; the rest of the array stays. *)
Theorem C270_partition :
  forall (T : Type) (p : T -> bool) (before a after : list T),
  exists others, partition p (before ++ a ++ after) (length before) (length before + length a) =
      Ok (before ++ (filter p a ++ others) ++ after, (length before + length (filter p a))%nat) /\
    partitioned p a (filter p a ++ others) (length (filter p a)).
Proof. exact c270_partition. Qed.

Example C270_ex : partition Nat.even [9; 2; 3; 5; 4; 6; 7; 8] 1 7 = Ok ([9; 2; 4; 6; 3; 5; 7; 8], 4)
  /\ partition Nat.even [1; 3] 0 2 = Ok ([1; 3], 0) /\ partition Nat.even [2; 4] 0 2 = Ok ([2; 4], 2).
Proof. repeat split. Qed.
Print Assumptions C270_partition.
