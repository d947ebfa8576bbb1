(** C02 and C03: daw::sort and daw::sort_to. *)
From Verif Require Import Common CommonProofs SpecSort SortNet SortIntro SortIntroProofs
  SortTo SortToProofs SortNetProps.

(** C02.  [sort comp limit first last arr] on any array [pre ++ mid ++ post]
    with the range being [mid]: it returns (no undefined access, no fuel
    exhaustion), [pre] and [post] are untouched, and [mid] becomes a sorted
    permutation.  [limit] is 30 or 6 in the code, by element type. *)
Theorem C02_sort : forall A (comp : A -> A -> bool), strict_weak comp ->
  forall limit pre mid post,
  exists mid',
    sort comp limit (length pre) (length pre + length mid) (pre ++ mid ++ post)
      = Ok (pre ++ mid' ++ post) /\
    Permutation mid mid' /\ sorted_by comp mid'.
Proof. exact @sort_sorts. Qed.
Print Assumptions C02_sort.

Example sort_runs : sort Nat.ltb 6 1 21
  [99; 5;3;9;1;7;7;2;8;15;14;0;11;3;6;12;4;9;9;9;1; 98] =
  Ok [99; 0;1;1;2;3;3;4;5;6;7;7;8;9;9;9;9;11;12;14;15; 98].
Proof. vm_compute. reflexivity. Qed.

(** The range is not padded: reading past the array would show as [UB]. *)
Example sort_past_end : sort Nat.ltb 6 0 10 [9;8;7;6;5;4;3;2;1] = UB.
Proof. vm_compute. reflexivity. Qed.

(** C03, non-integral elements: full. *)
Theorem C03_sort_to_copy : forall A (comp : A -> A -> bool), strict_weak comp ->
  forall limit input pre old post, length old = length input ->
  exists sorted,
    sort_to_copy comp limit input (length pre) (pre ++ old ++ post) =
      Ok (length pre + length input, pre ++ sorted ++ post) /\
    Permutation input sorted /\ sorted_by comp sorted.
Proof. exact @sort_to_copy_ok. Qed.
Print Assumptions C03_sort_to_copy.

(** C03, integral elements.  Missing: elements with a negative remainder, and
    comparators that do not put 0 before 1 - both refuted below. *)
Theorem C03_sort_to_integral_partial :
  forall comp, strict_weak comp -> comp 0%Z 1%Z = true ->
  forall limit input pre old post,
  Forall (fun v => (0 <= Z.rem v 10)%Z) input -> length old = length input ->
  exists sorted,
    sort_to_integral comp limit input (length pre) (pre ++ old ++ post) =
      Ok (length pre + length input, pre ++ sorted ++ post) /\
    Permutation input sorted /\ sorted_by comp sorted.
Proof. exact sort_to_integral_ok. Qed.
Print Assumptions C03_sort_to_integral_partial.

Example sort_to_runs : sort_to_integral Z.ltb 30 [31; 7; 15; 21; 7]%Z 1 [0; 0; 0; 0; 0; 0; 0]%Z
  = Ok (6, [0; 7; 7; 15; 21; 31; 0]%Z).
Proof. vm_compute. reflexivity. Qed.

(** A negative element indexes outside the ten counters. *)
Theorem C03_sort_to_negative_refuted :
  exists input out, length out = length input /\
    sort_to_integral Z.ltb 30 input 0 out = UB.
Proof. exists [5; -3]%Z, [0; 0]%Z. split; vm_compute; reflexivity. Qed.
Print Assumptions C03_sort_to_negative_refuted.

(** With [std::greater] the result is not a permutation of the input. *)
Theorem C03_sort_to_descending_refuted :
  exists input out n out', length out = length input /\
    sort_to_integral Z.gtb 30 input 0 out = Ok (n, out') /\
    ~ Permutation input out'.
Proof.
  exists [1; 2]%Z, [0; 0]%Z, 2, [1; 0]%Z. split; [reflexivity|]. split; [vm_compute; reflexivity|].
  intros H. assert (Hin : In 2%Z [1; 0]%Z) by (eapply Permutation_in; [exact H|cbn; auto]).
  cbn in Hin. destruct Hin as [X|[X|X]]; [discriminate|discriminate|contradiction].
Qed.
Print Assumptions C03_sort_to_descending_refuted.
