(** Vocabulary for the split range and the formatters of
    include/daw/deprecated/daw_string_split_range.h and daw_string_fmt.h. *)
From Verif Require Import Common SpecOldString.
Open Scope Z_scope.

(** [ps] are the pieces of [s] between the occurrences of [d], taken from the left
    without overlap. *)
Inductive cut_text (d : list Z) : list Z -> list (list Z) -> Prop :=
| ct_last s : ~ part_of d s -> cut_text d s [s]
| ct_more pre post ps :
    (forall a b, pre ++ d ++ post = a ++ d ++ b -> (length pre <= length a)%nat) ->
    cut_text d post ps -> cut_text d (pre ++ d ++ post) (pre :: ps).

(** A format: a text, then placeholders, each with the text that follows it. *)
Definition format_of (t0 : list Z) (items : list (list Z * list Z)) : list Z :=
  t0 ++ List.concat (map (fun i => braced (fst i) ++ snd i) items).
(** What it stands for when [arg n] is the text of the argument of number n. *)
Definition format_value (arg : Z -> list Z) (t0 : list Z) (items : list (list Z * list Z)) : list Z :=
  t0 ++ List.concat (map (fun i => arg (number (fst i)) ++ snd i) items).
(** Placeholders of at most [k] digits with texts without the characters [bad]. *)
Definition format_ok (k : nat) (bad : list Z) (t0 : list Z) (items : list (list Z * list Z)) : Prop :=
  Forall (fun c => ~ In c bad) t0 /\
  Forall (fun i => fst i <> [] /\ (length (fst i) <= k)%nat /\ Forall digit_char (fst i) /\
                   Forall (fun c => ~ In c bad) (snd i)) items.
(** All placeholders have an argument. *)
Definition in_range (n : nat) (items : list (list Z * list Z)) : Prop :=
  Forall (fun i => number (fst i) < Z.of_nat n) items.
Definition arg_text (args : list (list Z)) (n : Z) : list Z := nth (Z.to_nat n) args [].

(** The number of the pieces of a format: each placeholder and each non-empty text. *)
Definition text_tokens (t : list Z) : nat := match t with [] => 0 | _ => 1 end.
Fixpoint count_tokens (items : list (list Z * list Z)) : nat :=
  match items with
  | [] => 0
  | i :: items => 1 + text_tokens (snd i) + count_tokens items
  end.
