(** Vocabulary for splitting, trimming, replacing and formatting of text: what a
    user of include/daw/deprecated/daw_string.h expects.  Texts are lists of
    characters. *)
From Verif Require Import Common.
Open Scope Z_scope.

(** [s] is the pieces [ps] with one delimiter between neighbours, and no piece
    contains a delimiter. *)
Inductive cut_at (delim : Z -> Prop) : list Z -> list (list Z) -> Prop :=
| cut_last t : Forall (fun c => ~ delim c) t -> cut_at delim t [t]
| cut_more t d rest ps : Forall (fun c => ~ delim c) t -> delim d -> cut_at delim rest ps ->
    cut_at delim (t ++ d :: rest) (t :: ps).

(** The texts one after the other with [sep] between neighbours. *)
Fixpoint joined (sep : list Z) (ps : list (list Z)) : list Z :=
  match ps with
  | [] => []
  | [p] => p
  | p :: ps => p ++ sep ++ joined sep ps
  end.

(** [s] without the leading or trailing characters of [ds]. *)
Definition trimmed_right (ds s r : list Z) : Prop :=
  exists t, s = r ++ t /\ Forall (fun c => In c ds) t /\
    forall r' c, r = r' ++ [c] -> ~ In c ds.
Definition trimmed_left (ds s r : list Z) : Prop :=
  exists t, s = t ++ r /\ Forall (fun c => In c ds) t /\
    forall r' c, r = c :: r' -> ~ In c ds.
Definition trimmed (ds s r : list Z) : Prop :=
  exists a b, s = a ++ r ++ b /\ Forall (fun c => In c ds) a /\ Forall (fun c => In c ds) b /\
    (forall r' c, r = r' ++ [c] -> ~ In c ds) /\ (forall r' c, r = c :: r' -> ~ In c ds).

(** [t] is a part of [s]. *)
Definition part_of (t s : list Z) : Prop := exists a b, s = a ++ t ++ b.
Definition ends_in (s t : list Z) : Prop := exists a, s = a ++ t.

(** [r] is [s] with the occurrences of [pat], taken from the left without overlap,
    replaced by [by_]. *)
Inductive replaced (pat by_ : list Z) : list Z -> list Z -> Prop :=
| rep_none s : ~ part_of pat s -> replaced pat by_ s s
| rep_first pre post r :
    (forall a b, pre ++ pat ++ post = a ++ pat ++ b -> (length pre <= length a)%nat) ->
    replaced pat by_ post r -> replaced pat by_ (pre ++ pat ++ post) (pre ++ by_ ++ r).

(** The text between the braces of a placeholder: digits, then any number of pairs
    of a colon and a digit. *)
Definition digit_char (c : Z) : Prop := 48 <= c <= 57.
Definition number (ds : list Z) : Z := fold_left (fun n c => 10 * n + (c - 48)) ds 0.
Definition placeholder (body : list Z) : Prop :=
  exists ds ps, ds <> [] /\ Forall digit_char ds /\ Forall digit_char ps /\
    body = ds ++ List.concat (map (fun p => [58; p]) ps).
Definition braced (body : list Z) : list Z := 123 :: body ++ [125].
(** A placeholder starts with the first character of [s]. *)
Definition starts_placeholder (s : list Z) : Prop :=
  exists body rest, placeholder body /\ s = braced body ++ rest.

(** What stands for a placeholder that is not preceded by a brace. *)
Inductive stands_for (fixed : list Z -> Z -> list Z) (args : list (list Z)) : list Z -> list Z -> Prop :=
| plain_arg ds a : Forall digit_char ds -> nth_error args (Z.to_nat (number ds)) = Some a ->
    stands_for fixed args ds a
| fixed_arg ds p a : Forall digit_char ds -> nth_error args (Z.to_nat (number ds)) = Some a ->
    stands_for fixed args (ds ++ [58; p]) (fixed a (p - 48)).

(** [out] is the format [f] with its placeholders, found from the left, replaced.  A
    placeholder right behind a brace is kept. *)
Inductive formatted (fixed : list Z -> Z -> list Z) (args : list (list Z)) : list Z -> list Z -> Prop :=
| fmt_none f : (forall a b, f = a ++ b -> ~ starts_placeholder b) -> formatted fixed args f f
| fmt_keep pre body rest out :
    (forall a b, pre ++ braced body ++ rest = a ++ b -> starts_placeholder b -> (length pre <= length a)%nat) ->
    placeholder body -> (exists p, pre = p ++ [123]) -> formatted fixed args rest out ->
    formatted fixed args (pre ++ braced body ++ rest) (pre ++ braced body ++ out)
| fmt_arg pre body rest a out :
    (forall a b, pre ++ braced body ++ rest = a ++ b -> starts_placeholder b -> (length pre <= length a)%nat) ->
    placeholder body -> ~ (exists p, pre = p ++ [123]) -> stands_for fixed args body a ->
    formatted fixed args rest out ->
    formatted fixed args (pre ++ braced body ++ rest) (pre ++ a ++ out).

(** A format made of plain text, which contains no brace '{', and placeholders. *)
Inductive item := Text (t : list Z) | Arg (ds : list Z) | Fixed (ds : list Z) (p : Z).
Definition item_ok (n : nat) (i : item) : Prop :=
  match i with
  | Text t => ~ In 123 t
  | Arg ds => ds <> [] /\ Forall digit_char ds /\ number ds < Z.of_nat n
  | Fixed ds p => ds <> [] /\ Forall digit_char ds /\ number ds < Z.of_nat n /\ digit_char p
  end.
Definition item_text (i : item) : list Z :=
  match i with
  | Text t => t
  | Arg ds => braced ds
  | Fixed ds p => braced (ds ++ [58; p])
  end.
Definition item_value (fixed : list Z -> Z -> list Z) (args : list (list Z)) (i : item) : list Z :=
  match i with
  | Text t => t
  | Arg ds => nth (Z.to_nat (number ds)) args []
  | Fixed ds p => fixed (nth (Z.to_nat (number ds)) args []) (p - 48)
  end.
