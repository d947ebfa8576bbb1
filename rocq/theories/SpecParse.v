(** Specification vocabulary for the parsing properties. *)
From Verif Require Import Common Ints StringView SpecString.
Open Scope Z_scope.

(** The characters '0' to '9', and the number a string of them stands for. *)
Definition digit (c : Z) : Prop := 48 <= c <= 57.
Definition decimal (ds : list Z) : Z := fold_left (fun a c => 10 * a + (c - 48)) ds 0.

(** [s] is the text of [v]: digits, or '-' and digits. *)
Definition number_text (s : list Z) (v : Z) : Prop :=
  exists ds, ds <> [] /\ Forall digit ds /\
    ((s = ds /\ v = decimal ds) \/ (s = 45 :: ds /\ v = - decimal ds)).

(** std::numeric_limits<T>::digits and digits10. *)
Definition digits2 (T : ity) : Z := if signed T then width T - 1 else width T.
Definition digits10 (T : ity) : nat :=
  if width T =? 8 then 2
  else if width T =? 16 then 4
  else if width T =? 32 then 9
  else if signed T then 18 else 19.

(** A text made of fields, each but the last followed by its separator. *)
Definition text_of (items : list (list Z * list Z)) (last : list Z) : list Z :=
  concat (map (fun p => fst p ++ snd p) items) ++ last.

(** [d] does not start inside [f] when [f] is followed by [d]. *)
Definition ends_field (d f : list Z) : Prop := forall i, occurs (f ++ d) d i -> i = length f.

(** The white space code points (Unicode White_Space). *)
Definition uni_white (c : Z) : Prop :=
  In c [0x09; 0x0A; 0x0B; 0x0C; 0x0D; 0x20; 0x85; 0xA0; 0x1680; 0x2000; 0x2001; 0x2002; 0x2003;
        0x2004; 0x2005; 0x2006; 0x2007; 0x2008; 0x2009; 0x200A; 0x2028; 0x2029; 0x202F; 0x205F; 0x3000].

(** No quote of [s] is unescaped, i.e. each has a backslash right before it;
    [prev] is the character before [s]. *)
Fixpoint no_quote (prev : Z) (s : list Z) : Prop :=
  match s with
  | [] => True
  | c :: s => (c = 34 -> prev = 92) /\ no_quote c s
  end.

(** [fs] are the first [n] pieces of [s], each cut off by [cut] ([cut s f rest]:
    the first piece of [s] is [f] and [rest] follows). *)
Inductive pieces (cut : list Z -> list Z -> list Z -> Prop) : nat -> list Z -> list (list Z) -> Prop :=
| pieces_nil s : pieces cut 0 s []
| pieces_cons n s f rest fs : cut s f rest -> pieces cut n rest fs -> pieces cut (S n) s (f :: fs).

(** Cutting at the first occurrence of [d], at the first white space character, and
    at the first run of white space characters. *)
Definition cut_text (d s f rest : list Z) : Prop := cut_first (occurs s d) (length d) s f rest.
Definition cut_white (W : Z -> Prop) (s f rest : list Z) : Prop := cut_first (char_is s W) 1 s f rest.
Definition cut_white_run (W : Z -> Prop) (s f rest : list Z) : Prop :=
  exists t, cut_first (char_is s W) 0 s f t /\ drops_front W t rest.

(** The fields joined by a delimiter. *)
Fixpoint join (d : list Z) (fs : list (list Z)) : list Z :=
  match fs with
  | [] => []
  | [f] => f
  | f :: fs => f ++ d ++ join d fs
  end.

(** The text of a value of [T], within the accepted number of characters, that is
    not the lowest value of a signed type. *)
Definition plain_number (T : ity) (s : list Z) (x : Z) : Prop :=
  number_text s x /\ fits T x /\ (signed T = false -> ~ In 45 s) /\
  Z.of_nat (length s) <= digits2 T /\ (lowest T < x \/ signed T = false).

(** The elements of [a] from position [first] to [last] are [s]. *)
Definition segment (a : list Z) (first last : nat) (s : list Z) : Prop :=
  exists pre post, a = pre ++ s ++ post /\ length pre = first /\ (first + length s)%nat = last.

(** [k] is the index of the first element of [s] with [P], or the length of [s]. *)
Definition stops (P : Z -> Prop) (s : list Z) (k : nat) : Prop :=
  (k <= length s)%nat /\ Forall (fun c => ~ P c) (firstn k s) /\
  match skipn k s with [] => True | c :: _ => P c end.

(** [n] pairs of carriage return and line feed. *)
Fixpoint crlfs (n : nat) : list Z := match n with O => [] | S n => 13 :: 10 :: crlfs n end.

(** A character that counts as white space, as a code point. *)
Definition blank (c : Z) : Prop := uni_white (wrap 32 c).
(** A character of a narrow character type, signed or not. *)
Definition char_range (c : Z) : Prop := -128 <= c <= 255.
(** Nothing follows, or white space does. *)
Definition white_or_end (s : list Z) : Prop := match s with [] => True | c :: _ => blank c end.

(** The types whose arithmetic wraps: unsigned ones, and those narrower than int. *)
Definition wraps (T : ity) : Prop := signed T = false \/ width T < 32.
