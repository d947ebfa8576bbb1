(** Vocabulary for daw_parse_args.h. *)
From Verif Require Import Common StringView ParseArgs SpecString.
Open Scope Z_scope.

(** The pointer [p] shows the text [s]: the characters before the first NUL; a null
    pointer shows the empty text.  [lo] is the least value of a [char] (-128 or 0). *)
Definition shows_text (lo : Z) (p : option (list Z)) (s : list Z) : Prop :=
  match p with
  | None => s = []
  | Some l => (exists b, l = s ++ 0 :: b) /\ ~ In 0 s /\ Z.of_nat (length l) < 2 ^ 63 /\ bytes lo s
  end.
(** The quotation mark, the equals sign, two dashes. *)
Definition quote : Z := 34.
Definition equals : Z := 61.
Definition dashes : list Z := [45; 45].
(** A value in a pair of quotes means the text between them. *)
Definition unquoted (s v : list Z) : Prop :=
  s = [quote] ++ v ++ [quote] \/ ((forall m, s <> [quote] ++ m ++ [quote]) /\ v = s).
(** What the argument text [s] means: --NAME=VALUE, --NAME, or a value without a name. *)
Inductive means (s : list Z) : list Z -> list Z -> Prop :=
| MeansNamed n r v : s = dashes ++ n ++ [equals] ++ r -> ~ In equals n -> unquoted r v -> means s n v
| MeansFlag n : s = dashes ++ n -> ~ In equals n -> means s n []
| MeansValue v : (forall m, s <> dashes ++ m) -> unquoted s v -> means s [] v.
(** The value of [s] is a single quote character. *)
Definition lone_quote (s : list Z) : Prop :=
  s = [quote] \/ exists n, ~ In equals n /\ s = dashes ++ n ++ [equals; quote].
(** The argument [a] has the name [n] and the value [v]. *)
Definition arg_is (a : argument) (n v : list Z) : Prop :=
  valid (a_name a) /\ valid (a_value a) /\ chars (a_name a) = n /\ chars (a_value a) = v.
Definition arg_valid (a : argument) : Prop := valid (a_name a) /\ valid (a_value a).
(** The first position whose argument satisfies [P]. *)
Definition first_arg (P : argument -> Prop) (args : list argument) (r : option nat) : Prop :=
  match r with
  | Some i => exists a, nth_error args i = Some a /\ P a /\ forall j b, (j < i)%nat -> nth_error args j = Some b -> ~ P b
  | None => forall a, In a args -> ~ P a
  end.
