(** What the properties of the range and tuple formatters say. *)
From Verif Require Import Common FmtRange.
Open Scope Z_scope.

(** Text without braces. *)
Definition literal (t : text) : Prop := forall c, In c t -> c <> 123 /\ c <> 125.
(** Any text as part of a format string: braces are doubled. *)
Definition escaped (t : text) : text := flat_map (fun c => if (c =? 123) || (c =? 125) then [c; c] else [c]) t.
(** A format specification in which braces come in matching pairs and quotation marks in
    pairs. *)
Inductive balanced : text -> Prop :=
| bal_nil : balanced []
| bal_char c t : c <> 34 -> c <> 123 -> c <> 125 -> balanced t -> balanced (c :: t)
| bal_nest a t : balanced a -> balanced t -> balanced (123 :: a ++ 125 :: t)
| bal_quoted q t : ~ In 34 q -> balanced t -> balanced (34 :: q ++ 34 :: t).
(** Parsing [spec], up to the closing brace, in any replacement field { : spec } of any format string,
    or { } if it is empty, succeeds, and values are shown as [show] says then. *)
Definition accepts {V} (F : formatter V) (spec : text) (show : V -> text) (ok : V -> Prop) : Prop :=
  forall before open after p,
    (spec = [] /\ open = [123] \/ open = [123; 58]) -> p = length (before ++ open) ->
    exists g, F (before ++ open ++ spec ++ 125 :: after) p = Ok (Z.of_nat (p + length spec), g) /\ forall v, ok v -> g v = Ok (show v).
(** The texts with the separator between them. *)
Fixpoint joined (separator : text) (ts : list text) : text :=
  match ts with
  | [] => []
  | [t] => t
  | t :: ts => t ++ separator ++ joined separator ts
  end.
(** What a range is shown as. *)
Definition shown {V} (show : V -> text) (c : fmt_range V) : text :=
  r_left c ++ joined (r_separator c) (map show (r_items c)) ++ r_right c.
(** Values of a shape. *)
Inductive has_shape : shape -> value -> Prop :=
| hs_scalar k x : has_shape (Scalar k) (VScalar x)
| hs_chars t : has_shape Chars (VChars t)
| hs_range s vs : Forall (has_shape s) vs -> has_shape (RangeOf s) (VRange vs)
| hs_tuple es : has_shape TupleOf (VTuple es).
(** Nested values: [show k] shows scalars of type k; characters are shown as they are, ranges and
    tuples in brackets with commas. *)
Fixpoint show_nested (show : nat -> Z -> text) (s : shape) (v : value) : text :=
  match s, v with
  | Scalar k, VScalar x => show k x
  | Chars, VChars t => t
  | RangeOf s, VRange vs => [91] ++ joined [44] (map (show_nested show s) vs) ++ [93]
  | TupleOf, VTuple es => [91] ++ joined [44] (map (fun e => show (fst e) (snd e)) es) ++ [93]
  | _, _ => []
  end.
