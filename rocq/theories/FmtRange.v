(** Model of daw_format_range.h (fr.h) and daw_format_tuple.h (ft.h): the formatters of
    fmt_range and fmt_tuple for std::format.

    Texts are lists of character codes: '{' 123, '}' 125, the quotation mark 34, ':' 58,
    '0' 48, '[' 91, ',' 44, ']' 93.  [Throw] is std::format_error, or a failed assert if
    [dbg].  A formatter of the standard library is a function of the format string and
    of the position the parse context begins at; it gives the position its parse stopped
    at and the function that formats a value.  Not modelled: wide characters, the
    compile time check of format strings, output iterators that fail.  brace_count does
    not overflow.  No proofs in this file. *)
From Verif Require Import Common Ints.
Open Scope Z_scope.

Definition text := list Z.
Definition formatter (V : Type) := text -> nat -> res (Z * (V -> res text)).

(** * std::vformat *)
(** The character at position [p] is [c]. *)
Definition is_at (fs : text) (p : nat) (c : Z) : bool :=
  match nth_error fs p with Some d => d =? c | None => false end.
(** How the arguments have been numbered so far. *)
Inductive numbering := Unknown | Automatic | Manual.
(** std::vformat( fs, std::make_format_args( v ) ) with one argument, [format.string.general]:
    literal text, doubled braces, and replacement fields { [0] [: spec] }.  A second
    automatic field has no argument, and the two kinds cannot be mixed.  After the parse
    of the formatter a closing brace must follow. *)
Fixpoint vformat_loop {V} (fuel : nat) (F : formatter V) (fs : text) (v : V) (p : nat) (num : numbering) (out : text) : res text :=
  match fuel with
  | O => OutOfFuel
  | S fuel =>
      let field (p : nat) (num : numbering) : res text :=
        r <- F fs p;;
        if (0 <=? fst r) && is_at fs (Z.to_nat (fst r)) 125 then
          t <- snd r v;;
          vformat_loop fuel F fs v (S (Z.to_nat (fst r))) num (out ++ t)
        else Throw in
      match nth_error fs p with
      | None => Ok out
      | Some c =>
          if c =? 125 then
            if is_at fs (p + 1) 125 then vformat_loop fuel F fs v (p + 2) num (out ++ [125]) else Throw
          else if c =? 123 then
            if is_at fs (p + 1) 123 then vformat_loop fuel F fs v (p + 2) num (out ++ [123])
            else if is_at fs (p + 1) 125 then
              match num with Unknown => field (p + 1)%nat Automatic | _ => Throw end
            else if is_at fs (p + 1) 58 then
              match num with Unknown => field (p + 2)%nat Automatic | _ => Throw end
            else if is_at fs (p + 1) 48 then
              match num with
              | Automatic => Throw
              | _ => if is_at fs (p + 2) 125 then field (p + 2)%nat Manual
                     else if is_at fs (p + 2) 58 then field (p + 3)%nat Manual
                     else Throw
              end
            else Throw
          else vformat_loop fuel F fs v (p + 1) num (out ++ [c])
      end
  end.
(** Each step advances, except after a formatter whose parse stops before it began; the fuel is
    enough if it does not. *)
Definition vformat {V} (F : formatter V) (fs : text) (v : V) : res text := vformat_loop (S (length fs)) F fs v 0 Unknown [].

(** * fr.h and ft.h: parse *)
(** fr.h:76-104, ft.h:69-97: the loop over the view [f]; [off] is f.data( ) - first, the result is last - first, 0 if the
    brace is not found.  brace_count is never negative: the loop stops when it is 0. *)
Fixpoint close_loop (f : text) (off : nat) (brace_count : Z) (in_quote : bool) : nat :=
  match f with
  | [] => 0%nat
  | c :: f =>
      if c =? 34 then close_loop f (S off) brace_count (negb in_quote)
      else if c =? 123 then close_loop f (S off) (if negb in_quote then brace_count + 1 else brace_count) in_quote
      else if c =? 125 then
        if negb in_quote then
          if brace_count - 1 =? 0 then S off else close_loop f (S off) (brace_count - 1) in_quote
        else close_loop f (S off) brace_count in_quote
      else close_loop f (S off) brace_count in_quote
  end.
(** fr.h:66-111, ft.h:60-105 parse: the position it returns, and flags.  expand_prefix( 2 ) needs two characters before the
    context. *)
Definition parse (dbg : bool) (fs : text) (p : nat) : res (Z * text) :=
  let f := skipn p fs in
  match f with
  | [] => Ok (Z.of_nat p, [123; 125])
  | c :: _ =>
      if c =? 125 then Ok (Z.of_nat p, [123; 125])
      else
        let sz := close_loop f 0 1 false in
        if (p <? 2)%nat then UB
        else
          let flags := firstn (sz + 2) (skipn (p - 2) fs) in
          if dbg && negb (is_at flags 0 123) then Throw
          else Ok (Z.of_nat p + Z.of_nat sz - 1, flags)
  end.

(** * fr.h: format *)
(** fr.h:22-46 fmt_range: the elements and the three texts. *)
Record fmt_range (V : Type) := FmtRange { r_items : list V; r_separator : text; r_left : text; r_right : text }.
Arguments FmtRange {V} _ _ _ _.
Arguments r_items {V} _.
Arguments r_separator {V} _.
Arguments r_left {V} _.
Arguments r_right {V} _.
(** formatter_common.h:23-29 the default texts; fr.h:25-28. *)
Definition with_defaults {V} (items : list V) : fmt_range V := FmtRange items [44] [91] [93].
(** fr.h:126-146: the loop over the elements; each one is written with the format string flags. *)
Fixpoint write_loop {V} (elem : V -> res text) (separator : text) (is_first : bool) (items : list V) (out : text) : res text :=
  match items with
  | [] => Ok out
  | v :: items =>
      let out := if is_first then out else out ++ separator in
      t <- elem v;;
      write_loop elem separator false items (out ++ t)
  end.
(** fr.h:113-149 format of elements that are not characters. *)
Definition format {V} (elem : formatter V) (flags : text) (c : fmt_range V) : res text :=
  out <- write_loop (vformat elem flags) (r_separator c) true (r_items c) (r_left c);;
  Ok (out ++ r_right c).
Definition range_formatter {V} (dbg : bool) (elem : formatter V) : formatter (fmt_range V) :=
  fun fs p => r <- parse dbg fs p;; Ok (fst r, format elem (snd r)).
(** fr.h:117-122 format of a range of characters. *)
Definition chars_formatter (dbg : bool) : formatter (fmt_range Z) :=
  fun fs p => r <- parse dbg fs p;; Ok (fst r, fun c => Ok (r_items c)).

(** * ft.h: format *)
(** ft.h:107-129: the elements have the types [ks]; [sf k] is the formatter of type k.  Each element is written with the
    format string flags and the formatter of its type. *)
Definition tuple_elem (sf : nat -> formatter Z) (flags : text) (e : nat * Z) : res text := vformat (sf (fst e)) flags (snd e).
Definition tuple_format (sf : nat -> formatter Z) (flags : text) (c : fmt_range (nat * Z)) : res text :=
  out <- write_loop (tuple_elem sf flags) (r_separator c) true (r_items c) (r_left c);;
  Ok (out ++ r_right c).
Definition tuple_formatter (dbg : bool) (sf : nat -> formatter Z) : formatter (fmt_range (nat * Z)) :=
  fun fs p => r <- parse dbg fs p;; Ok (fst r, tuple_format sf (snd r)).

(** * fr.h:134-145: ranges of ranges and of tuples *)
(** The type of an element, and values. *)
Inductive shape := Scalar (k : nat) | Chars | RangeOf (s : shape) | TupleOf.
Inductive value := VScalar (x : Z) | VChars (t : text) | VRange (vs : list value) | VTuple (es : list (nat * Z)).
(** The formatter used for an element: its own for a scalar, that of fmt_range or fmt_tuple with the default texts
    otherwise.  A value of another shape does not occur. *)
Fixpoint element_formatter (dbg : bool) (sf : nat -> formatter Z) (s : shape) : formatter value :=
  match s with
  | Scalar k => fun fs p => r <- sf k fs p;; Ok (fst r, fun v => match v with VScalar x => snd r x | _ => UB end)
  | Chars => fun fs p => r <- chars_formatter dbg fs p;; Ok (fst r, fun v => match v with VChars t => snd r (with_defaults t) | _ => UB end)
  | RangeOf s => fun fs p => r <- range_formatter dbg (element_formatter dbg sf s) fs p;;
      Ok (fst r, fun v => match v with VRange vs => snd r (with_defaults vs) | _ => UB end)
  | TupleOf => fun fs p => r <- tuple_formatter dbg sf fs p;; Ok (fst r, fun v => match v with VTuple es => snd r (with_defaults es) | _ => UB end)
  end.
