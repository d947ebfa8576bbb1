(** Model of include/daw/daw_parse_to.h: conversion of text to integers and quoted
    strings, splitting, and parse_to.  No proofs in this file.

    Views and their operations are those of StringView.v.  Not modelled:
    floating point values (strtod), construct_from and apply_string (which hand
    the values of parse_to to a callable), values_from_stream (which reads a
    stream into a string first). *)
From Verif Require Import Common Ints Math StringView StringPop SpecParse.
Open Scope Z_scope.

(** daw_parser_helper.h:289-296, 298-301 in_range and is_number of a char. *)
Definition in_range (value minimum maximum : Z) : bool := (minimum <=? value) && (value <=? maximum).
Definition is_number (c : Z) : bool := in_range c 48 57.

(** daw_parser_helper.h:434-467 is_unicode_whitespace and 488-491
    not_unicode_whitespace. *)
Definition is_unicode_whitespace (val : Z) : bool :=
  existsb (Z.eqb (wrap 32 val))
    [0x00000009; 0x0000000A; 0x0000000B; 0x0000000C; 0x0000000D; 0x00000020; 0x00000085;
     0x000000A0; 0x00001680; 0x00002000; 0x00002001; 0x00002002; 0x00002003; 0x00002004;
     0x00002005; 0x00002006; 0x00002007; 0x00002008; 0x00002009; 0x0000200A; 0x00002028;
     0x00002029; 0x0000202F; 0x0000205F; 0x00003000].
Definition not_unicode_whitespace (val : Z) : bool := negb (is_unicode_whitespace val).

Section DBG.
Variable dbg : bool.

(** daw_parse_to.h:56-61: the loop of parse_int; [count] is the variable of that
    name. *)
Fixpoint parse_int_loop (T : ity) (count : nat) (str : view) (result : Z) : res (Z * view) :=
  match count with
  | O => Ok (result, str)
  | S count =>
      if vempty str then Ok (result, str)
      else
        c <- sv_front dbg str ;;
        if is_number c then
          result <- assign_op T (result * conv T 10) ;;
          c <- sv_front dbg str ;;
          result <- assign_op T (result + conv T (c - 48)) ;;
          str <- remove_prefix str 1 ;;
          parse_int_loop T count str result
        else Ok (result, str)
  end.

(** daw_parse_to.h:43-68 helpers::parse_int<Result>. *)
Definition parse_int (T : ity) (str : view) : res Z :=
  let count := Z.to_nat (digits2 T) in
  c <- sv_front dbg str ;;
  ' (is_neg, str) <-
    (if c =? 45 then
       if signed T then str <- remove_prefix str 1 ;; Ok (true, str) else Throw
     else Ok (false, str)) ;;
  ' (result, str) <- parse_int_loop T count str 0 ;;
  if vempty str then
    if (is_neg : bool) then assign_op T (result * conv T (-1)) else Ok result
  else Throw.

(** daw_parse_to.h:70-76 helpers::parse_unsigned_int. *)
Definition parse_unsigned_int (T : ity) (str : view) : res Z :=
  c <- sv_front dbg str ;;
  if c =? 45 then Throw else parse_int T str.

(** daw_parse_to.h:81-100 parse_to_value( str, tag_t<T> ) for the integral types
    except char and bool. *)
Definition parse_to_value (T : ity) (str : view) : res Z :=
  if vempty str then Throw
  else if signed T then parse_int T str else parse_unsigned_int T str.

(** daw_parse_to.h:36-40 parse_to_value( str, tag_t<char> ). *)
Definition parse_to_char (str : view) : res Z :=
  if vempty str then Throw else sv_front dbg str.

(** daw_parse_to.h:111-117 parse_to_value( str, tag_t<unquoted_string_view> ). *)
Definition parse_to_unquoted (str : view) : res view := if vempty str then Throw else Ok str.

(** daw_parse_to.h:103-105 impl::is_quote. *)
Definition is_unescaped_quote (last_char c : Z) : bool := negb (last_char =? 92) && (c =? 34).

(** daw_parse_to.h:135-138: the loop that looks for the closing quote.  [n] bounds
    the number of iterations. *)
Fixpoint quote_loop (n : nat) (last_char : Z) (str : view) : res view :=
  if vempty str then Ok str
  else
    c <- sv_front dbg str ;;
    if is_unescaped_quote last_char c then Ok str
    else
      match n with
      | O => OutOfFuel
      | S n => ' (last_char, str) <- pop_front_char dbg str ;; quote_loop n last_char str
      end.

(** daw_parse_to.h:119-143 parse_to_value( str, tag_t<daw::string_view> ), and
    145-149 for std::string. *)
Definition parse_to_quoted (str : view) : res view :=
  if vempty str then Throw
  else if negb (2 <? vsize str) then Throw
  else
    c <- sv_front dbg str ;;
    if negb (c =? 34) then Throw
    else
      str <- remove_prefix str 1 ;;
      let first := voff str in
      ' (last_char, str) <- pop_front_char dbg str ;;
      str <- quote_loop (Z.to_nat (vsize str)) last_char str ;;
      match vmem str with
      | None => Throw
      | Some _ =>
          c <- sv_front dbg str ;;
          if c =? 34 then Ok (v_between (vmem str) first (voff str)) else Throw
      end.

(** daw_parse_to.h:203-218 default_splitter::operator( )( str ): first and last. *)
Definition default_splitter (delimiter str : view) : res (Z * Z) :=
  pos <- sv_find str delimiter 0 ;;
  if pos <? vsize str then Ok (pos, sz (pos + vsize delimiter)) else Ok (npos, npos).

(** The loops of basic_whitespace_splitter, daw_parse_to.h:235-237 and 245-247:
    while( n < sz and p( str[n] ) ) ++n.  [k] = sz - n. *)
Fixpoint scan_loop (p : Z -> bool) (k : nat) (str : view) (n : Z) : res Z :=
  match k with
  | O => Ok n
  | S k =>
      c <- sv_index dbg str n ;;
      if p c then scan_loop p k str (n + 1) else Ok n
  end.

(** daw_parse_to.h:223-250 basic_whitespace_splitter<skip_multiple>. *)
Definition basic_whitespace_splitter (skip_multiple : bool) (str : view) : res (Z * Z) :=
  let s := vsize str in
  n <- scan_loop not_unicode_whitespace (Z.to_nat s) str 0 ;;
  if n =? s then Ok (npos, npos)
  else if negb skip_multiple then Ok (n, sz (n + 1))
  else
    m <- scan_loop is_unicode_whitespace (Z.to_nat (s - n)) str n ;;
    Ok (n, m).

(** daw_parse_to.h:252-256, the two aliases. *)
Definition whitespace_splitter (str : view) : res (Z * Z) := basic_whitespace_splitter true str.
Definition single_whitespace_splitter (str : view) : res (Z * Z) := basic_whitespace_splitter false str.

(** daw_parse_to.h:269-279 impl::get_positions<N>. *)
Fixpoint get_positions (n : nat) (splitter : view -> res (Z * Z)) (str : view) : res (list view) :=
  match n with
  | O => Ok []
  | S n =>
      ' (first, last) <- splitter str ;;
      item <- substr dbg str 0 first ;;
      str <- remove_prefix str last ;;
      items <- get_positions n splitter str ;;
      Ok (item :: items)
  end.

(** daw_parse_to.h:178-199 set_value_from_string_view, for integral types.  The
    conversions are made in the order of the arguments (C++ leaves it open). *)
Fixpoint values_from_views (Ts : list ity) (vs : list view) : res (list Z) :=
  match Ts, vs with
  | T :: Ts, v :: vs =>
      x <- parse_to_value T v ;;
      xs <- values_from_views Ts vs ;;
      Ok (x :: xs)
  | _, _ => Ok []
  end.

(** daw_parse_to.h:289-297, 304-308 and 315-318 parse_to<Args...>. *)
Definition parse_to_with (Ts : list ity) (splitter : view -> res (Z * Z)) (str : view) : res (list Z) :=
  vs <- get_positions (length Ts) splitter str ;;
  values_from_views Ts vs.
Definition parse_to (Ts : list ity) (str delimiter : view) : res (list Z) :=
  parse_to_with Ts (default_splitter delimiter) str.
End DBG.
