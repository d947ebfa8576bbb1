(** Model of include/daw/daw_parser_helper.h, daw_parser_addons.h and
    daw_parser_helper_sv.h: searching, splitting, trimming and number parsing over
    iterator ranges.  No proofs in this file.

    An iterator is a position in one array [a]; a range [first, last) has
    first <= last.  Elements and the values compared with them have one character
    type, so is_a (148-160) is equality, or membership for several values.
    [while it != last] is a recursion over the number of positions that remain.
    Not modelled: is_true with several predicates (253-258 calls the value with the
    predicate), expect_true, as and to_string of find_result_t, negate,
    pred_true/pred_false. *)
From Verif Require Import Common Ints Math StringView StringPop SpecParse ParseTo.
Open Scope Z_scope.

(** daw_parser_helper.h:37-41 find_result_t and 92-97 make_find_result. *)
Record find_result := FR { fr_first : nat; fr_last : nat; fr_found : bool }.

(** 148-160 is_a. *)
Definition is_a (value : Z) (tsts : list Z) : bool := existsb (Z.eqb value) tsts.

(** The loops of until 99-114, until with a flag 116-131, until_false 133-146,
    until_value 181-194 and until_values 230-243: the position of the first element
    with [p], if any; [n] positions remain. *)
Fixpoint until_loop (n : nat) (a : list Z) (it : nat) (p : Z -> bool) : res (option nat) :=
  match n with
  | O => Ok None
  | S n => c <- rd a it ;; if p c then Ok (Some it) else until_loop n a (S it) p
  end.
Definition until (a : list Z) (first last : nat) (is_last : Z -> bool) : res find_result :=
  r <- until_loop (last - first) a first is_last ;;
  match r with
  | Some it => Ok (FR first it true)
  | None => Ok (FR first last false)
  end.
Definition until_or_throw (a : list Z) (first last : nat) (is_last : Z -> bool) (throw_if_end_reached : bool)
    : res find_result :=
  r <- until_loop (last - first) a first is_last ;;
  match r with
  | Some it => Ok (FR first it true)
  | None => if throw_if_end_reached then Throw else Ok (FR first last false)
  end.
Definition until_false (a : list Z) (first last : nat) (is_last : Z -> bool) : res find_result :=
  until a first last (fun c => negb (is_last c)).
Definition until_value (a : list Z) (first last : nat) (values : list Z) : res find_result :=
  until a first last (fun c => is_a c values).

(** 196-211 value_in: std::find_if( … ) == std::end( container ). *)
Fixpoint find_value (value : Z) (container : list Z) : option nat :=
  match container with
  | [] => None
  | v :: container => if is_a value [v] then Some O else option_map S (find_value value container)
  end.
Definition value_in (value : Z) (container : list Z) : bool :=
  match find_value value container with
  | None => true
  | Some _ => false
  end.
(** 213-228 in, 162-179 one_of. *)
Definition in_pred (container : list Z) (value : Z) : bool := value_in value container.
Definition one_of (args : list Z) (value : Z) : bool := value_in value args.
(** 230-243 until_values. *)
Definition until_values (a : list Z) (first last : nat) (container : list Z) : res find_result :=
  until a first last (fun c => value_in c container).

(** 260-266 expect. *)
Definition expect (value : Z) (checks : list Z) : res unit := if negb (is_a value checks) then Throw else Ok tt.

(** 278-287 is_alpha, 303-312 is_hex and is_alphanumeric. *)
Definition is_alpha (c : Z) : bool := in_range c 97 122 || in_range c 65 90.
Definition is_hex (c : Z) : bool := in_range c 48 57 || in_range c 97 102 || in_range c 65 70.
Definition is_alphanumeric (c : Z) : bool := is_alpha c || is_number c.

(** 314-338 the assertions. *)
Definition assert_not_equal (lhs rhs : Z) : res unit := if lhs =? rhs then Ok tt else Throw.
Definition assert_equal (lhs rhs : Z) : res unit := if negb (lhs =? rhs) then Ok tt else Throw.
Definition assert_not_empty (first last : nat) : res unit := if negb (first =? last)%nat then Ok tt else Throw.
Definition assert_empty (first last : nat) : res unit := assert_equal (Z.of_nat first) (Z.of_nat last).

(** 363-382 from_to_pred and 340-361 from_to. *)
Definition from_to_pred (a : list Z) (first last : nat) (is_first is_last : Z -> bool) (throw_if_end_reached : bool)
    : res find_result :=
  start <- until a first last is_first ;;
  if negb (fr_found start) then Throw
  else
    finish <- until a (fr_last start) last is_last ;;
    if throw_if_end_reached && negb (fr_found finish) then Throw
    else Ok (FR (fr_last start) (fr_last finish) (negb (fr_last start =? fr_last finish)%nat)).
Definition from_to (a : list Z) (first last : nat) (start_from go_until : Z) (throw_if_end_reached : bool) : res find_result :=
  from_to_pred a first last (fun c => is_a c [start_from]) (fun c => is_a c [go_until]) throw_if_end_reached.

(** 401-417 split_if and 384-399 split_on; [fuel] iterations of the while loop. *)
Fixpoint split_loop (fuel : nat) (a : list Z) (last : nat) (is_divider : Z -> bool) (result : find_result)
    (endings : list nat) : res (list nat) :=
  match fuel with
  | O => OutOfFuel
  | S fuel =>
      if fr_found result then
        let endings := endings ++ [fr_last result] in
        result <- until a (fr_last result) last is_divider ;;
        split_loop fuel a last is_divider result endings
      else if negb (fr_first result =? fr_last result)%nat then Ok (endings ++ [fr_last result])
      else Ok endings
  end.
Definition split_if (fuel : nat) (a : list Z) (first last : nat) (is_divider : Z -> bool) : res (list nat) :=
  result <- until a first last is_divider ;; split_loop fuel a last is_divider result [].
Definition split_on (fuel : nat) (a : list Z) (first last : nat) (dividers : list Z) : res (list nat) :=
  split_if fuel a first last (fun c => is_a c dividers).

(** 468-476 is_escape and is_quote. *)
Definition is_escape (c : Z) : bool := 92 =? wrap 32 c.
Definition is_quote (c : Z) : bool := 34 =? wrap 32 c.

(** 478-486 skip_ws. *)
Definition skip_ws (a : list Z) (first last : nat) : res find_result :=
  r <- until_false a first last is_unicode_whitespace ;;
  Ok (FR (fr_last r) last (fr_found r)).

(** 493-502 trim_left, 504-517 trim_right, 519-527 trim. *)
Definition trim_left (a : list Z) (first last : nat) : res find_result :=
  start <- until a first last not_unicode_whitespace ;;
  if negb (fr_found start) then Ok (FR first last false) else Ok (FR (fr_last start) last false).
Definition trim_right (a : list Z) (first last : nat) : res find_result :=
  start <- until a first last not_unicode_whitespace ;;
  if negb (fr_found start) then Ok (FR first last false)
  else
    finish <- until a (fr_last start) last is_unicode_whitespace ;;
    Ok (FR first (fr_last finish) true).
Definition trim (a : list Z) (first last : nat) : res find_result :=
  start <- trim_left a first last ;;
  finish <- trim_right a (fr_first start) last ;;
  Ok (FR (fr_first start) (fr_last finish) (fr_found start || fr_found finish)).

(** 539-571 is_crlf: the remembered values after a call, and its result. *)
Fixpoint crlf_match_loop (l : list Z) : bool :=
  match l with
  | [] => true
  | [_] => false
  | r :: n :: l => if is_a r [13] && is_a n [10] then crlf_match_loop l else false
  end.
Definition crlf_match (m_count : Z) (m_last_values : list Z) : bool :=
  if negb (Z.of_nat (length m_last_values) =? wrap 64 (2 * m_count)) then false else crlf_match_loop m_last_values.
Definition crlf_call (m_count : Z) (m_last_values : list Z) (v : Z) : list Z * bool :=
  let l := m_last_values ++ [v] in
  let l := skipn (length l - 4) l in
  (l, crlf_match m_count l).
(** The answer to the last of a series of calls of a new is_crlf( count ). *)
Fixpoint crlf_calls (m_count : Z) (l : list Z) (b : bool) (vs : list Z) : bool :=
  match vs with
  | [] => b
  | v :: vs => let (l, b) := crlf_call m_count l v in crlf_calls m_count l b vs
  end.
Definition is_crlf (m_count : Z) (vs : list Z) : bool := crlf_calls m_count [] false vs.

(** 599-644 matcher: std::search, whose effect is stated here directly. *)
Fixpoint prefix_eq (needle : list Z) (s : list Z) : bool :=
  match needle, s with
  | [], _ => true
  | x :: needle, y :: s => is_a y [x] && prefix_eq needle s
  | _ :: _, [] => false
  end.
Fixpoint search_pos (n : nat) (s needle : list Z) (pos : nat) : option nat :=
  if prefix_eq needle s then Some pos
  else match n with
       | O => None
       | S n => search_pos n (tl s) needle (S pos)
       end.
Definition matcher (a to_match : list Z) (first last : nat) : find_result :=
  match search_pos (last - first) (firstn (last - first) (skipn first a)) to_match first with
  | Some pos => if negb (pos =? last)%nat then FR first pos true else FR first last false
  | None => FR first last false
  end.

(** 646-664 starts_with; [n1], [n2] positions remain. *)
Fixpoint starts_with_loop (pred : Z -> Z -> bool) (n1 n2 : nat) (a1 : list Z) (first1 : nat) (a2 : list Z) (first2 : nat)
    : res bool :=
  match n1, n2 with
  | S n1, S n2 =>
      x <- rd a1 first1 ;;
      y <- rd a2 first2 ;;
      if negb (pred x y) then Ok false
      else starts_with_loop pred n1 n2 a1 (S first1) a2 (S first2)
  | _, n2 => Ok (n2 =? 0)%nat
  end.
Definition starts_with (pred : Z -> Z -> bool) (a1 : list Z) (first1 last1 : nat) (a2 : list Z) (first2 last2 : nat) : res bool :=
  starts_with_loop pred (last1 - first1) (last2 - first2) a1 first1 a2 first2.

(** 666-681 until_last_of; the while loop runs at most last - first times. *)
Fixpoint until_last_loop (fuel : nat) (a : list Z) (last : nat) (value : Z) (result : find_result) : res find_result :=
  match fuel with
  | O => OutOfFuel
  | S fuel =>
      if fr_found result && negb (fr_last result =? last)%nat then
        tmp <- until_value a (S (fr_last result)) last [value] ;;
        until_last_loop fuel a last value
          (FR (fr_first result) (if fr_found tmp then fr_last tmp else fr_last result) (fr_found tmp))
      else Ok result
  end.
Definition until_last_of (a : list Z) (first last : nat) (value : Z) : res find_result :=
  result <- until_value a first last [value] ;;
  let found := fr_found result in
  result <- until_last_loop (S (S (last - first))) a last value result ;;
  Ok (FR (fr_first result) (fr_last result) found).

(** 683-711 find_first_of_any; [fuel] iterations of the outer loop.  last_first is
    never read and left out. *)
Fixpoint any_inner (values : list Z) (a : list Z) (n new_end : nat) : res (list Z * nat) :=
  match values, n with
  | v :: values', S n =>
      c <- rd a new_end ;;
      if v =? c then any_inner values' a n (S new_end) else Ok (values, new_end)
  | _, _ => Ok (values, new_end)
  end.
Fixpoint any_loop (fuel : nat) (a : list Z) (first last : nat) (values : list Z) (first_val : Z) (result : find_result)
    (new_end : nat) : res find_result :=
  if (new_end =? last)%nat then Ok (FR first last false)
  else
    match fuel with
    | O => OutOfFuel
    | S fuel =>
        ' (seq, new_end) <- any_inner (tl values) a (last - new_end) new_end ;;
        match seq with
        | [] => Ok (FR (fr_first result) new_end (fr_found result))
        | _ :: _ =>
            result <- until_value a first last [first_val] ;;
            any_loop fuel a first last values first_val result new_end
        end
    end.
Definition find_first_of_any (fuel : nat) (a : list Z) (first last : nat) (values : list Z) : res find_result :=
  first_val <- rd values 0 ;;
  result <- until_value a first last [first_val] ;;
  if negb (fr_found result) then Ok result
  else any_loop fuel a first last values first_val result (S (fr_first result)).

(** ** daw_parser_addons.h *)

(** 21-40 find_number: its second predicate remembers a decimal point. *)
Fixpoint number_end_loop (n : nat) (a : list Z) (it : nat) (has_decimal : bool) : res (option nat) :=
  match n with
  | O => Ok None
  | S n =>
      v <- rd a it ;;
      if is_a 46 [v] then
        if has_decimal then Ok (Some it)
        else if is_number v then Ok (Some it) else number_end_loop n a (S it) true
      else if is_number v then Ok (Some it) else number_end_loop n a (S it) has_decimal
  end.
Definition find_number (a : list Z) (first last : nat) : res find_result :=
  start <- until a first last (fun v => is_a 45 [v] || is_number v) ;;
  if negb (fr_found start) then Throw
  else
    let s := fr_last start in
    finish <- number_end_loop (last - s) a s false ;;
    let e := match finish with Some it => it | None => last end in
    if (S e <=? length a)%nat then Ok (FR s (S e) (negb (s =? e)%nat)) else UB.

(** 42-47 from_num_char. *)
Definition from_num_char (R : ity) (c : Z) : Z := conv R (wrap 32 (wrap 8 c - wrap 8 48)).

(** 59-63: the loop of parse_unsigned_int: the final position and result. *)
Fixpoint unsigned_loop (T : ity) (count : nat) (a : list Z) (first last : nat) (result : Z) : res (nat * Z) :=
  match count with
  | O => Ok (first, result)
  | S count =>
      if (first =? last)%nat then Ok (first, result)
      else
        result <- assign_op T (result * 10) ;;
        c <- rd a first ;;
        result <- assign_op T (result + from_num_char T c) ;;
        unsigned_loop T count a (S first) last result
  end.
(** 49-75 parse_unsigned_int. *)
Definition range_unsigned_int (T : ity) (a : list Z) (first last : nat) : res Z :=
  c <- rd a first ;;
  if c =? 45 then Throw
  else
    ' (first, result) <- unsigned_loop T (digits10 T) a first last 0 ;;
    if (first =? last)%nat then Ok result else Throw.
(** 77-86 parse_unsigned_int( cstring ). *)
Fixpoint cstr_end (n : nat) (a : list Z) (it : nat) : res nat :=
  c <- rd a it ;;
  if c =? 0 then Ok it else match n with O => OutOfFuel | S n => cstr_end n a (S it) end.
Definition cstr_unsigned_int (T : ity) (a : list Z) (first : nat) : res Z :=
  last <- cstr_end (length a) a first ;; range_unsigned_int T a first last.
(** 89-112 parse_int. *)
Definition range_int (T : ity) (a : list Z) (first last : nat) : res Z :=
  c <- rd a first ;;
  if c =? 45 then
    if signed T then
      result <- range_unsigned_int T a (S first) last ;;
      assign_op T (result * conv T (-1))
    else Throw
  else range_unsigned_int T a first last.

(** 127-133: the loop of parse_string_literal: the final iterator and [found]. *)
Fixpoint literal_loop (n : nat) (a : list Z) (quote_char : Z) (it last_it : nat) (found : bool) : res (nat * bool) :=
  match n with
  | O => Ok (it, found)
  | S n =>
      c <- rd a it ;;
      let found := is_a c [quote_char] in
      if found then
        d <- rd a last_it ;;
        if negb (is_escape d) then Ok (it, found) else literal_loop n a quote_char (S it) it found
      else literal_loop n a quote_char (S it) it found
  end.
(** 114-140 parse_string_literal. *)
Definition parse_string_literal (a : list Z) (first last : nat) : res find_result :=
  result <- trim_left a first last ;;
  quote_char <- rd a first ;;
  if negb (is_quote quote_char) then Throw
  else
    let it := fr_first result in
    if (length a <? S it)%nat then UB
    else
      ' (it, found) <- literal_loop (last - S it) a quote_char (S it) it false ;;
      if negb (found : bool) then Throw else Ok (FR (S (fr_first result)) it true).

(** ** daw_parser_helper_sv.h *)
Section SV.
Variable dbg : bool.

(** 20-40 find_first_of and find_first_of_when; the number of characters before
    the returned iterator. *)
Fixpoint first_when_loop (n : nat) (pred : Z -> bool) (str : view) (it : Z) : res Z :=
  match n with
  | O => Ok it
  | S n => c <- vget str it ;; if pred c then Ok it else first_when_loop n pred str (it + 1)
  end.
Definition find_first_of_when (str : view) (pred : Z -> bool) : res Z :=
  first_when_loop (Z.to_nat (vsize str)) pred str 0.
Definition find_first_of_value (str : view) (value : Z) : res Z := find_first_of_when str (fun c => c =? value).

(** 42-64 trim_left, trim_right and trim; [n] bounds the iterations. *)
Fixpoint sv_trim_left_loop (n : nat) (str : view) : res view :=
  if vempty str then Ok str
  else
    c <- sv_front dbg str ;;
    if is_unicode_whitespace c then
      match n with
      | O => OutOfFuel
      | S n => str <- remove_prefix str 1 ;; sv_trim_left_loop n str
      end
    else Ok str.
Fixpoint sv_trim_right_loop (n : nat) (str : view) : res view :=
  if vempty str then Ok str
  else
    c <- sv_back dbg str ;;
    if is_unicode_whitespace c then
      match n with
      | O => OutOfFuel
      | S n => sv_trim_right_loop n (remove_suffix str 1)
      end
    else Ok str.
Definition ws_trim_left (str : view) : res view := sv_trim_left_loop (Z.to_nat (vsize str)) str.
Definition ws_trim_right (str : view) : res view := sv_trim_right_loop (Z.to_nat (vsize str)) str.
Definition ws_trim (str : view) : res view := s <- ws_trim_left str ;; ws_trim_right s.

(** 66-79 parse_unsigned_int( str ) and parse_int( str ): over the memory of the
    view.  A null view has nothing to read. *)
Definition view_unsigned_int (T : ity) (str : view) : res Z :=
  match vmem str with
  | Some l => range_unsigned_int T l (Z.to_nat (voff str)) (Z.to_nat (voff str + vsize str))
  | None => UB
  end.
Definition view_int (T : ity) (str : view) : res Z :=
  match vmem str with
  | Some l => range_int T l (Z.to_nat (voff str)) (Z.to_nat (voff str + vsize str))
  | None => UB
  end.
End SV.
