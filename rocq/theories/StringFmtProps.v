(** The properties of the split range and of the formatters of
    deprecated/daw_string_split_range.h and deprecated/daw_string_fmt.h: C239-C241.
    The vocabulary is in SpecStringFmt.v, SpecOldString.v, SpecStringView1.v and SpecString.v. *)
From Coq Require Import List ZArith Bool Lia.
From Verif Require Import Common Ints StringView StringView1 SpecStringView1 SpecString SpecOldString StringFmt SpecStringFmt StringFmtProofs.
Import ListNotations.
Open Scope Z_scope.

(** * C239 The split range *)

(** A loop over the range ends and sees the pieces between the occurrences of the delimiter. *)
Theorem C239_pieces :
  forall v w, valid1 v -> valid1 w -> chars1 w <> [] -> forall fuel, (length (chars1 v) < fuel)%nat ->
  exists ps, split_string fuel v w = Ok ps /\ Forall valid1 ps /\ cut_text (chars1 w) (chars1 v) (map chars1 ps).
Proof. exact c239_pieces. Qed.

(** There is only one list of pieces. *)
Theorem C239_unique :
  forall d s ps qs, d <> [] -> cut_text d s ps -> cut_text d s qs -> ps = qs.
Proof. exact c239_unique. Qed.

(** The pieces with the delimiter between them are the text. *)
Theorem C239_joined :
  forall d s ps, cut_text d s ps -> joined d ps = s /\ ps <> [].
Proof. exact c239_joined. Qed.

(** Iterators are equal when both are at the end or have the same text, delimiter and place. *)
Theorem C239_equal :
  forall v w p v' w' p', valid1 v -> valid1 w -> valid1 v' -> valid1 w' ->
  exists b, si_equal (SI v w p) (SI v' w' p') = Ok b /\
    (b = true <-> (p = npos /\ p' = npos) \/ (chars1 v = chars1 v' /\ p = p' /\ chars1 w = chars1 w')).
Proof. exact c239_equal. Qed.

(** With an empty delimiter the loop never ends. *)
Theorem C239_empty_delimiter_refuted :
  forall v w, valid1 v -> valid1 w -> chars1 v <> [] -> chars1 w = [] -> forall fuel, split_string fuel v w = OutOfFuel.
Proof. exact c239_empty_delimiter_refuted. Qed.

(** it++ gives the next iterator and leaves it where it was. *)
Theorem C239_postfix_refuted :
  forall it it', si_move_next it = Ok it' -> si_post_inc it = Ok (it', it).
Proof. exact c239_postfix_refuted. Qed.

(** "a, b" at ", " inside "xa, by" and the same with a delimiter at both ends. *)
Example C239_nonvacuous :
  (let v := V1 (Some [120; 97; 44; 32; 98; 121]) 1 5 in let w := V1 (Some [44; 32; 0]) 0 2 in
   valid1 v /\ valid1 w /\ chars1 v = [97; 44; 32; 98] /\ chars1 w = [44; 32] /\
   split_string 5 v w = Ok [V1 (mem1 v) 1 2; V1 (mem1 v) 4 5] /\ si_move_next (si_begin v w) = Ok (SI v w 3)) /\
  (let v := V1 (Some [44; 97; 44]) 0 3 in let w := V1 (Some [44]) 0 1 in
   exists ps, split_string 5 v w = Ok ps /\ map chars1 ps = [[]; [97]; []]) /\
  (exists ps, split_string 1 null1 (V1 (Some [44]) 0 1) = Ok ps /\ map chars1 ps = [[]]).
Proof.
  cbv zeta. split; [|split; eexists; split; reflexivity].
  unfold valid1. cbn. intuition lia.
Qed.
Print Assumptions C239_pieces.
Print Assumptions C239_unique.
Print Assumptions C239_joined.
Print Assumptions C239_equal.
Print Assumptions C239_empty_delimiter_refuted.
Print Assumptions C239_postfix_refuted.

(** * C240 The formatter of version 1 *)

(** Each placeholder of an existing argument is replaced and the text is kept. *)
Theorem C240_value :
  forall dbg runtime args, (length args <= 255)%nat -> forall t0 items,
  format_ok 2 [123] t0 items -> in_range (length args) items ->
  Z.of_nat (length (format_of t0 items)) + 1 < 2 ^ 63 -> (runtime = true -> bytes (-128) (format_of t0 items)) ->
  fmt1 dbg runtime args (format_of t0 items) = Ok (format_value (arg_text args) t0 items).
Proof. exact c240_value. Qed.

(** A placeholder without an argument, or of three digits or more, throws. *)
Theorem C240_bad_index :
  forall dbg runtime args, (length args <= 255)%nat -> forall t0 items ds rest,
  format_ok 2 [123] t0 items -> in_range (length args) items ->
  ds <> [] -> Forall digit_char ds -> (2 < length ds)%nat \/ Z.of_nat (length args) <= number ds ->
  Z.of_nat (length (format_of t0 items ++ braced ds ++ rest)) + 1 < 2 ^ 63 ->
  (runtime = true -> bytes (-128) (format_of t0 items ++ braced ds ++ rest)) ->
  fmt1 dbg runtime args (format_of t0 items ++ braced ds ++ rest) = Throw.
Proof. exact c240_bad_index. Qed.

(** Every format gives a text or throws; the loop ends. *)
Theorem C240_safe :
  forall dbg runtime args, (length args <= 255)%nat -> forall f,
  Z.of_nat (length f) + 1 < 2 ^ 63 -> (runtime = true -> bytes (-128) f) ->
  (exists r, fmt1 dbg runtime args f = Ok r) \/ fmt1 dbg runtime args f = Throw.
Proof. exact c240_safe. Qed.

(** A placeholder without a number is the first argument and no error. *)
Theorem C240_no_index_refuted :
  forall dbg runtime args, (length args <= 255)%nat -> forall t0 t, ~ In 123 t0 -> ~ In 123 t ->
  (runtime = true -> bytes (-128) (t0 ++ [123; 125] ++ t)) ->
  Z.of_nat (length (t0 ++ [123; 125] ++ t)) + 1 < 2 ^ 63 ->
  fmt1 dbg runtime args (t0 ++ [123; 125] ++ t) = match args with [] => Throw | a :: _ => Ok (t0 ++ a ++ t) end.
Proof. exact c240_no_index_refuted. Qed.

(** "a{1}b{0}", "{2}" with two arguments, "{000}" and "{}". *)
Example C240_nonvacuous :
  (let items := [([49], [98]); ([48], [])] in let args := [[55]; [56; 57]] in
   format_ok 2 [123] [97] items /\ in_range 2 items /\ format_of [97] items = [97; 123; 49; 125; 98; 123; 48; 125] /\
   fmt1 true true args (format_of [97] items) = Ok [97; 56; 57; 98; 55] /\
   fmt1 true true args [123; 50; 125] = Throw /\ fmt1 true true args [123; 48; 48; 48; 125] = Throw /\
   fmt1 true true args [123; 125] = Ok [55]).
Proof.
  cbv zeta. split; [|split; [|repeat split]].
  - split; repeat constructor; cbn; try lia; try discriminate; intuition discriminate.
  - repeat constructor.
Qed.
Print Assumptions C240_value.
Print Assumptions C240_bad_index.
Print Assumptions C240_safe.
Print Assumptions C240_no_index_refuted.

(** * C241 The formatter of version 2 *)

(** A format in an array, without backslashes: the vector of the pieces has room for all of them, and placeholders without an argument give nothing. *)
Theorem C241_value :
  forall dbg runtime asserts args t0 items, format_ok 19 [123; 92] t0 items ->
  Z.of_nat (length (format_of t0 items)) + 1 < 2 ^ 63 -> (runtime = true -> bytes (-128) (format_of t0 items)) ->
  fmt2 dbg runtime asserts (std_string (format_of t0 items)) args = Ok (format_value (arg_text args) t0 items).
Proof. exact c241_value. Qed.

(** A format by pointer, when its pieces are at most half its length. *)
Theorem C241_pointer_partial :
  forall dbg runtime asserts args t0 items, format_ok 19 [123; 92] t0 items ->
  (text_tokens t0 + count_tokens items <= length (format_of t0 items) / 2)%nat ->
  Z.of_nat (length (format_of t0 items)) + 1 < 2 ^ 63 -> (runtime = true -> bytes (-128) (format_of t0 items)) ->
  fmt2_ptr dbg runtime asserts (format_of t0 items) args = Ok (format_value (arg_text args) t0 items).
Proof. exact c241_pointer_partial. Qed.

(** By pointer there is no room for a format of one character. *)
Theorem C241_pointer_refuted :
  forall dbg runtime asserts args c, ~ In c [123; 92] -> -128 <= c < 128 ->
  fmt2_ptr dbg runtime asserts [c] args = if asserts then Throw else UB.
Proof. exact c241_pointer_refuted. Qed.

(** A backslash before a placeholder is kept and the placeholder is replaced all the same. *)
Theorem C241_escape_refuted :
  forall dbg runtime asserts args items, items <> [] -> format_ok 19 [123; 92] [] items ->
  Z.of_nat (length (format_of [] items)) + 2 < 2 ^ 63 -> (runtime = true -> bytes (-128) (format_of [] items)) ->
  fmt2 dbg runtime asserts (std_string (92 :: format_of [] items)) args = Ok (92 :: format_value (arg_text args) [] items).
Proof. exact c241_escape_refuted. Qed.

(** Two or more backslashes have no room in the vector of the pieces. *)
Theorem C241_backslashes_refuted :
  forall dbg runtime asserts args n, (2 <= n)%nat -> Z.of_nat n + 1 < 2 ^ 63 ->
  fmt2 dbg runtime asserts (std_string (repeat 92 n)) args = if asserts then Throw else UB.
Proof. exact c241_backslashes_refuted. Qed.

(** "a{1}{7}" in an array and by pointer, "\{0}" and "\\". *)
Example C241_nonvacuous :
  (let items := [([49], []); ([55], [])] in let args := [[55]; [56; 57]] in
   format_ok 19 [123; 92] [97] items /\ format_of [97] items = [97; 123; 49; 125; 123; 55; 125] /\
   Nat.le (text_tokens [97] + count_tokens items) (length (format_of [97] items) / 2) /\
   fmt2 true true true (std_string (format_of [97] items)) args = Ok [97; 56; 57] /\
   fmt2_ptr true true true (format_of [97] items) args = Ok [97; 56; 57] /\
   fmt2 true true true [92; 123; 48; 125; 0] args = Ok [92; 55] /\
   fmt2 true true false [92; 92; 0] args = UB).
Proof.
  cbv zeta. split; [|repeat split].
  - split; repeat constructor; cbn; try lia; try discriminate; intuition discriminate.
  - cbn. lia.
Qed.
Print Assumptions C241_value.
Print Assumptions C241_pointer_partial.
Print Assumptions C241_pointer_refuted.
Print Assumptions C241_escape_refuted.
Print Assumptions C241_backslashes_refuted.
