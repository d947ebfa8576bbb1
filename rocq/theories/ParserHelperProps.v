(** Properties C56, C99, C101-C106, C108-C111: the parsing helpers.

    A range is the part of an array [a] from position [f] to [l]; [segment a f l s]:
    its elements are [s].  A result FR f' l' b: the range from f' to l' and whether
    something was found. *)
From Verif Require Import Common Ints Math StringView StringPop SpecBits SpecString SpecParse ParseTo ParserHelper.
From Verif Require Import ParseToProofs ParserHelperProofs StringViewProps.
Open Scope Z_scope.

Example segment_nontrivial : segment [1; 2; 97; 98; 7] 2 4 [97; 98].
Proof. exists [1; 2], [7]. repeat split. Qed.

(** * C56: parse_unsigned_int and parse_int on digits. *)
Theorem C56_unsigned T a f l ds : std_width (width T) -> segment a f l ds -> Forall digit ds -> ds <> [] ->
  range_unsigned_int T a f l = if (length ds <=? digits10 T)%nat then Ok (decimal ds) else Throw.
Proof. exact (range_unsigned_ok T a f l ds). Qed.
Theorem C56_cstring T pre ds post : std_width (width T) -> Forall digit ds -> ds <> [] ->
  cstr_unsigned_int T (pre ++ ds ++ 0 :: post) (length pre) =
    if (length ds <=? digits10 T)%nat then Ok (decimal ds) else Throw.
Proof. exact (cstr_unsigned_ok T pre ds post). Qed.
Theorem C56_view T v : std_width (width T) -> valid v -> Forall digit (chars v) -> chars v <> [] ->
  view_unsigned_int T v = if (length (chars v) <=? digits10 T)%nat then Ok (decimal (chars v)) else Throw.
Proof. exact (view_unsigned_ok T v). Qed.
Theorem C56_int T a f l ds : std_width (width T) -> segment a f l ds -> Forall digit ds -> ds <> [] ->
  range_int T a f l = if (length ds <=? digits10 T)%nat then Ok (decimal ds) else Throw.
Proof. exact (range_int_plain T a f l ds). Qed.
Theorem C56_negative_int T a f l ds : std_width (width T) -> signed T = true -> segment a f l (45 :: ds) ->
  Forall digit ds -> ds <> [] ->
  range_int T a f l = if (length ds <=? digits10 T)%nat then Ok (- decimal ds) else Throw.
Proof. exact (range_int_neg T a f l ds). Qed.
Theorem C56_unsigned_minus T a f l s : signed T = false -> segment a f l (45 :: s) ->
  range_unsigned_int T a f l = Throw /\ range_int T a f l = Throw.
Proof. exact (fun SG G => conj (range_unsigned_neg T a f l s G) (range_int_unsigned_neg T a f l s SG G)). Qed.
(** The value is representable whenever it is returned. *)
Theorem C56_no_wrap T ds : std_width (width T) -> Forall digit ds -> (length ds <= digits10 T)%nat ->
  0 <= decimal ds <= highest T.
Proof. exact (fun H F L => conj (decimal_nonneg ds F) (decimal_fits T ds H F L)). Qed.
Theorem C56_view_int :
  forall T v, std_width (width T) -> valid v ->
  (forall ds, chars v = ds -> Forall digit ds -> ds <> [] ->
     view_int T v = if (length ds <=? digits10 T)%nat then Ok (decimal ds) else Throw) /\
  (forall ds, chars v = 45 :: ds -> signed T = true -> Forall digit ds -> ds <> [] ->
     view_int T v = if (length ds <=? digits10 T)%nat then Ok (- decimal ds) else Throw).
Proof. exact c56_view_int_l. Qed.
Print Assumptions C56_view_int.
Print Assumptions C56_unsigned.
Print Assumptions C56_cstring.
Print Assumptions C56_view.
Print Assumptions C56_int.
Print Assumptions C56_negative_int.
Print Assumptions C56_unsigned_minus.
Print Assumptions C56_no_wrap.

(** "123" within "x123y"; "256" as unsigned char has too many digits; "-12". *)
Example C56_nontrivial :
  range_unsigned_int u32 [120; 49; 50; 51; 121] 1 4 = Ok 123 /\ range_unsigned_int u8 [50; 53; 54] 0 3 = Throw /\
  cstr_unsigned_int u64 [120; 49; 50; 0; 51] 1 = Ok 12 /\ range_int i32 [45; 49; 50] 0 3 = Ok (-12) /\
  range_int i8 [45; 49; 50; 56] 0 4 = Throw /\ Forall digit [49; 50; 51] /\ segment [120; 49; 50; 51; 121] 1 4 [49; 50; 51].
Proof.
  do 5 (split; [vm_compute; reflexivity|]). split; [repeat constructor; cbv; discriminate|].
  exists [120], [121]. repeat split.
Qed.

(** * C99, for parse_unsigned_int: no character is rejected. *)
Theorem C99_helper_refuted T a f l c s : std_width (width T) -> wraps T -> segment a f l (c :: s) -> c <> 45 ->
  (length (c :: s) <= digits10 T)%nat -> exists x, range_unsigned_int T a f l = Ok x.
Proof. exact (unsigned_accepts T a f l c s). Qed.
(** An empty range reads the element at its end. *)
Theorem C99_helper_empty_refuted T a f : std_width (width T) ->
  range_unsigned_int T a f f =
    match nth_error a f with None => UB | Some c => if c =? 45 then Throw else Ok 0 end.
Proof. exact (unsigned_empty T a f). Qed.
Print Assumptions C99_helper_refuted.
Print Assumptions C99_helper_empty_refuted.

(** "1x" is 82. *)
Example C99_helper_witness : range_unsigned_int u32 [49; 120] 0 2 = Ok 82 /\ range_unsigned_int u32 [] 0 0 = UB.
Proof. split; (vm_compute; reflexivity). Qed.

(** * C101: until, until_false, until_value, skip_ws. *)
Theorem C101_until p s a f l : segment a f l s ->
  exists k, stops (fun c => p c = true) s k /\ until a f l p = Ok (FR f (f + k) (k <? length s)%nat).
Proof. exact (fun G => until_ok p s a f l _ G (fun c _ => iff_refl (p c = true))). Qed.
Theorem C101_until_or_throw p s a f l t : segment a f l s ->
  exists k, stops (fun c => p c = true) s k /\
    until_or_throw a f l p t =
      if t && (k =? length s)%nat then Throw else Ok (FR f (f + k) (k <? length s)%nat).
Proof. exact (until_or_throw_ok p s a f l t). Qed.
Theorem C101_until_false p s a f l : segment a f l s ->
  exists k, stops (fun c => p c = false) s k /\ until_false a f l p = Ok (FR f (f + k) (k <? length s)%nat).
Proof. exact (until_false_ok p s a f l). Qed.
Theorem C101_until_value vs s a f l : segment a f l s ->
  exists k, stops (fun c => In c vs) s k /\ until_value a f l vs = Ok (FR f (f + k) (k <? length s)%nat).
Proof. exact (until_value_ok vs s a f l). Qed.
Theorem C101_skip_ws s a f l : segment a f l s ->
  exists k, stops (fun c => ~ blank c) s k /\ skip_ws a f l = Ok (FR (f + k) l (k <? length s)%nat).
Proof. exact (skip_ws_ok s a f l). Qed.
Theorem C101_find_first_of_when v p : valid v ->
  exists k, find_first_of_when v p = Ok (Z.of_nat k) /\ stops (fun c => p c = true) (chars v) k.
Proof. exact (find_when_ok v p). Qed.
(** [stops] names one position. *)
Theorem C101_unique P s k j : stops P s k -> stops P s j -> k = j.
Proof. exact (stops_unique P s k j). Qed.
Theorem C101_find_first_of_value :
  forall v x, valid v ->
  exists k, find_first_of_value v x = Ok (Z.of_nat k) /\ stops (fun c => c = x) (chars v) k.
Proof. exact c101_find_first_of_value_l. Qed.
Theorem C101_classes :
  forall c,
  (is_alpha c = true <-> 65 <= c <= 90 \/ 97 <= c <= 122) /\
  (is_hex c = true <-> digit c \/ 65 <= c <= 70 \/ 97 <= c <= 102) /\
  (is_alphanumeric c = true <-> digit c \/ 65 <= c <= 90 \/ 97 <= c <= 122).
Proof. exact c101_classes_l. Qed.
Print Assumptions C101_classes.
Print Assumptions C101_find_first_of_value.
Print Assumptions C101_until.
Print Assumptions C101_until_or_throw.
Print Assumptions C101_until_false.
Print Assumptions C101_until_value.
Print Assumptions C101_skip_ws.
Print Assumptions C101_find_first_of_when.
Print Assumptions C101_unique.

Example C101_nontrivial :
  until_value [7; 97; 98; 99; 7] 1 4 [99; 98] = Ok (FR 1 2 true) /\ until_value [7; 97; 98; 99; 7] 1 4 [7] = Ok (FR 1 4 false) /\
  skip_ws [32; 9; 97; 32] 0 4 = Ok (FR 2 4 true) /\ until_or_throw [1; 2] 0 2 (fun c => c =? 3) true = Throw /\
  find_first_of_value (sub_view [1] [97; 98] [99]) 99 = Ok 2.
Proof. repeat split; (vm_compute; reflexivity). Qed.

(** * C102: value_in, in, one_of and until_values answer the opposite. *)
Theorem C102_value_in_refuted v c : value_in v c = true <-> ~ In v c.
Proof. exact (value_in_inverted v c). Qed.
Theorem C102_predicates_refuted c v : (in_pred c v = true <-> ~ In v c) /\ (one_of c v = true <-> ~ In v c).
Proof. exact (conj (value_in_inverted v c) (value_in_inverted v c)). Qed.
Theorem C102_until_values_refuted vs s a f l : segment a f l s ->
  exists k, stops (fun c => ~ In c vs) s k /\ until_values a f l vs = Ok (FR f (f + k) (k <? length s)%nat).
Proof. exact (until_values_inverted vs s a f l). Qed.
(** expect does what it says. *)
Theorem C102_expect v cs : (In v cs -> expect v cs = Ok tt) /\ (~ In v cs -> expect v cs = Throw).
Proof. exact (expect_ok v cs). Qed.
Print Assumptions C102_value_in_refuted.
Print Assumptions C102_predicates_refuted.
Print Assumptions C102_until_values_refuted.
Print Assumptions C102_expect.

Example C102_witness : value_in 2 [1; 2; 3] = false /\ value_in 4 [1; 2; 3] = true /\
  until_values [1; 2; 9; 3] 0 4 [9] = Ok (FR 0 0 true) /\ expect 2 [1; 2] = Ok tt.
Proof. repeat split. Qed.

(** * C103: split_on and split_if do not end once there is a divider. *)
Theorem C103_split_refuted p s a f l : segment a f l s -> (exists c, In c s /\ p c = true) ->
  forall fuel, split_if fuel a f l p = OutOfFuel.
Proof. exact (split_stuck p s a f l). Qed.
Theorem C103_split_partial p s a f l fuel : segment a f l s -> Forall (fun c => p c = false) s -> (0 < fuel)%nat ->
  split_if fuel a f l p = Ok (if (length s =? 0)%nat then [] else [l]).
Proof. exact (split_plain p s a f l fuel). Qed.
Theorem C103_split_on_refuted vs s a f l : segment a f l s -> (exists c, In c s /\ In c vs) ->
  forall fuel, split_on fuel a f l vs = OutOfFuel.
Proof.
  exact (fun G '(ex_intro _ c (conj P Q)) => split_stuck _ s a f l G (ex_intro _ c (conj P (proj2 (is_a_in c vs) Q)))).
Qed.
Print Assumptions C103_split_refuted.
Print Assumptions C103_split_partial.
Print Assumptions C103_split_on_refuted.

Example C103_witness : split_on 1000 [97; 44; 98] 0 3 [44] = OutOfFuel /\ split_on 1 [97; 44; 98] 2 3 [44] = Ok [3%nat].
Proof. split; (vm_compute; reflexivity). Qed.

(** * C104: trimming. *)
(** On string views every leading and trailing white space character goes. *)
Theorem C104_view_left dbg v : valid v ->
  exists v', ws_trim_left dbg v = Ok v' /\ valid v' /\ drops_front blank (chars v) (chars v').
Proof. exact (ws_trim_left_ok dbg v). Qed.
Theorem C104_view_right dbg v : valid v ->
  exists v', ws_trim_right dbg v = Ok v' /\ valid v' /\ drops_back blank (chars v) (chars v').
Proof. exact (ws_trim_right_ok dbg v). Qed.
Theorem C104_view_trim dbg v : valid v ->
  exists m v', ws_trim dbg v = Ok v' /\ valid v' /\ drops_front blank (chars v) m /\ drops_back blank m (chars v').
Proof. exact (ws_trim_ok dbg v). Qed.
(** On ranges: trim_left is right unless all is white space, which is kept whole. *)
Theorem C104_left_partial a f l w c s : segment a f l (w ++ c :: s) -> Forall blank w -> ~ blank c ->
  trim_left a f l = Ok (FR (f + length w) l false).
Proof. exact (trim_left_ok a f l w c s). Qed.
Theorem C104_blank_refuted a f l w : segment a f l w -> Forall blank w ->
  trim_left a f l = Ok (FR f l false) /\ trim_right a f l = Ok (FR f l false) /\ trim a f l = Ok (FR f l false).
Proof.
  exact (fun G F => conj (trim_left_blank a f l w G F) (conj (trim_right_blank a f l w G F) (trim_blank a f l w G F))).
Qed.
(** trim_right and trim end after the first word, whatever follows. *)
Theorem C104_right_refuted a f l w c word rest : segment a f l (w ++ (c :: word) ++ rest) -> Forall blank w ->
  Forall (fun c => ~ blank c) (c :: word) -> white_or_end rest ->
  trim_right a f l = Ok (FR f (f + length w + S (length word)) true) /\
  trim a f l = Ok (FR (f + length w) (f + length w + S (length word)) true).
Proof.
  exact (fun G F N R => conj (trim_right_ok a f l w c word rest G F N R) (trim_ok a f l w c word rest G F N R)).
Qed.
Print Assumptions C104_view_left.
Print Assumptions C104_view_right.
Print Assumptions C104_view_trim.
Print Assumptions C104_left_partial.
Print Assumptions C104_blank_refuted.
Print Assumptions C104_right_refuted.

(** " a b " *)
Example C104_nontrivial : forall dbg,
  shown (ws_trim dbg (sub_view [1] [32; 97; 32; 98; 32] [2])) = Some [97; 32; 98] /\
  trim [32; 97; 32; 98; 32] 0 5 = Ok (FR 1 2 true) /\ trim_left [32; 97; 32; 98; 32] 0 5 = Ok (FR 1 5 false) /\
  trim [32; 32] 0 2 = Ok (FR 0 2 false) /\ blank 32 /\ ~ blank 97.
Proof.
  intros []; do 4 (split; [vm_compute; reflexivity|]); (split; [vm_compute; auto 10|]);
    intros H; vm_compute in H; repeat (destruct H as [H | H]; [discriminate H|]); exact H.
Qed.

(** * C105: assert_equal, assert_not_equal and assert_empty are the wrong way round. *)
Theorem C105_equal_refuted x y : assert_equal x y = if x =? y then Throw else Ok tt.
Proof. exact (assert_equal_inverted x y). Qed.
Theorem C105_not_equal_refuted x y : assert_not_equal x y = if x =? y then Ok tt else Throw.
Proof. exact eq_refl. Qed.
Theorem C105_empty_refuted f l : assert_empty f l = if (f =? l)%nat then Throw else Ok tt.
Proof. exact (assert_empty_inverted f l). Qed.
Theorem C105_not_empty :
  forall f l, assert_not_empty f l = Ok tt <-> f <> l.
Proof. exact c105_not_empty_l. Qed.
Print Assumptions C105_not_empty.
Print Assumptions C105_equal_refuted.
Print Assumptions C105_not_equal_refuted.
Print Assumptions C105_empty_refuted.

Example C105_witness : assert_equal 1 1 = Throw /\ assert_equal 1 2 = Ok tt /\ assert_empty 3 3 = Throw /\
  assert_not_empty 3 3 = Throw.
Proof. repeat split. Qed.

(** * C106: starts_with, until_last_of, matcher. *)
Theorem C106_starts_with pred s1 s2 a1 f1 l1 a2 f2 l2 : segment a1 f1 l1 s1 -> segment a2 f2 l2 s2 ->
  exists b, starts_with pred a1 f1 l1 a2 f2 l2 = Ok b /\
    (b = true <-> exists x y, s1 = x ++ y /\ Forall2 (fun c d => pred c d = true) x s2).
Proof. exact (starts_with_ok pred s1 s2 a1 f1 l1 a2 f2 l2). Qed.
Theorem C106_until_last_of_absent v s a f l : segment a f l s -> ~ In v s -> until_last_of a f l v = Ok (FR f l false).
Proof. exact (until_last_absent v s a f l). Qed.
Theorem C106_until_last_of v x z a f l : segment a f l (x ++ v :: z) -> ~ In v z ->
  until_last_of a f l v = Ok (FR f (f + length x) true).
Proof. exact (until_last_found v x z a f l). Qed.
Theorem C106_matcher t s a f l : segment a f l s -> t <> [] ->
  ((forall j, ~ occurs s t j) -> matcher a t f l = FR f l false) /\
  (forall k, occurs s t k -> (forall j, (j < k)%nat -> ~ occurs s t j) -> matcher a t f l = FR f (f + k) true).
Proof. exact (matcher_ok t s a f l). Qed.
Print Assumptions C106_starts_with.
Print Assumptions C106_until_last_of_absent.
Print Assumptions C106_until_last_of.
Print Assumptions C106_matcher.

Example C106_nontrivial :
  starts_with Z.eqb [7; 97; 98; 99] 1 4 [97; 98; 5] 0 2 = Ok true /\ starts_with Z.eqb [97] 0 1 [97; 98] 0 2 = Ok false /\
  until_last_of [1; 44; 2; 44; 3] 0 5 44 = Ok (FR 0 3 true) /\ matcher [97; 98; 97; 99; 97; 99] [97; 99] 0 6 = FR 0 2 true.
Proof. repeat split; (vm_compute; reflexivity). Qed.

(** * C108: parse_string_literal. *)
Theorem C108_literal_partial a f l body rest : segment a f l (34 :: body ++ 34 :: rest) -> Forall char_range body ->
  no_quote 34 body -> List.last (34 :: body) 0 <> 92 ->
  parse_string_literal a f l = Ok (FR (S f) (S f + length body) true).
Proof. exact (literal_ok a f l body rest). Qed.
(** Without a closing quote: rejected, unless the text ends in an escaped quote. *)
Theorem C108_unterminated_refuted a f l body : segment a f l (34 :: body) -> Forall char_range body -> no_quote 34 body ->
  parse_string_literal a f l = if List.last body 0 =? 34 then Ok (FR (S f) l true) else Throw.
Proof. exact (literal_open a f l body). Qed.
(** Leading white space is skipped, then the character before it is tested. *)
Theorem C108_whitespace_refuted a f l c s : segment a f l (c :: s) -> char_range c -> c <> 34 ->
  parse_string_literal a f l = Throw.
Proof. exact (literal_other a f l c s). Qed.
Print Assumptions C108_literal_partial.
Print Assumptions C108_unterminated_refuted.
Print Assumptions C108_whitespace_refuted.

Example C108_nontrivial :
  parse_string_literal [34; 97; 92; 34; 98; 34; 99] 0 7 = Ok (FR 1 5 true) /\
  parse_string_literal [34; 34] 0 2 = Ok (FR 1 1 true) /\
  parse_string_literal [34; 97; 92; 34] 0 4 = Ok (FR 1 4 true) /\
  parse_string_literal [32; 34; 97; 34] 0 4 = Throw /\ parse_string_literal [34; 97] 0 2 = Throw.
Proof. repeat split; (vm_compute; reflexivity). Qed.

(** * C109: from_to and find_number. *)
Theorem C109_from_to p q s a f l t : segment a f l s ->
  exists k, stops (fun c => p c = true) s k /\
    ((k = length s /\ from_to_pred a f l p q t = Throw) \/
     exists j, (k < length s)%nat /\ stops (fun c => q c = true) (skipn k s) j /\
       from_to_pred a f l p q t =
         if t && (j =? length (skipn k s))%nat then Throw
         else Ok (FR (f + k) (f + k + j) (negb (j =? 0)%nat))).
Proof. exact (from_to_ok p q s a f l t). Qed.
(** find_number ends at the first digit it sees. *)
Theorem C109_number_refuted a f l x d y : segment a f l (x ++ d :: y) ->
  Forall (fun c => c <> 45 /\ ~ digit c) x -> digit d ->
  find_number a f l = Ok (FR (f + length x) (S (f + length x)) false).
Proof. exact (find_number_digit a f l x d y). Qed.
Theorem C109_negative_number_refuted a f l x d y : segment a f l (x ++ 45 :: d :: y) ->
  Forall (fun c => c <> 45 /\ ~ digit c) x -> digit d ->
  find_number a f l = Ok (FR (f + length x) (f + length x + 2) true).
Proof. exact (find_number_minus_digit a f l x d y). Qed.
Theorem C109_no_number a f l s : segment a f l s -> Forall (fun c => c <> 45 /\ ~ digit c) s -> find_number a f l = Throw.
Proof. exact (find_number_none a f l s). Qed.
Theorem C109_from_to_values :
  forall a f l x y z from to rest t, segment a f l (x ++ from :: y ++ z) -> ~ In from x -> from <> to -> ~ In to y ->
  z = [] \/ z = to :: rest ->
  from_to a f l from to t =
    if t && (length z =? 0)%nat then Throw else Ok (FR (f + length x) (f + length x + S (length y)) true).
Proof. exact c109_from_to_values_l. Qed.
Print Assumptions C109_from_to_values.
Print Assumptions C109_from_to.
Print Assumptions C109_number_refuted.
Print Assumptions C109_negative_number_refuted.
Print Assumptions C109_no_number.

(** "ab(cd)" from ( to ); "x123" and "x-12". *)
Example C109_nontrivial :
  from_to [97; 98; 40; 99; 100; 41] 0 6 40 41 true = Ok (FR 2 5 true) /\
  find_number [120; 49; 50; 51] 0 4 = Ok (FR 1 2 false) /\ find_number [120; 45; 49; 50] 0 4 = Ok (FR 1 3 true).
Proof. repeat split; (vm_compute; reflexivity). Qed.

(** * C110: is_crlf( n ), called with one character after another. *)
Theorem C110_two_partial vs : is_crlf 2 vs = true <-> exists pre, vs = pre ++ crlfs 2.
Proof. exact (is_crlf_two vs). Qed.
Theorem C110_one_refuted vs : is_crlf 1 vs = true <-> vs = crlfs 1.
Proof. exact (is_crlf_one vs). Qed.
Theorem C110_more_refuted n vs : (3 <= n)%nat -> Z.of_nat n < 2 ^ 62 -> is_crlf (Z.of_nat n) vs = false.
Proof. exact (is_crlf_more n vs). Qed.
Print Assumptions C110_two_partial.
Print Assumptions C110_one_refuted.
Print Assumptions C110_more_refuted.

Example C110_witness : is_crlf 2 [97; 13; 10; 13; 10] = true /\ is_crlf 1 [13; 10] = true /\
  is_crlf 1 [97; 13; 10] = false /\ is_crlf 3 (crlfs 3) = false.
Proof. repeat split; (vm_compute; reflexivity). Qed.

(** * C111: find_first_of_any does not end. *)
Theorem C111_refuted a f l c0 c1 s v0 v1 vs : segment a f l (c0 :: c1 :: s) -> In v0 (c0 :: c1 :: s) -> v1 <> c1 ->
  forall fuel, find_first_of_any fuel a f l (v0 :: v1 :: vs) = OutOfFuel.
Proof. exact (any_stuck a f l c0 c1 s v0 v1 vs). Qed.
Print Assumptions C111_refuted.

Example C111_witness : find_first_of_any 1000 [97; 98; 99; 100] 0 4 [99; 100] = OutOfFuel.
Proof. vm_compute. reflexivity. Qed.
