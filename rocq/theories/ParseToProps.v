(** Properties C57, C58, C99, C100, C107: parse_to.

    [dbg]: a build with the debug checks.  Values of every integral type [T] of
    8, 16, 32 or 64 bits. *)
From Verif Require Import Common Ints Math StringView StringPop SpecBits SpecString SpecParse ParseTo.
From Verif Require Import ParseToProofs ParseSplitProofs ParseQuotedProofs StringViewProps.
Open Scope Z_scope.

(** A whole array seen as a view. *)
Definition text (s : list Z) : view := sub_view [] s [].

(** * C57: parse_to_value<T>. *)
(** A representable number is returned if its text has at most
    numeric_limits<T>::digits digits and it is not the lowest int or long. *)
Theorem C57_representable_partial dbg T v x : std_width (width T) -> valid v -> number_text (chars v) x -> fits T x ->
  (signed T = false -> forall t, chars v <> 45 :: t) ->
  (Z.of_nat (length (chars v)) <= digits2 T \/ exists t, chars v = 45 :: t /\ Z.of_nat (length t) <= digits2 T) ->
  (width T < 32 \/ signed T = false \/ x <> lowest T) ->
  parse_to_value dbg T v = Ok x.
Proof. exact (parse_representable dbg T v x). Qed.
(** A number that is not representable is not reported: types whose arithmetic
    wraps return another number, wider signed types overflow. *)
Theorem C57_wraps_refuted dbg T v : std_width (width T) -> wraps T -> valid v -> Forall digit (chars v) -> chars v <> [] ->
  Z.of_nat (length (chars v)) <= digits2 T -> parse_to_value dbg T v = Ok (conv T (decimal (chars v))).
Proof. exact (parse_wraps dbg T v). Qed.
Theorem C57_overflow_refuted dbg T v ds : std_width (width T) -> ~ wraps T -> valid v -> Forall digit ds ->
  chars v = ds \/ chars v = 45 :: ds -> Z.of_nat (length ds) <= digits2 T -> highest T < decimal ds ->
  parse_to_value dbg T v = UB.
Proof. exact (parse_undefined dbg T v ds). Qed.
(** More digits than numeric_limits<T>::digits: rejected whatever the value, leading
    zeros included. *)
Theorem C57_long_refuted dbg T v : std_width (width T) -> valid v -> Forall digit (chars v) ->
  digits2 T < Z.of_nat (length (chars v)) ->
  (wraps T \/ decimal (firstn (Z.to_nat (digits2 T)) (chars v)) <= highest T) ->
  parse_to_value dbg T v = Throw.
Proof. exact (parse_too_long dbg T v). Qed.
Print Assumptions C57_representable_partial.
Print Assumptions C57_wraps_refuted.
Print Assumptions C57_overflow_refuted.
Print Assumptions C57_long_refuted.

(** "-128" as signed char, "255", "256", "300" as unsigned char, "-2147483648" and
    "2147483648" as int, "00000001" as signed char, "-0" as unsigned. *)
Example C57_nontrivial : forall dbg,
  parse_to_value dbg i8 (text [45; 49; 50; 56]) = Ok (-128) /\
  parse_to_value dbg u8 (text [50; 53; 53]) = Ok 255 /\
  parse_to_value dbg u8 (text [50; 53; 54]) = Ok 0 /\
  parse_to_value dbg i8 (text [51; 48; 48]) = Ok 44 /\
  parse_to_value dbg i32 (text [45; 50; 49; 52; 55; 52; 56; 51; 54; 52; 55]) = Ok (-2147483647) /\
  parse_to_value dbg i32 (text [45; 50; 49; 52; 55; 52; 56; 51; 54; 52; 56]) = UB /\
  parse_to_value dbg i32 (text [50; 49; 52; 55; 52; 56; 51; 54; 52; 56]) = UB /\
  parse_to_value dbg i8 (text [48; 48; 48; 48; 48; 48; 48; 49]) = Throw /\
  parse_to_value dbg u32 (text [45; 48]) = Throw.
Proof. intros []; repeat split; (vm_compute; reflexivity). Qed.
Example C57_hypotheses :
  number_text [45; 49; 50; 56] (-128) /\ fits i8 (-128) /\ digits2 i8 = 7 /\ wraps u8 /\ wraps i16 /\ ~ wraps i32 /\
  Forall digit [50; 53; 54] /\ decimal [50; 53; 54] = 256 /\ highest i32 < decimal [50; 49; 52; 55; 52; 56; 51; 54; 52; 56].
Proof.
  split; [exists [49; 50; 56]; split; [discriminate|]; split; [repeat constructor; cbv; discriminate|]; right; split; reflexivity|].
  split; [split; vm_compute; discriminate|]. split; [reflexivity|]. split; [left; reflexivity|].
  split; [right; reflexivity|]. split; [intros [H | H]; discriminate H|].
  split; [repeat constructor; cbv; discriminate|]. split; reflexivity.
Qed.

(** * C99: text that is not a number.  [parse_to_value] accepts only digits, or '-'
    and digits for a signed type, but '-' alone is 0. *)
Theorem C99_accepts_partial dbg T v x : valid v -> parse_to_value dbg T v = Ok x ->
  exists ds, Forall digit ds /\ ((chars v = ds /\ ds <> []) \/ (signed T = true /\ chars v = 45 :: ds)).
Proof. exact (parse_accepts dbg T v x). Qed.
Theorem C99_empty dbg T v : valid v -> chars v = [] -> parse_to_value dbg T v = Throw.
Proof. exact (parse_empty dbg T v). Qed.
Theorem C99_unsigned_minus dbg T v t : valid v -> chars v = 45 :: t -> signed T = false -> parse_to_value dbg T v = Throw.
Proof. exact (parse_unsigned_minus dbg T v t). Qed.
Theorem C99_minus_refuted dbg T v : std_width (width T) -> valid v -> chars v = [45] -> signed T = true ->
  parse_to_value dbg T v = Ok 0.
Proof. exact (parse_minus dbg T v). Qed.
Print Assumptions C99_accepts_partial.
Print Assumptions C99_empty.
Print Assumptions C99_unsigned_minus.
Print Assumptions C99_minus_refuted.

(** "1x", "", "-1" as unsigned, "-", "--1". *)
Example C99_nontrivial : forall dbg,
  parse_to_value dbg i32 (text [49; 120]) = Throw /\ parse_to_value dbg i32 (text []) = Throw /\
  parse_to_value dbg u32 (text [45; 49]) = Throw /\ parse_to_value dbg i32 (text [45]) = Ok 0 /\
  parse_to_value dbg i32 (text [45; 45; 49]) = Throw /\ parse_to_value dbg i32 (text [45; 49]) = Ok (-1).
Proof. intros []; repeat split; (vm_compute; reflexivity). Qed.

(** * C58: splitting on a delimiter. *)
(** For every text and delimiter the fields are those cut off at the first
    occurrences of the delimiter. *)
Theorem C58_first_occurrences dbg n v dv : valid v -> valid dv ->
  exists vs, get_positions dbg n (default_splitter dv) v = Ok vs /\ Forall valid vs /\
    pieces (cut_text (chars dv)) n (chars v) (map chars vs).
Proof. intros V D. exact (positions_pieces dbg _ _ (default_cuts dv D) n v V). Qed.
(** Fields joined by a delimiter come back if the delimiter does not start inside a
    field followed by it. *)
Theorem C58_fields_partial dbg v dv n fs last : valid v -> valid dv -> chars dv <> [] ->
  chars v = join (chars dv) (fs ++ [last]) ->
  Forall (ends_field (chars dv)) fs -> (forall i, ~ occurs last (chars dv) i) ->
  exists vs, get_positions dbg n (default_splitter dv) v = Ok vs /\ Forall valid vs /\
    map chars vs = firstn n (fs ++ [last] ++ repeat [] n).
Proof. exact (split_fields dbg v dv n fs last). Qed.
(** A delimiter of one character: every list of fields. *)
Theorem C58_single_character dbg v dv n fs c : valid v -> valid dv -> chars dv = [c] -> fs <> [] ->
  chars v = join [c] fs -> Forall (fun f => ~ In c f) fs ->
  exists vs, get_positions dbg n (default_splitter dv) v = Ok vs /\ Forall valid vs /\
    map chars vs = firstn n (fs ++ repeat [] n).
Proof. exact (split_char dbg v dv n fs c). Qed.
(** Fields "a" and "b" joined by "aa": neither contains the delimiter, the result is
    "" and "ab". *)
Theorem C58_overlap_refuted dbg : exists vs,
  get_positions dbg 2 (default_splitter (text [97; 97])) (text (join [97; 97] [[97]; [98]])) = Ok vs /\
  map chars vs = [[]; [97; 98]] /\ (forall i, ~ occurs [97] [97; 97] i) /\ (forall i, ~ occurs [98] [97; 97] i).
Proof.
  destruct dbg; (eexists; split; [vm_compute; reflexivity|]; split; [vm_compute; reflexivity|]);
    split; intros i (a & b & E & L); apply (f_equal (@length Z)) in E; rewrite !app_length in E; cbn in E; lia.
Qed.
(** The values of the fields, in order. *)
Theorem C58_values_partial dbg Ts v dv fs last xs : Forall (fun T => std_width (width T)) Ts ->
  valid v -> valid dv -> chars dv <> [] ->
  chars v = join (chars dv) (fs ++ [last]) -> length Ts = S (length fs) ->
  Forall (ends_field (chars dv)) fs -> (forall i, ~ occurs last (chars dv) i) ->
  Forall2 (fun (Tf : ity * list Z) x => plain_number (fst Tf) (snd Tf) x) (combine Ts (fs ++ [last])) xs ->
  parse_to dbg Ts v dv = Ok xs.
Proof. exact (parse_to_fields dbg Ts v dv fs last xs). Qed.
Print Assumptions C58_first_occurrences.
Print Assumptions C58_fields_partial.
Print Assumptions C58_single_character.
Print Assumptions C58_overlap_refuted.
Print Assumptions C58_values_partial.

(** "12, -3, 7" with ", ". *)
Example C58_nontrivial : forall dbg,
  parse_to dbg [i32; i64; u8] (text (join [44; 32] [[49; 50]; [45; 51]; [55]])) (text [44; 32]) = Ok [12; -3; 7].
Proof. intros []; vm_compute; reflexivity. Qed.
Example C58_hypotheses : ends_field [44; 32] [49; 50] /\ (forall i, ~ occurs [55] [44; 32] i) /\
  plain_number i64 [45; 51] (-3) /\ join [44; 32] [[49; 50]; [45; 51]; [55]] = [49; 50; 44; 32; 45; 51; 44; 32; 55].
Proof.
  split.
  { intros i (a & b & E & L). cbn [app] in E.
    destruct a as [|c a]; [discriminate E|]. destruct a as [|c' a]; [discriminate E|].
    destruct a as [|c'' a]; [cbn in L; subst; reflexivity|].
    apply (f_equal (@length Z)) in E. cbn in E. rewrite app_length in E. cbn in E. lia. }
  split. { intros i (a & b & E & L). apply (f_equal (@length Z)) in E. rewrite !app_length in E. cbn in E. lia. }
  split; [|reflexivity]. split.
  { exists [51]. split; [discriminate|]. split; [repeat constructor; cbv; discriminate|]. right. split; reflexivity. }
  split; [split; vm_compute; discriminate|]. split; [discriminate|]. split; [vm_compute; discriminate|]. left. reflexivity.
Qed.

(** * C100: splitting on white space.  The comments say that whitespace_splitter
    splits on each encounter and single_whitespace_splitter merges runs; it is the
    other way round. *)
Theorem C100_whitespace_refuted dbg v n items last : let W := fun c => uni_white (wrap 32 c) in
  valid v -> chars v = text_of items last ->
  Forall (fun p => Forall (fun c => ~ W c) (fst p) /\ Forall W (snd p) /\ snd p <> []) items ->
  Forall (fun p => fst p <> []) (tl items) -> Forall (fun c => ~ W c) last ->
  exists vs, get_positions dbg n (whitespace_splitter dbg) v = Ok vs /\ Forall valid vs /\
    map chars vs = firstn n (map fst items ++ [last] ++ repeat [] n).
Proof. exact (split_white_runs dbg v n items last). Qed.
Theorem C100_single_whitespace_refuted dbg v n items last : let W := fun c => uni_white (wrap 32 c) in
  valid v -> chars v = text_of items last ->
  Forall (fun p => Forall (fun c => ~ W c) (fst p) /\ exists w, W w /\ snd p = [w]) items ->
  Forall (fun c => ~ W c) last ->
  exists vs, get_positions dbg n (single_whitespace_splitter dbg) v = Ok vs /\ Forall valid vs /\
    map chars vs = firstn n (map fst items ++ [last] ++ repeat [] n).
Proof. exact (split_white dbg v n items last). Qed.
(** Which characters separate: those of Unicode's White_Space, and for a signed char
    the ASCII ones among them. *)
Theorem C100_characters c : (is_unicode_whitespace c = true <-> uni_white (wrap 32 c)) /\
  (-128 <= c <= 127 -> (is_unicode_whitespace c = true <-> white c)).
Proof.
  split; [exact (unicode_white c)|]. intros R.
  exact (iff_trans (unicode_white c) (uni_white_char c R)).
Qed.
Print Assumptions C100_whitespace_refuted.
Print Assumptions C100_single_whitespace_refuted.
Print Assumptions C100_characters.

(** "a  b" *)
Example C100_witness : forall dbg,
  (exists vs, get_positions dbg 3 (whitespace_splitter dbg) (text [97; 32; 32; 98]) = Ok vs /\
     map chars vs = [[97]; [98]; []]) /\
  (exists vs, get_positions dbg 3 (single_whitespace_splitter dbg) (text [97; 32; 32; 98]) = Ok vs /\
     map chars vs = [[97]; []; [98]]).
Proof. intros []; split; (eexists; split; [vm_compute; reflexivity | vm_compute; reflexivity]). Qed.

(** * C107: quoted strings.  The body between the quotes is returned, quotes after a
    backslash included, if it is not empty. *)
Theorem C107_quoted_partial dbg v c0 body rest : valid v -> chars v = 34 :: (c0 :: body) ++ 34 :: rest ->
  no_quote c0 body -> List.last (c0 :: body) 0 <> 92 ->
  exists r, parse_to_quoted dbg v = Ok r /\ valid r /\ chars r = c0 :: body.
Proof. exact (quoted_ok dbg v c0 body rest). Qed.
Theorem C107_rejects dbg v : valid v -> (vsize v <= 2 \/ exists c t, chars v = c :: t /\ c <> 34) ->
  parse_to_quoted dbg v = Throw.
Proof. exact (quoted_throws dbg v). Qed.
(** Without a closing quote the character after the view is read. *)
Theorem C107_unterminated_refuted dbg v c0 c1 body l : valid v -> chars v = 34 :: c0 :: c1 :: body ->
  no_quote c0 (c1 :: body) -> vmem v = Some l ->
  (dbg = true -> parse_to_quoted dbg v = Throw) /\
  (dbg = false -> nth_error l (Z.to_nat (voff v + vsize v)) = None -> parse_to_quoted dbg v = UB) /\
  (dbg = false -> forall c, nth_error l (Z.to_nat (voff v + vsize v)) = Some c -> c <> 34 -> parse_to_quoted dbg v = Throw) /\
  (dbg = false -> nth_error l (Z.to_nat (voff v + vsize v)) = Some 34 ->
     exists r, parse_to_quoted dbg v = Ok r /\ chars r = c0 :: c1 :: body).
Proof. exact (quoted_unterminated dbg v c0 c1 body l). Qed.
(** The empty string in quotes is rejected, and of two quotes, x and a quote
    the body is a quote and x. *)
Theorem C107_empty_refuted dbg : parse_to_quoted dbg (text [34; 34]) = Throw /\
  shown (parse_to_quoted dbg (text [34; 34; 120; 34])) = Some [34; 120].
Proof. destruct dbg; split; (vm_compute; reflexivity). Qed.
Theorem C107_character dbg v : valid v ->
  parse_to_char dbg v = match chars v with [] => Throw | c :: _ => Ok c end.
Proof. exact (char_value dbg v). Qed.
Theorem C107_unquoted v : valid v ->
  parse_to_unquoted v = match chars v with [] => Throw | _ => Ok v end.
Proof. exact (unquoted_value v). Qed.
Print Assumptions C107_quoted_partial.
Print Assumptions C107_rejects.
Print Assumptions C107_unterminated_refuted.
Print Assumptions C107_empty_refuted.
Print Assumptions C107_character.
Print Assumptions C107_unquoted.

(** A quote, a, backslash, quote, b, quote, c. *)
Example C107_nontrivial : forall dbg,
  shown (parse_to_quoted dbg (text [34; 97; 92; 34; 98; 34; 99])) = Some [97; 92; 34; 98] /\
  parse_to_quoted dbg (text [97; 98; 99; 34]) = Throw.
Proof. intros []; split; (vm_compute; reflexivity). Qed.
Example C107_hypotheses : no_quote 97 [92; 34; 98] /\ no_quote 97 [98].
Proof. cbn. repeat split; discriminate. Qed.
