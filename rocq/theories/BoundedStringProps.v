(** The properties of the bounded string: C226-C233.
    The vocabulary is in SpecBoundedString.v, SpecStringView1.v and SpecString.v. *)
From Coq Require Import List ZArith Bool Lia.
From Verif Require Import Common Ints StringView SpecString SeqContainers StringView1 SpecStringView1.
From Verif Require Import BoundedString SpecBoundedString BoundedStringProofs.
Import ListNotations.
Open Scope Z_scope.

(** * C226 Histories of a bounded string *)

(** A default constructed string is empty and a C string. *)
Theorem C226_start :
  forall cap, Z.of_nat (S cap) < 2 ^ 63 -> bs_holds cap (bs_empty cap) [] /\ bs_cterm (bs_empty cap) [].
Proof. exact c226_start. Qed.

(** What can be observed of a string that holds [l]. *)
Theorem C226_observations :
  forall cap v l, bs_rep cap v l -> bs_shows cap v l.
Proof. exact c226_observations. Qed.

(** Every history: the results and the characters are those of the list operations, and the size never exceeds the capacity. *)
Theorem C226_history :
  forall dbg cap v l os, bs_holds cap v l -> all_allowed dbg cap l os ->
  exists v', bs_run dbg v os = Ok (fst (text_run cap l os), v') /\ bs_holds cap v' (snd (text_run cap l os)).
Proof. exact c226_history. Qed.

(** remove_suffix with a count close to 2^64 appends NUL characters instead of throwing; on a full string it writes outside the array. *)
Theorem C226_remove_suffix_refuted :
  (forall cap v l k, bs_holds cap v l -> (length l + S k <= cap)%nat ->
     bs_makes cap (bs_remove_suffix v (2 ^ 64 - Z.of_nat (S k))) (l ++ repeat 0 (S k))) /\
  (forall cap v l, bs_rep cap v l -> length l = cap -> bs_remove_suffix v npos = UB).
Proof. exact c226_remove_suffix_refuted. Qed.

(** pop_back of an empty string reads outside the array. *)
Theorem C226_pop_back_refuted :
  forall cap v, bs_rep cap v [] -> bs_pop_back v = UB.
Proof. exact c226_pop_back_refuted. Qed.

(** A string of capacity 5 that holds "abc", and a history with a refused append. *)
Definition abc : bstr := {| bindex := 3; bfirst := 0; bstack := [97; 98; 99; 0; 0; 0] |}.
Definition some_ops : list bs_op :=
  [BAppend [100; 101]; BPush 102; BErase 1; BPop; BEraseIndex 1 1; BAppendSub [120; 121; 122] 1 npos; BRemoveSuffix 1].
Example C226_nonvacuous :
  bs_holds 5 abc [97; 98; 99] /\ all_allowed true 5 [97; 98; 99] some_ops /\
  text_run 5 [97; 98; 99] some_ops =
    ([Returned []; Threw; Returned []; Returned [101]; Returned []; Returned []; Returned []], [97; 100; 121]) /\
  bs_keep abc (bs_remove_suffix abc npos) = Ok (Returned [], {| bindex := 4; bfirst := 0; bstack := [97; 98; 99; 0; 0; 0] |}).
Proof.
  split; [|split; [|split]]; [| |reflexivity..].
  - split; [|cbn; lia]. repeat split. exists [0; 0; 0]. split; reflexivity.
  - unfold some_ops.
    repeat (apply allowed_cons; [cbn; unfold range_ok; cbn; repeat split; try lia; try discriminate|]). apply allowed_nil.
Qed.
Print Assumptions C226_start.
Print Assumptions C226_observations.
Print Assumptions C226_history.
Print Assumptions C226_remove_suffix_refuted.
Print Assumptions C226_pop_back_refuted.

(** * C227 c_str( ) is a C string *)

(** A history without erase keeps c_str( ) a C string. *)
Theorem C227_terminated :
  forall dbg cap v l os, bs_holds cap v l -> bs_cterm v l -> all_allowed dbg cap l os ->
  forallb (fun o => negb (erases o)) os = true ->
  exists xs v', bs_run dbg v os = Ok (xs, v') /\ bs_cterm v' (snd (text_run cap l os)).
Proof. exact c227_terminated. Qed.

(** Any other successful call makes c_str( ) a C string again, whatever happened before. *)
Theorem C227_restored :
  forall dbg cap v l o, bs_holds cap v l -> allowed dbg cap l o -> erases o = false ->
  fst (text_step cap l o) <> Threw ->
  exists x v', bs_step dbg v o = Ok (x, v') /\ bs_cterm v' (snd (text_step cap l o)).
Proof. exact c227_restored. Qed.

(** After erase( pos ) the erased character follows the characters of the string, not a NUL. *)
Theorem C227_erase_refuted :
  forall cap v pre c post, bs_holds cap v (pre ++ c :: post) -> c <> 0 ->
  exists r v' rest, bs_erase_at v (Z.of_nat (length pre)) = Ok (r, v') /\ bs_holds cap v' (pre ++ post) /\
    bs_mem v' = (pre ++ post) ++ c :: rest /\ ~ bs_cterm v' (pre ++ post).
Proof. exact c227_erase_refuted. Qed.

Example C227_nonvacuous :
  bs_cterm abc [97; 98; 99] /\
  bs_erase_at abc 0 = Ok (1, {| bindex := 2; bfirst := 0; bstack := [98; 99; 97; 0; 0; 0] |}).
Proof. split; [exists [0; 0] |]; reflexivity. Qed.
Print Assumptions C227_terminated.
Print Assumptions C227_restored.
Print Assumptions C227_erase_refuted.

(** * C228 Construction and conversion *)

(** Construction from at most Capacity characters. *)
Theorem C228_construction :
  forall cap s b, Z.of_nat (S cap) < 2 ^ 63 -> (length s <= cap)%nat ->
  bs_makes cap (bs_ptr cap (s ++ b) (Z.of_nat (length s))) s /\
  bs_makes cap (bs_array cap (s ++ [0])) s /\
  (Forall (fun c => c <> 0) s -> Z.of_nat (length (s ++ 0 :: b)) < 2 ^ 63 -> bs_makes cap (bs_cstr cap (s ++ 0 :: b)) s).
Proof. exact c228_construction. Qed.

(** Conversion from a string of another capacity, and its first characters. *)
Theorem C228_conversion :
  forall cap n str l, bs_holds n str l -> Z.of_nat (S cap) < 2 ^ 63 ->
  ((length l <= cap)%nat -> bs_makes cap (bs_convert cap str) l) /\
  (forall count, 0 <= count <= Z.of_nat (length l) -> count <= Z.of_nat cap ->
     bs_makes cap (bs_other cap n str count) (firstn (Z.to_nat count) l)).
Proof. exact c228_conversion. Qed.

(** From more than Capacity characters: one character more than the capacity is kept, no NUL follows, and push_back and remove_suffix( 0 ) write outside the array. *)
Theorem C228_overlong_refuted :
  forall cap mem count, Z.of_nat (S cap) < 2 ^ 63 -> Z.of_nat cap < count -> (cap < length mem)%nat ->
  exists v, bs_ptr cap mem count = Ok v /\ bs_shows cap v (firstn (S cap) mem) /\
    bs_capacity v < bs_size v /\ bs_mem v = firstn (S cap) mem /\
    (forall c, bs_push_back v c = UB) /\ bs_remove_suffix v 0 = UB /\
    (forall c, bs_append_char v c = Throw) /\
    (forall xs, Z.of_nat (length xs) < 2 ^ 63 -> bs_append v xs = Throw).
Proof. exact c228_overlong_refuted. Qed.

(** The same happens in a conversion to a smaller capacity. *)
Theorem C228_overlong_conversion_refuted :
  forall cap n str l, bs_holds n str l -> Z.of_nat (S cap) < 2 ^ 63 -> (cap < length l)%nat ->
  exists v, bs_convert cap str = Ok v /\ bs_shows cap v (firstn (S cap) l) /\ bs_capacity v < bs_size v /\
    bs_mem v = firstn (S cap) l.
Proof. exact c228_overlong_conversion_refuted. Qed.

(** The constructor from another string and a count beyond its size takes whatever lies behind its characters, up to the other string's capacity. *)
Theorem C228_count_refuted :
  forall cap n str l, bs_holds n str l -> Z.of_nat (S cap) < 2 ^ 63 -> (n <= cap)%nat ->
  exists rest, bs_mem str = l ++ rest /\ bs_makes cap (bs_other cap n str npos) (firstn n (l ++ rest)).
Proof. exact c228_count_refuted. Qed.

(** make_bounded_string of a string literal includes the terminating NUL in the string. *)
Theorem C228_literal_refuted :
  forall cap s, Z.of_nat (S cap) < 2 ^ 63 -> (length s < cap)%nat ->
  bs_makes cap (bs_make_literal cap (s ++ [0])) (s ++ [0]).
Proof. exact c228_literal_refuted. Qed.

(** Capacity 2 and the three characters of "abc": no room for the NUL. *)
Example C228_nonvacuous :
  bs_ptr 2 [97; 98; 99; 0] 3 = Ok {| bindex := 3; bfirst := 0; bstack := [97; 98; 99] |} /\
  bs_make_literal 5 [97; 98; 0] = Ok {| bindex := 3; bfirst := 0; bstack := [97; 98; 0; 0; 0; 0] |} /\
  bs_other 5 5 {| bindex := 1; bfirst := 0; bstack := [98; 97; 99; 0; 0; 0] |} npos =
    Ok {| bindex := 5; bfirst := 0; bstack := [98; 97; 99; 0; 0; 0] |}.
Proof. repeat split. Qed.
Print Assumptions C228_construction.
Print Assumptions C228_conversion.
Print Assumptions C228_overlong_refuted.
Print Assumptions C228_overlong_conversion_refuted.
Print Assumptions C228_count_refuted.
Print Assumptions C228_literal_refuted.

(** * C229 substr and copy *)

(** substr gives the characters asked for. *)
Theorem C229_substr :
  forall cap v l pos count, bs_holds cap v l -> 0 <= pos < Z.of_nat (length l) -> 0 <= count ->
  bs_makes cap (bs_substr v pos count) (firstn (Z.to_nat count) (skipn (Z.to_nat pos) l)).
Proof. exact c229_substr. Qed.

(** copy writes them and nothing else. *)
Theorem C229_copy :
  forall cap v l dest count pos, bs_holds cap v l -> 0 <= pos < Z.of_nat (length l) -> 0 <= count ->
  let t := firstn (Z.to_nat count) (skipn (Z.to_nat pos) l) in
  (length t <= length dest)%nat ->
  bs_copy v dest count pos = Ok (t ++ skipn (length t) dest, Z.of_nat (length t)).
Proof. exact c229_copy. Qed.

(** Positions behind the end throw. *)
Theorem C229_beyond :
  forall cap v l dest count pos, bs_holds cap v l -> Z.of_nat (length l) < pos ->
  bs_substr v pos count = Throw /\ bs_copy v dest count pos = Throw.
Proof. exact c229_beyond. Qed.

(** The end itself, which std::string allows, throws, too: substr( ) of an empty string throws. *)
Theorem C229_end_refuted :
  forall cap v l dest count, bs_holds cap v l ->
  bs_substr v (Z.of_nat (length l)) count = Throw /\ bs_copy v dest count (Z.of_nat (length l)) = Throw.
Proof. exact c229_end_refuted. Qed.

Example C229_nonvacuous :
  bs_substr abc 1 npos = Ok {| bindex := 2; bfirst := 0; bstack := [98; 99; 0; 0; 0; 0] |} /\
  bs_copy abc [1; 2; 3] 1 2 = Ok ([99; 2; 3], 1) /\ bs_substr (bs_empty 5) 0 npos = Throw.
Proof. repeat split. Qed.
Print Assumptions C229_substr.
Print Assumptions C229_copy.
Print Assumptions C229_beyond.
Print Assumptions C229_end_refuted.

(** * C230 Comparison *)

(** compare is lexicographic; the capacities can differ. *)
Theorem C230_compare :
  forall cap n v w l t, bs_rep cap v l -> bs_rep n w t ->
  exists r, bs_compare v w = Ok r /\ (r < 0 <-> lex_lt l t) /\ (r = 0 <-> l = t) /\ (0 < r <-> lex_lt t l).
Proof. exact c230_compare. Qed.

(** With views, std::strings and C strings. *)
Theorem C230_compare_others :
  forall cap v l, bs_rep cap v l ->
  (forall w, valid1 w -> exists r, bs_compare_view v w = Ok r /\
     (r < 0 <-> lex_lt l (chars1 w)) /\ (r = 0 <-> l = chars1 w) /\ (0 < r <-> lex_lt (chars1 w) l)) /\
  (forall s b, Forall (fun c => c <> 0) s -> Z.of_nat (length (s ++ 0 :: b)) < 2 ^ 63 ->
     exists r, bs_compare_cstr v (s ++ 0 :: b) = Ok r /\
     (r < 0 <-> lex_lt l s) /\ (r = 0 <-> l = s) /\ (0 < r <-> lex_lt s l)).
Proof. exact c230_compare_others. Qed.

(** Of substrings. *)
Theorem C230_compare_substrings :
  forall cap n v w l t p1 c1 p2 c2, bs_holds cap v l -> bs_holds n w t ->
  0 <= p1 < Z.of_nat (length l) -> 0 <= c1 -> 0 <= p2 < Z.of_nat (length t) -> 0 <= c2 ->
  let s1 := firstn (Z.to_nat c1) (skipn (Z.to_nat p1) l) in
  let s2 := firstn (Z.to_nat c2) (skipn (Z.to_nat p2) t) in
  (exists r, bs_compare_sub v p1 c1 w = Ok r /\ (r < 0 <-> lex_lt s1 t) /\ (r = 0 <-> s1 = t) /\ (0 < r <-> lex_lt t s1)) /\
  (exists r, bs_compare_subs v p1 c1 w p2 c2 = Ok r /\ (r < 0 <-> lex_lt s1 s2) /\ (r = 0 <-> s1 = s2) /\ (0 < r <-> lex_lt s2 s1)).
Proof. exact c230_compare_substrings. Qed.

(** The six relational operators. *)
Theorem C230_operators :
  forall cap n v w l t, bs_rep cap v l -> bs_rep n w t ->
  exists e ne lt le gt ge, bs_eq v w = Ok e /\ bs_ne v w = Ok ne /\ bs_lt v w = Ok lt /\ bs_le v w = Ok le /\
    bs_gt v w = Ok gt /\ bs_ge v w = Ok ge /\
    (e = true <-> l = t) /\ (ne = true <-> l <> t) /\ (lt = true <-> lex_lt l t) /\
    (le = true <-> lex_lt l t \/ l = t) /\ (gt = true <-> lex_lt t l) /\ (ge = true <-> lex_lt t l \/ l = t).
Proof. exact c230_operators. Qed.

(** Against views and std::strings, in both orders. *)
Theorem C230_view_operators :
  forall cap v l w, bs_rep cap v l -> valid1 w ->
  let t := chars1 w in
  (exists e ne lt le gt ge, bs_eq_view v w = Ok e /\ bs_ne_view v w = Ok ne /\ bs_lt_view v w = Ok lt /\ bs_le_view v w = Ok le /\
    bs_gt_view v w = Ok gt /\ bs_ge_view v w = Ok ge /\
    (e = true <-> l = t) /\ (ne = true <-> l <> t) /\ (lt = true <-> lex_lt l t) /\
    (le = true <-> lex_lt l t \/ l = t) /\ (gt = true <-> lex_lt t l) /\ (ge = true <-> lex_lt t l \/ l = t)) /\
  (exists e ne lt le gt ge, view_eq_bs w v = Ok e /\ view_ne_bs w v = Ok ne /\ view_lt_bs w v = Ok lt /\ view_le_bs w v = Ok le /\
    view_gt_bs w v = Ok gt /\ view_ge_bs w v = Ok ge /\
    (e = true <-> t = l) /\ (ne = true <-> t <> l) /\ (lt = true <-> lex_lt t l) /\
    (le = true <-> lex_lt t l \/ t = l) /\ (gt = true <-> lex_lt l t) /\ (ge = true <-> lex_lt l t \/ t = l)).
Proof. exact c230_view_operators. Qed.

(** Equality with C strings. *)
Theorem C230_c_strings :
  forall cap v l s b, bs_rep cap v l -> Forall (fun c => c <> 0) s -> Z.of_nat (length (s ++ 0 :: b)) < 2 ^ 63 ->
  (exists e, bs_eq_cstr v (s ++ 0 :: b) = Ok e /\ (e = true <-> l = s)) /\
  (exists e, cstr_eq_bs (s ++ 0 :: b) v = Ok e /\ (e = true <-> s = l)) /\
  (exists e, array_ne_bs (s ++ 0 :: b) v = Ok e /\ (e = true <-> s <> l)).
Proof. exact c230_c_strings. Qed.

(** An array with a NUL inside can be both equal and unequal to a string: == takes the whole array, != the characters before the NUL. *)
Theorem C230_array_refuted :
  forall cap v s t, Forall (fun c => c <> 0) s -> bs_rep cap v (s ++ 0 :: t) -> Z.of_nat (length (s ++ 0 :: t)) < 2 ^ 62 ->
  array_eq_bs ((s ++ 0 :: t) ++ [0]) v = Ok true /\ array_ne_bs ((s ++ 0 :: t) ++ [0]) v = Ok true.
Proof. exact c230_array_refuted. Qed.

Example C230_nonvacuous :
  bs_rep 3 {| bindex := 3; bfirst := 0; bstack := [97; 0; 98; 0] |} ([97] ++ 0 :: [98]) /\
  bs_lt abc {| bindex := 2; bfirst := 0; bstack := [97; 99; 0] |} = Ok true /\
  view_lt_bs (V1 (Some [120; 97; 98; 120]) 1 3) abc = Ok true.
Proof. split; [|split; reflexivity]. repeat split. exists [0]. split; reflexivity. Qed.
Print Assumptions C230_compare.
Print Assumptions C230_compare_others.
Print Assumptions C230_compare_substrings.
Print Assumptions C230_operators.
Print Assumptions C230_view_operators.
Print Assumptions C230_c_strings.
Print Assumptions C230_array_refuted.

(** * C231 Searching *)

(** find gives the first occurrence from pos on (pos within the string). *)
Theorem C231_find_partial :
  forall cap n v w l t pos, bs_rep cap v l -> bs_rep n w t -> 0 <= pos <= Z.of_nat (length l) ->
  exists r, bs_find v w pos = Ok r /\ first_where (fun i => pos <= Z.of_nat i /\ occurs l t i) r.
Proof. exact c231_find_partial. Qed.

(** rfind the last one up to pos. *)
Theorem C231_rfind :
  forall cap n v w l t pos, bs_rep cap v l -> bs_rep n w t -> 0 <= pos ->
  exists r, bs_rfind v w pos = Ok r /\ last_where (fun i => Z.of_nat i <= pos /\ occurs l t i) r.
Proof. exact c231_rfind. Qed.

(** The searches for characters of a set. *)
Theorem C231_sets :
  forall cap n v w l t pos, bs_rep cap v l -> bs_rep n w t -> 0 <= pos ->
  (exists r, bs_find_first_of v w pos = Ok r /\ first_where (fun i => pos <= Z.of_nat i /\ char_is l (fun c => In c t) i) r) /\
  (exists r, bs_find_first_not_of v w pos = Ok r /\ first_where (fun i => pos <= Z.of_nat i /\ char_is l (fun c => ~ In c t) i) r) /\
  (exists r, bs_find_last_of v w pos = Ok r /\ last_where (fun i => Z.of_nat i <= pos /\ char_is l (fun c => In c t) i) r).
Proof. exact c231_sets. Qed.

(** The searches with a predicate. *)
Theorem C231_predicates :
  forall cap v l want pred pos, bs_rep cap v l -> 0 <= pos ->
  exists r, bs_find_if want v pred pos = Ok r /\ first_where (fun i => pos <= Z.of_nat i /\ char_is l (fun c => pred c = want) i) r.
Proof. exact c231_predicates. Qed.

(** With a pointer and a count (or one character), when the needle fits the array. *)
Theorem C231_pointers :
  forall cap v l t b pos, bs_rep cap v l -> (length t <= S cap)%nat -> 0 <= pos ->
  let n := Z.of_nat (length t) in
  (pos <= Z.of_nat (length l) ->
     exists r, bs_find_ptr v (t ++ b) pos n = Ok r /\ first_where (fun i => pos <= Z.of_nat i /\ occurs l t i) r) /\
  (exists r, bs_rfind_ptr v (t ++ b) pos n = Ok r /\ last_where (fun i => Z.of_nat i <= pos /\ occurs l t i) r) /\
  (exists r, bs_find_first_of_ptr v (t ++ b) pos n = Ok r /\ first_where (fun i => pos <= Z.of_nat i /\ char_is l (fun c => In c t) i) r) /\
  (exists r, bs_find_first_not_of_ptr v (t ++ b) pos n = Ok r /\ first_where (fun i => pos <= Z.of_nat i /\ char_is l (fun c => ~ In c t) i) r) /\
  (exists r, bs_find_last_of_ptr v (t ++ b) pos n = Ok r /\ last_where (fun i => Z.of_nat i <= pos /\ char_is l (fun c => In c t) i) r).
Proof. exact c231_pointers. Qed.

(** A set of more than Capacity + 1 characters is silently cut to its first Capacity + 1. *)
Theorem C231_long_set_refuted :
  forall cap v l mem count pos, bs_rep cap v l -> Z.of_nat cap < count -> (cap < length mem)%nat -> 0 <= pos ->
  let t := firstn (S cap) mem in
  (exists r, bs_find_first_of_ptr v mem pos count = Ok r /\ first_where (fun i => pos <= Z.of_nat i /\ char_is l (fun c => In c t) i) r) /\
  (exists r, bs_find_first_not_of_ptr v mem pos count = Ok r /\ first_where (fun i => pos <= Z.of_nat i /\ char_is l (fun c => ~ In c t) i) r) /\
  (exists r, bs_find_last_of_ptr v mem pos count = Ok r /\ last_where (fun i => Z.of_nat i <= pos /\ char_is l (fun c => In c t) i) r).
Proof. exact c231_long_set_refuted. Qed.

(** The character z is in the set, but behind its first Capacity + 1 characters. *)
Example C231_nonvacuous :
  bs_find abc {| bindex := 1; bfirst := 0; bstack := [99; 0] |} 0 = Ok 2 /\
  bs_find_first_of_ptr {| bindex := 1; bfirst := 0; bstack := [122; 0] |} [97; 98; 122] 0 3 = Ok npos.
Proof. split; reflexivity. Qed.
Print Assumptions C231_find_partial.
Print Assumptions C231_rfind.
Print Assumptions C231_sets.
Print Assumptions C231_predicates.
Print Assumptions C231_pointers.
Print Assumptions C231_long_set_refuted.

(** * C232 Room and erase *)

(** full( ) answers as it says. *)
Theorem C232_full :
  forall cap v l, bs_rep cap v l -> (bs_full v = true <-> length l = cap).
Proof. exact c232_full. Qed.

(** has_room( count ) is true exactly when there is no room for more than count characters. *)
Theorem C232_has_room_refuted :
  forall cap v l count, bs_rep cap v l -> 0 <= count < 2 ^ 62 ->
  (bs_has_room v count = true <-> Z.of_nat cap <= count + Z.of_nat (length l)).
Proof. exact c232_has_room_refuted. Qed.

(** erase returns a position one (or more) too far, not the one after the erased characters. *)
Theorem C232_erase_iterator_refuted :
  forall cap dbg v l p f e, bs_holds cap v l -> (S p < length l)%nat -> range_ok dbg l f e -> (e + (e - f) < length l)%nat ->
  (exists v', bs_erase_at v (Z.of_nat p) = Ok (Z.of_nat (S p), v')) /\
  (exists v', bs_erase_range dbg v (Z.of_nat f) (Z.of_nat e) = Ok (Z.of_nat (S e), v')).
Proof. exact c232_erase_iterator_refuted. Qed.

(** erase( ) of everything throws in debug builds. *)
Theorem C232_erase_all_refuted :
  forall cap v l, bs_rep cap v l -> bs_erase true v 0 npos = Throw.
Proof. exact c232_erase_all_refuted. Qed.

Example C232_nonvacuous :
  bs_has_room abc 1 = false /\ bs_has_room abc 3 = true /\ bs_erase_range true abc 0 1 = Ok (2, {| bindex := 2; bfirst := 0; bstack := [98; 99; 97; 0; 0; 0] |}).
Proof. repeat split. Qed.
Print Assumptions C232_full.
Print Assumptions C232_has_room_refuted.
Print Assumptions C232_erase_iterator_refuted.
Print Assumptions C232_erase_all_refuted.

(** * C233 Prefixes, concatenation, splitting *)

(** starts_with and ends_with. *)
Theorem C233_starts_ends :
  forall cap n v w l t, bs_rep cap v l -> bs_rep n w t ->
  (exists b, bs_starts_with v w = Ok b /\ (b = true <-> exists r, l = t ++ r)) /\
  (exists b, bs_ends_with v w = Ok b /\ (b = true <-> exists r, l = r ++ t)) /\
  (forall c, exists b, bs_starts_with_char v c = Ok b /\ (b = true <-> exists r, l = c :: r)) /\
  (forall c, exists b, bs_ends_with_char v c = Ok b /\ (b = true <-> exists r, l = r ++ [c])).
Proof. exact c233_starts_ends. Qed.

(** With C strings of any length. *)
Theorem C233_starts_ends_c_strings :
  forall cap v l s b, bs_holds cap v l -> Forall (fun c => c <> 0) s -> Z.of_nat (length (s ++ 0 :: b)) < 2 ^ 63 ->
  (exists r, bs_starts_with_cstr v (s ++ 0 :: b) = Ok r /\ (r = true <-> exists t, l = s ++ t)) /\
  (exists r, bs_ends_with_cstr v (s ++ 0 :: b) = Ok r /\ (r = true <-> exists t, l = t ++ s)).
Proof. exact c233_starts_ends_c_strings. Qed.

(** operator+ with C strings concatenates, or throws when the result exceeds the capacity. *)
Theorem C233_concatenation :
  forall cap v l s b, bs_holds cap v l -> Forall (fun c => c <> 0) s -> Z.of_nat (length (s ++ 0 :: b)) < 2 ^ 62 ->
  ((length s + length l <= cap)%nat ->
     bs_makes cap (cstr_plus_bs cap (s ++ 0 :: b) v) (s ++ l) /\
     bs_makes cap (bs_plus_cstr v (s ++ 0 :: b)) (l ++ s)) /\
  ((cap < length s + length l)%nat ->
     cstr_plus_bs cap (s ++ 0 :: b) v = Throw /\ bs_plus_cstr v (s ++ 0 :: b) = Throw).
Proof. exact c233_concatenation. Qed.

(** And with std::string. *)
Theorem C233_std_string :
  forall cap v l s, bs_holds cap v l -> Z.of_nat (length s) < 2 ^ 63 ->
  string_plus_bs s v = Ok (s ++ l) /\
  ((length l + length s <= cap)%nat -> bs_makes cap (bs_plus_string v s) (l ++ s)) /\
  ((cap < length l + length s)%nat -> bs_plus_string v s = Throw).
Proof. exact c233_std_string. Qed.

(** split cuts at the delimiters. *)
Theorem C233_split :
  forall cap v l pred, bs_rep cap v l ->
  exists ps, bs_split v pred = Ok ps /\ Forall valid1 ps /\ pieces (fun c => pred c = true) l (map chars1 ps).
Proof. exact c233_split. Qed.

Example C233_nonvacuous :
  cstr_plus_bs 5 [120; 121; 0] abc = Ok {| bindex := 5; bfirst := 0; bstack := [120; 121; 97; 98; 99; 0] |} /\
  bs_plus_cstr abc [120; 121; 122; 0] = Throw /\
  bs_split abc (fun c => c =? 98) = Ok [V1 (Some [97; 98; 99; 0; 0; 0]) 0 1; V1 (Some [97; 98; 99; 0; 0; 0]) 2 3].
Proof. repeat split. Qed.
Print Assumptions C233_starts_ends.
Print Assumptions C233_starts_ends_c_strings.
Print Assumptions C233_concatenation.
Print Assumptions C233_std_string.
Print Assumptions C233_split.
