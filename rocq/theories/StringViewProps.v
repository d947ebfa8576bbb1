(** Properties C23-C28, C31, C33-C35, C70-C75: reading, searching, slicing and
    comparing string views.

    [dbg]: a build with the debug checks; [runtime]: not constant evaluated;
    [one_byte]: sizeof( CharT ) = 1.  Where a definition takes one of these the
    theorems hold for both values unless stated. *)
From Verif Require Import Common CommonProofs Ints StringView SpecString StringViewProofs StringSearchProofs StringLastProofs StringOtherProofs StringPopProofs StringMoreProofs StringZtProofs.
Open Scope Z_scope.

(** A view of the characters [s] inside a larger array. *)
Definition sub_view (before s after : list Z) : view :=
  View (Some (before ++ s ++ after)) (Z.of_nat (length before)) (Z.of_nat (length s)).
Example sub_view_valid : valid (sub_view [1; 2] [97; 98; 97; 98; 99] [7]) /\
  chars (sub_view [1; 2] [97; 98; 97; 98; 99] [7]) = [97; 98; 97; 98; 99] /\
  valid v_null /\ chars v_null = [].
Proof. repeat split; try reflexivity; vm_compute; congruence. Qed.

(** The characters of a returned view, of a returned (piece, rest). *)
Definition shown (r : res view) : option (list Z) := match r with Ok v => Some (chars v) | _ => None end.
Definition shown2 (r : res (view * view)) : option (list Z * list Z) :=
  match r with Ok (p, v) => Some (chars p, chars v) | _ => None end.

(** * C23: find( needle, pos ). *)
Theorem C23_find v w pos : valid v -> valid w -> 0 <= pos <= vsize v ->
  exists r, sv_find v w pos = Ok r /\
    first_where (fun i => pos <= Z.of_nat i /\ occurs (chars v) (chars w) i) r.
Proof. exact (sv_find_ok v w pos). Qed.
Print Assumptions C23_find.

Example C23_nontrivial :
  sv_find (sub_view [1; 2] [97; 98; 97; 98; 99] [7]) (sub_view [] [97; 98; 99] []) 1 = Ok 2 /\
  sv_find (sub_view [1; 2] [97; 98; 97; 98; 99] [7]) (sub_view [] [98; 99; 7] []) 0 = Ok npos.
Proof. split; (vm_compute; reflexivity). Qed.

(** * C24: find( c, pos ).  From position 0 it is the index of the character; with
    pos > 0 the run-time path returns the distance from pos, the constant evaluated
    path looks for an index i >= pos with sv[pos+i] == c. *)
Theorem C24_find_char_partial dbg runtime lo v c : valid v -> (runtime = true -> bytes lo (c :: chars v)) ->
  exists r, sv_find_char dbg runtime v c 0 = Ok r /\ first_where (char_is (chars v) (fun x => x = c)) r.
Proof. exact (find_char_zero dbg runtime lo v c). Qed.
Theorem C24_find_char_relative_refuted dbg lo v c pos i : valid v -> 0 <= pos <= Z.of_nat i ->
  bytes lo (c :: chars v) -> char_is (chars v) (fun x => x = c) i ->
  (forall j, pos <= Z.of_nat j -> (j < i)%nat -> ~ char_is (chars v) (fun x => x = c) j) ->
  sv_find_char dbg true v c pos = Ok (Z.of_nat i - pos).
Proof. exact (find_char_relative dbg lo v c pos i). Qed.
Theorem C24_find_char_constexpr_refuted dbg v c pos : valid v -> 0 <= pos <= vsize v ->
  exists r, sv_find_char dbg false v c pos = Ok r /\
    first_where (fun i => pos <= Z.of_nat i /\ char_is (chars v) (fun x => x = c) (Z.to_nat pos + i)) r.
Proof. exact (find_char_loop_path dbg v c pos). Qed.
Print Assumptions C24_find_char_partial.
Print Assumptions C24_find_char_relative_refuted.
Print Assumptions C24_find_char_constexpr_refuted.

Example C24_witness : forall dbg,
  sv_find_char dbg true (sub_view [] [97; 98; 97; 98] []) 98 2 = Ok 1 /\
  sv_find_char dbg false (sub_view [] [97; 98; 97; 98] []) 98 2 = Ok npos /\
  sv_find_char dbg true (sub_view [] [97; 98; 97; 98] []) 98 0 = Ok 1.
Proof. intros []; repeat split; (vm_compute; reflexivity). Qed.

(** * C25: rfind. *)
Theorem C25_rfind v w pos : valid v -> valid w -> 0 <= pos ->
  exists r, sv_rfind v w pos = Ok r /\
    last_where (fun i => Z.of_nat i <= pos /\ occurs (chars v) (chars w) i) r.
Proof. exact (rfind_ok v w pos). Qed.
Print Assumptions C25_rfind.

Example C25_nontrivial :
  sv_rfind (sub_view [1] [97; 98; 97; 98; 99] [7]) (sub_view [] [97; 98] []) npos = Ok 2 /\
  sv_rfind (sub_view [1] [97; 98; 97; 98; 99] [7]) (sub_view [] [97; 98] []) 1 = Ok 0 /\
  sv_rfind (sub_view [1] [97; 98; 97; 98; 99] [7]) (sub_view [] [98; 98] []) npos = Ok npos.
Proof. repeat split; (vm_compute; reflexivity). Qed.

(** * C26: search and search_last.  Inside the view search is right; an occurrence
    that ends at the end of the view, and the empty needle, are never found, and
    search_last returns the first occurrence, or pos when there is none. *)
Theorem C26_search_partial v w pos : valid v -> valid w -> 0 <= pos -> chars w <> [] -> pos + vsize w < vsize v ->
  exists r, sv_search v w pos = Ok r /\
    first_where (fun i => pos <= Z.of_nat i /\ occurs (chars v) (chars w) i) r.
Proof. exact (search_ok v w pos). Qed.
Theorem C26_search_whole_refuted v w pos : valid v -> valid w -> 0 <= pos < 2 ^ 63 -> vsize v <= pos + vsize w ->
  sv_search v w pos = Ok npos /\ search_last v w pos = Ok npos.
Proof. exact (search_short v w pos). Qed.
Theorem C26_search_last_refuted v w pos : valid v -> valid w -> 0 <= pos -> chars w <> [] -> pos + vsize w < vsize v ->
  exists r, search_last v w pos = Ok r /\
    ((r = pos /\ forall i, pos <= Z.of_nat i -> ~ occurs (chars v) (chars w) i) \/
     (exists i, r = Z.of_nat i /\ pos <= r /\ occurs (chars v) (chars w) i /\
        forall j, pos <= Z.of_nat j -> (j < i)%nat -> ~ occurs (chars v) (chars w) j)).
Proof. exact (search_last_ok v w pos). Qed.
Print Assumptions C26_search_partial.
Print Assumptions C26_search_whole_refuted.
Print Assumptions C26_search_last_refuted.

Example C26_witness :
  sv_search (sub_view [] [97; 98; 97; 98; 99] []) (sub_view [] [98] []) 0 = Ok 1 /\
  sv_search (sub_view [] [97; 98] []) (sub_view [] [97; 98] []) 0 = Ok npos /\
  search_last (sub_view [] [97; 98; 97; 98; 99] []) (sub_view [] [98] []) 0 = Ok 1 /\
  search_last (sub_view [] [97; 98; 97; 98; 99] []) (sub_view [] [100] []) 2 = Ok 2.
Proof. repeat split; (vm_compute; reflexivity). Qed.

(** * C27: character classes. *)
Theorem C27_find_first_of_partial one_byte lo v w pos : valid v -> valid w -> 0 <= pos ->
  (one_byte = true -> bytes lo (chars v ++ chars w)) ->
  exists r, find_first_of one_byte v w pos = Ok r /\
    first_where (fun i => pos <= Z.of_nat i /\ char_is (chars v) (fun c => In c (chars w)) i) r.
Proof. exact (find_first_of_ok one_byte lo v w pos). Qed.
Theorem C27_find_first_not_of_partial dbg v w pos : valid v -> valid w -> 0 <= pos ->
  exists r, find_first_not_of dbg v w pos = Ok r /\
    first_where (fun i => pos <= Z.of_nat i /\ char_is (chars v) (fun c => ~ In c (chars w)) i) r.
Proof. exact (find_first_not_of_ok dbg v w pos). Qed.
Theorem C27_find_last_of_partial dbg one_byte lo v w pos : valid v -> valid w -> vsize v <= pos ->
  (one_byte = true -> bytes lo (chars v ++ chars w)) ->
  exists r, find_last_of dbg one_byte v w pos = Ok r /\
    last_where (fun i => Z.of_nat i <= pos /\ char_is (chars v) (fun c => In c (chars w)) i) r.
Proof. exact (find_last_of_ok dbg one_byte lo v w pos). Qed.
Theorem C27_find_last_not_of_partial dbg runtime lo v w pos : valid v -> valid w -> 0 <= pos -> pos <> vsize v ->
  (runtime = true -> bytes lo (chars v ++ chars w)) ->
  exists r, find_last_not_of dbg runtime v w pos = Ok r /\
    last_where (fun i => Z.of_nat i <= pos /\ char_is (chars v) (fun c => ~ In c (chars w)) i) r.
Proof. exact (find_last_not_of_ok dbg runtime lo v w pos). Qed.
Print Assumptions C27_find_first_of_partial.
Print Assumptions C27_find_first_not_of_partial.
Print Assumptions C27_find_last_of_partial.
Print Assumptions C27_find_last_not_of_partial.

(** With one-byte characters find_last_of ignores pos; with wide ones an absent set
    gives an index instead of npos. *)
Theorem C27_find_last_of_byte_refuted dbg lo v w pos : valid v -> valid w -> 0 <= pos ->
  bytes lo (chars v ++ chars w) ->
  exists r, find_last_of dbg true v w pos = Ok r /\
    last_where (char_is (chars v) (fun c => In c (chars w))) r.
Proof. exact (find_last_of_byte dbg lo v w pos). Qed.
Theorem C27_find_last_of_wide_refuted dbg v w pos : valid v -> valid w -> 0 <= pos -> pos + 1 < vsize v ->
  chars w <> [] -> (forall c, In c (chars v) -> ~ In c (chars w)) ->
  find_last_of dbg false v w pos = Ok (vsize v - pos - 2).
Proof. exact (find_last_of_wide_absent dbg v w pos). Qed.
(** find_last_not_of at pos == size( ) reads the character after the view, beyond
    the array when the view ends there. *)
Theorem C27_find_last_not_of_end_refuted dbg runtime l v w : valid v -> valid w -> vmem v = Some l ->
  chars v <> [] -> chars w <> [] -> voff v + vsize v = Z.of_nat (length l) ->
  find_last_not_of dbg runtime v w (vsize v) = UB.
Proof. exact (find_last_not_of_end dbg runtime l v w). Qed.
(** The predicate forms. *)
Theorem C27_find_first_if_partial want v pred pos : valid v -> 0 <= pos ->
  exists r, find_first_if want v pred pos = Ok r /\
    first_where (fun i => pos <= Z.of_nat i /\ char_is (chars v) (fun c => pred c = want) i) r.
Proof. exact (first_if_exact want v pred pos). Qed.
Theorem C27_find_last_of_if_partial dbg v pred pos : valid v -> 0 <= pos < 2 ^ 64 ->
  exists r, find_last_of_if dbg v pred pos = Ok r /\
    last_where (fun i => Z.of_nat i < pos /\ char_is (chars v) (fun c => pred c = true) i) r.
Proof. exact (find_last_of_if_ok dbg v pred pos). Qed.
Theorem C27_find_last_not_of_if_partial v pred pos : valid v -> 0 <= pos -> pos <> vsize v ->
  exists r, find_last_not_of_if v pred pos = Ok r /\
    last_where (fun i => Z.of_nat i <= pos /\ char_is (chars v) (fun c => pred c = false) i) r.
Proof. exact (find_last_not_of_if_ok v pred pos). Qed.
Theorem C27_find_last_not_of_if_end_refuted l v pred : valid v -> vmem v = Some l -> chars v <> [] ->
  voff v + vsize v = Z.of_nat (length l) -> find_last_not_of_if v pred (vsize v) = UB.
Proof. exact (find_last_not_of_if_end l v pred). Qed.
Print Assumptions C27_find_last_of_byte_refuted.
Print Assumptions C27_find_last_of_wide_refuted.
Print Assumptions C27_find_last_not_of_end_refuted.
Print Assumptions C27_find_first_if_partial.
Print Assumptions C27_find_last_of_if_partial.
Print Assumptions C27_find_last_not_of_if_partial.
Print Assumptions C27_find_last_not_of_if_end_refuted.

Example C27_witness :
  find_first_of true (sub_view [1] [97; 98; 120; 121] [7]) (sub_view [] [121; 120] []) 1 = Ok 2 /\
  find_last_of false true (sub_view [] [97; 120; 98; 120] []) (sub_view [] [120] []) 1 = Ok 3 /\
  find_last_of false false (sub_view [] [97; 97; 97; 97] []) (sub_view [] [120] []) 0 = Ok 2 /\
  bytes (-128) [97; 98; 120; 121; 121; 120].
Proof. repeat split; try (vm_compute; reflexivity). repeat constructor; lia. Qed.

(** * C28: remove_prefix and remove_suffix. *)
Theorem C28_remove v n : valid v -> 0 <= n < 2 ^ 64 ->
  exists v', remove_prefix v n = Ok v' /\ valid v' /\ valid (remove_suffix v n) /\
    chars v' = skipn (Z.to_nat n) (chars v) /\
    chars (remove_suffix v n) = firstn (length (chars v) - Z.to_nat n) (chars v).
Proof. exact (prefix_suffix v n). Qed.
Print Assumptions C28_remove.

(** * C31: substr.  The exception is there in builds with the checks; without them
    a position beyond the end yields characters outside the view. *)
Theorem C31_substr_partial dbg v pos count : valid v -> 0 <= pos <= vsize v -> 0 <= count < 2 ^ 64 ->
  exists r, substr dbg v pos count = Ok r /\ valid r /\
    chars r = firstn (Z.to_nat count) (skipn (Z.to_nat pos) (chars v)).
Proof. exact (substr_slice dbg v pos count). Qed.
Theorem C31_substr_throws_partial v pos count : vsize v < pos -> substr true v pos count = Throw.
Proof. exact (substr_throws v pos count). Qed.
Theorem C31_substr_release_refuted :
  exists v pos r, valid v /\ vsize v < pos /\ substr false v pos 1 = Ok r /\ chars r = [100].
Proof.
  exists (sub_view [] [97; 98] [99; 100]), 3, (View (Some [97; 98; 99; 100]) 3 1).
  repeat split; try (vm_compute; reflexivity); vm_compute; congruence.
Qed.
Print Assumptions C31_substr_partial.
Print Assumptions C31_substr_throws_partial.
Print Assumptions C31_substr_release_refuted.

Example C31_nontrivial : shown (substr true (sub_view [1] [97; 98; 99] [7]) 1 npos) = Some [98; 99].
Proof. vm_compute. reflexivity. Qed.

(** * C33: compare and the relational operators. *)
Theorem C33_compare v w : valid v -> valid w ->
  exists r, sv_compare v w = Ok r /\ (r < 0 <-> lex_lt (chars v) (chars w)) /\ (r = 0 <-> chars v = chars w) /\
    (0 < r <-> lex_lt (chars w) (chars v)).
Proof. exact (compare_spec v w). Qed.
Theorem C33_order u v w a b : valid u -> valid v -> valid w ->
  sv_compare u v = Ok a -> sv_compare v w = Ok b ->
  exists c d, sv_compare u w = Ok c /\ sv_compare v u = Ok d /\ Z.sgn d = - Z.sgn a /\ (a <= 0 -> b <= 0 -> c <= 0) /\
    (a < 0 -> b <= 0 -> c < 0) /\ (a <= 0 -> b < 0 -> c < 0).
Proof. exact (compare_order u v w a b). Qed.
Theorem C33_operators v w : valid v -> valid w ->
  exists e n l le g ge, sv_eq v w = Ok e /\ sv_ne v w = Ok n /\ sv_lt v w = Ok l /\ sv_le v w = Ok le /\
    sv_gt v w = Ok g /\ sv_ge v w = Ok ge /\
    (e = true <-> chars v = chars w) /\ (n = true <-> chars v <> chars w) /\
    (l = true <-> lex_lt (chars v) (chars w)) /\ (le = true <-> lex_lt (chars v) (chars w) \/ chars v = chars w) /\
    (g = true <-> lex_lt (chars w) (chars v)) /\ (ge = true <-> lex_lt (chars w) (chars v) \/ chars v = chars w).
Proof. exact (rel_ops v w). Qed.
Theorem C33_compare_slices dbg v pos count w pos2 count2 : valid v -> valid w ->
  0 <= pos <= vsize v -> 0 <= count < 2 ^ 64 -> 0 <= pos2 <= vsize w -> 0 <= count2 < 2 ^ 64 ->
  let s := firstn (Z.to_nat count) (skipn (Z.to_nat pos) (chars v)) in
  let t := firstn (Z.to_nat count2) (skipn (Z.to_nat pos2) (chars w)) in
  exists r, sv_compare_subs dbg v pos count w pos2 count2 = Ok r /\ (r < 0 <-> lex_lt s t) /\ (r = 0 <-> s = t) /\
    (0 < r <-> lex_lt t s).
Proof. exact (compare_subs_spec dbg v pos count w pos2 count2). Qed.
Theorem C33_compare_slice dbg v pos count w : valid v -> valid w -> 0 <= pos <= vsize v -> 0 <= count < 2 ^ 64 ->
  let s := firstn (Z.to_nat count) (skipn (Z.to_nat pos) (chars v)) in
  exists r, sv_compare_sub dbg v pos count w = Ok r /\ (r < 0 <-> lex_lt s (chars w)) /\ (r = 0 <-> s = chars w) /\
    (0 < r <-> lex_lt (chars w) s).
Proof. exact (compare_sub_spec dbg v pos count w). Qed.
Print Assumptions C33_compare.
Print Assumptions C33_order.
Print Assumptions C33_operators.
Print Assumptions C33_compare_slices.
Print Assumptions C33_compare_slice.

Example C33_nontrivial :
  lex_lt [97; 98] [97; 98; 99] /\ lex_lt [97; 98; 99] [97; 99] /\
  sv_compare (sub_view [] [97; 98] [99]) (sub_view [9] [97; 98; 99] []) = Ok (-1).
Proof.
  split; [apply lex_tail, lex_tail, lex_nil|]. split; [apply lex_tail, lex_head; lia|vm_compute; reflexivity].
Qed.

(** * C34: starts_with and ends_with. *)
Theorem C34_starts_with dbg v w : valid v -> valid w ->
  exists b, starts_with dbg v w = Ok b /\ (b = true <-> exists r, chars v = chars w ++ r).
Proof. exact (starts_with_ok dbg v w). Qed.
Theorem C34_ends_with dbg v w : valid v -> valid w ->
  exists b, ends_with dbg v w = Ok b /\ (b = true <-> exists r, chars v = r ++ chars w).
Proof. exact (ends_with_ok dbg v w). Qed.
Theorem C34_starts_with_char dbg v c : valid v ->
  exists b, starts_with_char dbg v c = Ok b /\ (b = true <-> exists r, chars v = c :: r).
Proof. exact (starts_with_char_ok dbg v c). Qed.
Theorem C34_ends_with_char dbg v c : valid v ->
  exists b, ends_with_char dbg v c = Ok b /\ (b = true <-> exists r, chars v = r ++ [c]).
Proof. exact (ends_with_char_ok dbg v c). Qed.
Print Assumptions C34_starts_with.
Print Assumptions C34_ends_with.
Print Assumptions C34_starts_with_char.
Print Assumptions C34_ends_with_char.

Example C34_nontrivial :
  ends_with true (sub_view [1] [97; 98; 99] [7]) (sub_view [] [98; 99] []) = Ok true /\
  ends_with true (sub_view [1] [97; 98; 99] [7]) (sub_view [] [1; 97; 98; 99] []) = Ok false.
Proof. split; (vm_compute; reflexivity). Qed.

(** * C35: trim. *)
Theorem C35_trim dbg v : valid v ->
  exists v', trim dbg v = Ok v' /\ valid v' /\
    exists a b, chars v = a ++ chars v' ++ b /\ Forall white a /\ Forall white b /\
      match chars v' with [] => True | c :: _ => ~ white c end /\
      forall t c, chars v' = t ++ [c] -> ~ white c.
Proof. exact (trim_ok dbg v). Qed.
Theorem C35_trim_prefix v : valid v ->
  exists v', trim_prefix v = Ok v' /\ valid v' /\ drops_front white (chars v) (chars v').
Proof. exact (trim_prefix_ok v). Qed.
Theorem C35_trim_suffix dbg v : valid v ->
  exists v', trim_suffix dbg v = Ok v' /\ valid v' /\ drops_back white (chars v) (chars v').
Proof. exact (trim_suffix_ok dbg v). Qed.
Print Assumptions C35_trim.
Print Assumptions C35_trim_prefix.
Print Assumptions C35_trim_suffix.

Example C35_nontrivial : shown (trim true (sub_view [1] [32; 9; 97; 32; 98; 10] [7])) = Some [97; 32; 98].
Proof. vm_compute. reflexivity. Qed.

(** * C70: contains.  The overload taking ( s, pos, count ) returns find's index as a
    bool: true when nothing is found, false for a match at the front. *)
Theorem C70_contains_partial v w pos : valid v -> valid w -> 0 <= pos <= vsize v ->
  (exists b, sv_contains v w = Ok b /\ (b = true <-> exists i, occurs (chars v) (chars w) i)) /\
  (exists b, sv_contains_pos v w pos = Ok b /\
     (b = true <-> exists i, pos <= Z.of_nat i /\ occurs (chars v) (chars w) i)).
Proof. exact (fun V W H => conj (contains_all_ok v w V W) (contains_ok v w pos V W H)). Qed.
Theorem C70_contains_char_partial dbg runtime lo v c : valid v -> (runtime = true -> bytes lo (c :: chars v)) ->
  exists b, sv_contains_char dbg runtime v c 0 = Ok b /\ (b = true <-> In c (chars v)).
Proof. exact (contains_char_ok dbg runtime lo v c). Qed.
Theorem C70_contains_count_refuted v w pos : valid v -> valid w -> 0 <= pos <= vsize v ->
  exists b, sv_contains_count v w pos = Ok b /\
    ((forall i, pos <= Z.of_nat i -> ~ occurs (chars v) (chars w) i) -> b = true) /\
    (pos = 0 -> occurs (chars v) (chars w) 0 -> b = false).
Proof. exact (contains_count_bad v w pos). Qed.
Print Assumptions C70_contains_partial.
Print Assumptions C70_contains_char_partial.
Print Assumptions C70_contains_count_refuted.

Example C70_witness :
  sv_contains (sub_view [] [97; 98] [99]) (sub_view [] [98; 99] []) = Ok false /\
  sv_contains (sub_view [] [97; 98] [99]) (sub_view [] [98] []) = Ok true /\
  sv_contains_count (sub_view [] [97; 98] []) (sub_view [] [99] []) 0 = Ok true /\
  sv_contains_count (sub_view [] [97; 98] []) (sub_view [] [97] []) 0 = Ok false.
Proof. repeat split; (vm_compute; reflexivity). Qed.

(** * C71: find with a list of needles.  Right for one needle; with several the
    position reached inside one needle is not restored before the next is tried,
    and a needle reaching past the end of the view ends the search. *)
Theorem C71_find_any_partial dbg v w pos : valid v -> valid w -> 0 <= pos <= vsize v -> chars w <> [] ->
  exists r, find_first_match dbg v [w] pos = Ok r /\
    first_where (fun i => pos <= Z.of_nat i /\ occurs (chars v) (chars w) i) r.
Proof. exact (find_first_match_one dbg v w pos). Qed.
Theorem C71_find_any_refuted dbg :
  (exists v w1 w2, valid v /\ valid w1 /\ valid w2 /\ find_first_match dbg v [w1; w2] 0 = Ok 0 /\
     ~ occurs (chars v) (chars w1) 0 /\ ~ occurs (chars v) (chars w2) 0) /\
  (exists v w1 w2, valid v /\ valid w1 /\ valid w2 /\ find_first_match dbg v [w1; w2] 0 = Ok npos /\
     occurs (chars v) (chars w2) 1).
Proof.
  split.
  - exists (sub_view [] [97; 120; 98] []), (sub_view [] [97; 121] []), (sub_view [] [120; 98] []).
    split; [repeat split; vm_compute; congruence|]. split; [repeat split; vm_compute; congruence|].
    split; [repeat split; vm_compute; congruence|]. split; [destruct dbg; vm_compute; reflexivity|].
    split; intros (a & b & E & L); (destruct a; [vm_compute in E; congruence|discriminate]).
  - exists (sub_view [] [97; 98] []), (sub_view [] [97; 98; 99] []), (sub_view [] [98] []).
    split; [repeat split; vm_compute; congruence|]. split; [repeat split; vm_compute; congruence|].
    split; [repeat split; vm_compute; congruence|]. split; [destruct dbg; vm_compute; reflexivity|].
    exists [97], []. split; reflexivity.
Qed.
Print Assumptions C71_find_any_partial.
Print Assumptions C71_find_any_refuted.

(** * C72: element access and copy. *)
Theorem C72_at dbg v i : valid v -> 0 <= i ->
  sv_at dbg v i = match nth_error (chars v) (Z.to_nat i) with Some c => Ok c | None => Throw end.
Proof. exact (at_ok dbg v i). Qed.
Theorem C72_index dbg v i c : valid v -> nth_error (chars v) i = Some c -> sv_index dbg v (Z.of_nat i) = Ok c.
Proof. exact (index_ok dbg v i c). Qed.
Theorem C72_front dbg v c t : valid v -> chars v = c :: t -> sv_front dbg v = Ok c.
Proof. exact (front_ok dbg v c t). Qed.
Theorem C72_back dbg v c t : valid v -> chars v = t ++ [c] -> sv_back dbg v = Ok c.
Proof. exact (back_ok dbg v c t). Qed.
Theorem C72_copy dbg v dest count pos : valid v -> 0 <= pos <= vsize v -> 0 <= count ->
  let s := firstn (Z.to_nat count) (skipn (Z.to_nat pos) (chars v)) in
  (length s <= length dest)%nat ->
  sv_copy dbg v dest count pos = Ok (s ++ skipn (length s) dest, Z.of_nat (length s)).
Proof. exact (copy_ok dbg v dest count pos). Qed.
Print Assumptions C72_at.
Print Assumptions C72_index.
Print Assumptions C72_front.
Print Assumptions C72_back.
Print Assumptions C72_copy.

Example C72_nontrivial :
  sv_at false (sub_view [1] [97; 98] [7]) 1 = Ok 98 /\ sv_at false (sub_view [1] [97; 98] [7]) 2 = Throw /\
  sv_copy true (sub_view [1] [97; 98; 99] [7]) [0; 0; 0; 0] 9 1 = Ok ([98; 99; 0; 0], 2).
Proof. repeat split; (vm_compute; reflexivity). Qed.

(** * C73: operator<< writes the characters, padded to the stream's width. *)
Theorem C73_stream v width fill (left : bool) : valid v -> 0 <= width < 2 ^ 63 ->
  stream_out v width fill left =
    Ok (let pad := repeat fill (Z.to_nat width - length (chars v)) in
        if left then chars v ++ pad else pad ++ chars v).
Proof. exact (stream_out_ok v width fill left). Qed.
Print Assumptions C73_stream.

Example C73_nontrivial :
  stream_out (sub_view [1] [97; 98] [7]) 5 42 false = Ok [42; 42; 42; 97; 98] /\
  stream_out (sub_view [1] [97; 98] [7]) 1 42 true = Ok [97; 98].
Proof. split; (vm_compute; reflexivity). Qed.

(** * C74: construction from C strings and from arrays.  The view of a C string
    shows the characters before the first NUL; an array is viewed without its last
    character if that is NUL and in full otherwise. *)
Theorem C74_c_string dbg a s b : ~ In 0 s -> Z.of_nat (length (a ++ s ++ 0 :: b)) < 2 ^ 63 ->
  exists v, v_cstr dbg (Some (a ++ s ++ 0 :: b)) (Z.of_nat (length a)) = Ok v /\ sound v /\ vzt v = true /\ chars v = s.
Proof. exact (cstr_ok dbg a s b). Qed.
Theorem C74_literal dbg s : Z.of_nat (length s) + 1 < 2 ^ 63 ->
  exists v, v_literal dbg (s ++ [0]) = Ok v /\ sound v /\ vzt v = true /\ chars v = s.
Proof. exact (literal_zt dbg s). Qed.
Theorem C74_array dbg s c : c <> 0 -> Z.of_nat (length s) + 1 < 2 ^ 63 ->
  exists v, v_literal dbg (s ++ [c]) = Ok v /\ sound v /\ vzt v = false /\ chars v = s ++ [c].
Proof. exact (literal_plain dbg s c). Qed.
Theorem C74_null dbg : sound v_null /\ chars v_null = [] /\ v_cstr dbg None 0 = Ok v_null.
Proof. exact (null_ok dbg). Qed.
Print Assumptions C74_c_string.
Print Assumptions C74_literal.
Print Assumptions C74_array.
Print Assumptions C74_null.

Example C74_nontrivial : v_cstr true (Some [120; 97; 98; 0; 99; 0]) 1 = Ok (View (Some [120; 97; 98; 0; 99; 0]) 1 (2 + 2 ^ 63)).
Proof. vm_compute. reflexivity. Qed.

(** * C75: expand_prefix and expand_suffix undo the removals. *)
Theorem C75_expand_prefix dbg v n l v' : valid v -> vmem v = Some l -> 0 <= n <= vsize v -> remove_prefix v n = Ok v' ->
  expand_prefix dbg v' n = Ok v.
Proof. exact (expand_prefix_ok dbg v n l v'). Qed.
Theorem C75_expand_suffix dbg v n l : valid v -> vmem v = Some l -> 0 <= n <= vsize v ->
  exists r, expand_suffix dbg (remove_suffix v n) n = Ok r /\ valid r /\ chars r = chars v.
Proof. exact (expand_suffix_back dbg v n l). Qed.
Print Assumptions C75_expand_prefix.
Print Assumptions C75_expand_suffix.

Example C75_nontrivial :
  remove_prefix (sub_view [1] [97; 98; 99] [7]) 2 = Ok (sub_view [1; 97; 98] [99] [7]) /\
  expand_prefix true (sub_view [1; 97; 98] [99] [7]) 2 = Ok (sub_view [1] [97; 98; 99] [7]).
Proof. split; (vm_compute; reflexivity). Qed.
