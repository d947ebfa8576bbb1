(** Properties C219-C225: the deprecated string view, daw::sv1::basic_string_view.
    Vocabulary: SpecStringView1.v and SpecString.v. *)
From Verif Require Import Common Ints StringView SpecString StringView1 SpecStringView1 StringView1Proofs.
Open Scope Z_scope.

(** The examples look at "banana" inside "xbanana", through a view that starts after
    the x; n = 110, a = 97, b = 98. *)
Definition banana : view1 := V1 (Some [120; 98; 97; 110; 97; 110; 97]) 1 7.
Definition ana : view1 := V1 (Some [97; 110; 97; 0]) 0 3.
Example C219_nonvacuous : valid1 banana /\ chars1 banana = [98; 97; 110; 97; 110; 97] /\ valid1 ana /\ chars1 ana = [97; 110; 97] /\
  cstr1 (Some [97; 110; 97; 0]) 0 = Ok ana /\ substr1 banana 2 3 = Ok (V1 (mem1 banana) 3 6) /\ resize1 banana 6 = Throw.
Proof. unfold valid1. cbn. intuition lia. Qed.
Example C220_nonvacuous : pop_front_at1 banana ana = Ok (V1 (mem1 banana) 1 2, V1 (mem1 banana) 5 7) /\
  pop_back_at1 banana ana = Ok (V1 (mem1 banana) 7 7, V1 (mem1 banana) 1 4) /\
  try_pop_front1 ana banana = Ok (null1, ana).
Proof. repeat split. Qed.
Example C221_nonvacuous : compare1 banana ana = Ok 1 /\ compare1 ana banana = Ok (-1) /\ eq1 ana ana = Ok true.
Proof. repeat split. Qed.
Example C222_nonvacuous : find1 banana ana 0 = Ok 1 /\ find1 banana ana 2 = Ok 3 /\ rfind1 banana ana npos = Ok 3 /\
  find1 banana ana 7 = UB /\ find1 banana null1 100 = Ok 100 /\ find_last_of1 banana ana 4 = Ok 4.
Proof. repeat split. Qed.
(** The searches that go wrong: "ana" is last at 3; 'b' is at 0; the last character
    outside {a, n} is b at 0, and the last outside {n} is a at 5. *)
Example C223_nonvacuous : search1 banana ana 0 = Ok 1 /\ search1 banana ana 3 = Ok npos /\ search_last1 banana ana 0 = Ok 1 /\
  search_last1 banana (char1 120) 2 = Ok 2 /\
  find_last_char1 banana 98 npos = Ok npos /\ find_last_char1 banana 97 2 = Ok 5 /\ find_last_char1 null1 97 npos = UB /\
  find_last_not_of1 banana ana npos = Ok 5 /\ find_last_not_of1 banana (char1 110) npos = Ok 4.
Proof. repeat split. Qed.
Example C224_nonvacuous : ends_with1 banana ana = Ok true /\ starts_with1 banana ana = Ok false /\ starts_with_char1 banana 98 = Ok true /\
  to_string1 ana = Ok [97; 110; 97].
Proof. repeat split. Qed.
(** "banana" cut at a: b, n, n, and no piece after the last a. *)
Example C225_nonvacuous : exists l, split1 banana (fun c => c =? 97) = Ok l /\ map chars1 l = [[98]; [110]; [110]] /\
  make_view1 [97; 0] = Ok (V1 (Some [97; 0]) 0 2).
Proof. eexists. split; [reflexivity|]. split; reflexivity. Qed.

(** Building views: pointer and count, zero-terminated text, nothing. *)
Theorem C219_construction :
  (forall a s b, Z.of_nat (length (a ++ s ++ b)) < 2 ^ 63 ->
     yields (range1 (Some (a ++ s ++ b)) (Z.of_nat (length a)) (Z.of_nat (length s))) s) /\
  (forall a s b, Forall (fun c => c <> 0) s -> Z.of_nat (length (a ++ s ++ 0 :: b)) < 2 ^ 63 ->
     yields (cstr1 (Some (a ++ s ++ 0 :: b)) (Z.of_nat (length a))) s) /\
  (valid1 null1 /\ chars1 null1 = []) /\
  (forall v, valid1 (clear1 v) /\ chars1 (clear1 v) = []).
Proof. exact c219_construction. Qed.
Theorem C219_access :
  forall v, valid1 v ->
  size1 v = Z.of_nat (length (chars1 v)) /\ (empty1 v = true <-> chars1 v = []) /\
  (forall i c, nth_error (chars1 v) i = Some c -> index1 v (Z.of_nat i) = Ok c) /\
  (forall i, 0 <= i -> at1 v i = match nth_error (chars1 v) (Z.to_nat i) with Some c => Ok c | None => Throw end) /\
  (forall c t, chars1 v = c :: t -> front1 v = Ok c) /\
  (forall c t, chars1 v = t ++ [c] -> back1 v = Ok c).
Proof. exact c219_access. Qed.
Theorem C219_sub_views :
  forall v, valid1 v ->
  (forall n, 0 <= n -> yields (remove_prefix1 v n) (skipn (Z.to_nat n) (chars1 v))) /\
  (forall n, 0 <= n -> yields (remove_suffix1 v n) (firstn (length (chars1 v) - Z.to_nat n) (chars1 v))) /\
  (forall pos count, 0 <= pos -> 0 <= count ->
     (pos <= Z.of_nat (length (chars1 v)) -> yields (substr1 v pos count) (firstn (Z.to_nat count) (skipn (Z.to_nat pos) (chars1 v)))) /\
     (Z.of_nat (length (chars1 v)) < pos -> substr1 v pos count = Throw)).
Proof. exact c219_sub_views. Qed.
Theorem C219_copy :
  forall v, valid1 v -> forall dest count pos, 0 <= pos -> 0 <= count ->
  let t := firstn (Z.to_nat count) (skipn (Z.to_nat pos) (chars1 v)) in
  (pos <= Z.of_nat (length (chars1 v)) -> (length t <= length dest)%nat ->
     copy1 v dest count pos = Ok (t ++ skipn (length t) dest, Z.of_nat (length t))) /\
  (Z.of_nat (length (chars1 v)) < pos -> copy1 v dest count pos = Throw).
Proof. exact c219_copy. Qed.
(** resize to fewer characters than there are. *)
Theorem C219_resize_partial :
  forall v, valid1 v -> forall n, 0 <= n < Z.of_nat (length (chars1 v)) ->
  yields (resize1 v n) (firstn (Z.to_nat n) (chars1 v)).
Proof. exact c219_resize_partial. Qed.
(** resize to the present size throws instead of changing nothing. *)
Theorem C219_resize_refuted :
  forall v, valid1 v -> resize1 v (Z.of_nat (length (chars1 v))) = Throw.
Proof. exact c219_resize_refuted. Qed.
Print Assumptions C219_construction.
Print Assumptions C219_access.
Print Assumptions C219_sub_views.
Print Assumptions C219_copy.
Print Assumptions C219_resize_partial.
Print Assumptions C219_resize_refuted.

Theorem C220_pop_characters :
  forall v, valid1 v ->
  (forall c t, chars1 v = c :: t -> exists v', pop_front1 v = Ok (c, v') /\ valid1 v' /\ chars1 v' = t) /\
  (forall c t, chars1 v = t ++ [c] -> exists v', pop_back1 v = Ok (c, v') /\ valid1 v' /\ chars1 v' = t).
Proof. exact c220_pop_characters. Qed.
Theorem C220_pop_counts :
  forall v, valid1 v -> forall n, 0 <= n ->
  yields2 (pop_front_n1 v n) (fun p r => p = firstn (Z.to_nat n) (chars1 v) /\ r = skipn (Z.to_nat n) (chars1 v)) /\
  yields2 (pop_back_n1 v n) (fun p r => r = firstn (length (chars1 v) - Z.to_nat n) (chars1 v) /\ p = skipn (length (chars1 v) - Z.to_nat n) (chars1 v)).
Proof. exact c220_pop_counts. Qed.
Theorem C220_pop_until :
  forall v w, valid1 v -> valid1 w ->
  yields2 (pop_front_at1 v w) (cut_first (occurs (chars1 v) (chars1 w)) (length (chars1 w)) (chars1 v)) /\
  yields2 (pop_back_at1 v w) (cut_last (occurs (chars1 v) (chars1 w)) (length (chars1 w)) (chars1 v)) /\
  (forall pred, yields2 (pop_front_if1 v pred) (cut_first (char_is (chars1 v) (fun c => pred c = true)) 1 (chars1 v))) /\
  (forall pred, yields2 (pop_back_if1 v pred) (cut_last (char_is (chars1 v) (fun c => pred c = true)) 1 (chars1 v))).
Proof. exact c220_pop_until. Qed.
Theorem C220_try_pop :
  forall v w, valid1 v -> valid1 w ->
  ((forall i, ~ occurs (chars1 v) (chars1 w) i) -> try_pop_front1 v w = Ok (null1, v) /\ try_pop_back1 v w = Ok (null1, v)) /\
  (forall i, occurs (chars1 v) (chars1 w) i ->
     yields2 (try_pop_front1 v w) (cut_first (occurs (chars1 v) (chars1 w)) (length (chars1 w)) (chars1 v)) /\
     yields2 (try_pop_back1 v w) (cut_last (occurs (chars1 v) (chars1 w)) (length (chars1 w)) (chars1 v))).
Proof. exact c220_try_pop. Qed.
Theorem C220_consume_front :
  forall v w, valid1 v -> valid1 w ->
  exists v' piece, consume_front1 v w = Ok v' /\ valid1 v' /\
    cut_first (occurs (chars1 v) (chars1 w)) (length (chars1 w)) (chars1 v) piece (chars1 v').
Proof. exact c220_consume_front. Qed.
Print Assumptions C220_pop_characters.
Print Assumptions C220_pop_counts.
Print Assumptions C220_pop_until.
Print Assumptions C220_try_pop.
Print Assumptions C220_consume_front.

Theorem C221_compare :
  forall v w, valid1 v -> valid1 w ->
  exists r, compare1 v w = Ok r /\ (r < 0 <-> lex_lt (chars1 v) (chars1 w)) /\ (r = 0 <-> chars1 v = chars1 w) /\
    (0 < r <-> lex_lt (chars1 w) (chars1 v)).
Proof. exact c221_compare. Qed.
Theorem C221_operators :
  forall v w, valid1 v -> valid1 w ->
  exists e n l le g ge, eq1 v w = Ok e /\ ne1 v w = Ok n /\ lt1 v w = Ok l /\ le1 v w = Ok le /\
    gt1 v w = Ok g /\ ge1 v w = Ok ge /\
    (e = true <-> chars1 v = chars1 w) /\ (n = true <-> chars1 v <> chars1 w) /\
    (l = true <-> lex_lt (chars1 v) (chars1 w)) /\ (le = true <-> lex_lt (chars1 v) (chars1 w) \/ chars1 v = chars1 w) /\
    (g = true <-> lex_lt (chars1 w) (chars1 v)) /\ (ge = true <-> lex_lt (chars1 w) (chars1 v) \/ chars1 v = chars1 w).
Proof. exact c221_operators. Qed.
Theorem C221_compare_substrings :
  forall v w p1 c1 p2 c2, valid1 v -> valid1 w -> 0 <= p1 -> 0 <= c1 -> 0 <= p2 -> 0 <= c2 ->
  let s := firstn (Z.to_nat c1) (skipn (Z.to_nat p1) (chars1 v)) in
  let t := firstn (Z.to_nat c2) (skipn (Z.to_nat p2) (chars1 w)) in
  (p1 <= Z.of_nat (length (chars1 v)) -> p2 <= Z.of_nat (length (chars1 w)) ->
     exists r, compare_subs1 v p1 c1 w p2 c2 = Ok r /\ (r < 0 <-> lex_lt s t) /\ (r = 0 <-> s = t) /\ (0 < r <-> lex_lt t s)) /\
  (Z.of_nat (length (chars1 v)) < p1 -> compare_subs1 v p1 c1 w p2 c2 = Throw).
Proof. exact c221_compare_substrings. Qed.
Print Assumptions C221_compare.
Print Assumptions C221_operators.
Print Assumptions C221_compare_substrings.

(** find from a position inside the view or at its end. *)
Theorem C222_find_partial :
  forall v w pos, valid1 v -> valid1 w -> 0 <= pos <= Z.of_nat (length (chars1 v)) ->
  exists r, find1 v w pos = Ok r /\ first_where (fun i => pos <= Z.of_nat i /\ occurs (chars1 v) (chars1 w) i) r.
Proof. exact c222_find_partial. Qed.
(** Beyond the end, find reports that nothing is found there at position pos, or
    leaves the array. *)
Theorem C222_find_refuted :
  (forall v w pos, valid1 v -> valid1 w -> chars1 w = [] -> find1 v w pos = Ok pos) /\
  (forall v w pos l, valid1 v -> valid1 w -> chars1 w <> [] -> (length (chars1 w) <= length (chars1 v))%nat ->
     mem1 v = Some l -> Z.of_nat (length l) < first1 v + pos -> find1 v w pos = UB).
Proof. exact c222_find_refuted. Qed.
Theorem C222_rfind :
  forall v w pos, valid1 v -> valid1 w -> 0 <= pos ->
  exists r, rfind1 v w pos = Ok r /\ last_where (fun i => Z.of_nat i <= pos /\ occurs (chars1 v) (chars1 w) i) r.
Proof. exact c222_rfind. Qed.
Theorem C222_find_sets :
  forall v w pos, valid1 v -> valid1 w -> 0 <= pos ->
  (exists r, find_first_of1 v w pos = Ok r /\
     first_where (fun i => pos <= Z.of_nat i /\ char_is (chars1 v) (fun c => In c (chars1 w)) i) r) /\
  (exists r, find_first_not_of1 v w pos = Ok r /\
     first_where (fun i => pos <= Z.of_nat i /\ char_is (chars1 v) (fun c => ~ In c (chars1 w)) i) r) /\
  (exists r, find_last_of1 v w pos = Ok r /\
     last_where (fun i => Z.of_nat i <= pos /\ char_is (chars1 v) (fun c => In c (chars1 w)) i) r).
Proof. exact c222_find_sets. Qed.
Theorem C222_find_predicates :
  forall v pred pos, valid1 v -> 0 <= pos ->
  (forall want, exists r, find_first_if1 want v pred pos = Ok r /\
     first_where (fun i => pos <= Z.of_nat i /\ char_is (chars1 v) (fun c => pred c = want) i) r) /\
  (exists r, find_last_if1 v pred pos = Ok r /\
     last_where (fun i => Z.of_nat i <= pos /\ char_is (chars1 v) (fun c => pred c = true) i) r).
Proof. exact c222_find_predicates. Qed.
Print Assumptions C222_find_partial.
Print Assumptions C222_find_refuted.
Print Assumptions C222_rfind.
Print Assumptions C222_find_sets.
Print Assumptions C222_find_predicates.

(** search is right when more characters remain than the needle has. *)
Theorem C223_search_partial :
  forall v w pos, valid1 v -> valid1 w -> chars1 w <> [] -> 0 <= pos ->
  pos + Z.of_nat (length (chars1 w)) < Z.of_nat (length (chars1 v)) ->
  exists r, search1 v w pos = Ok r /\ first_where (fun i => pos <= Z.of_nat i /\ occurs (chars1 v) (chars1 w) i) r.
Proof. exact c223_search_partial. Qed.
(** It never finds the needle at the very end of the view. *)
Theorem C223_search_refuted :
  forall v w a, valid1 v -> valid1 w -> chars1 v = a ++ chars1 w ->
  search1 v w (Z.of_nat (length a)) = Ok npos /\ search_last1 v w (Z.of_nat (length a)) = Ok npos.
Proof. exact c223_search_refuted. Qed.
(** search_last returns the first occurrence, and its argument when there is none. *)
Theorem C223_search_last_refuted :
  forall v w pos, valid1 v -> valid1 w -> chars1 w <> [] -> 0 <= pos ->
  pos + Z.of_nat (length (chars1 w)) < Z.of_nat (length (chars1 v)) ->
  exists r, search_last1 v w pos = Ok r /\
    ((r = pos /\ forall i, pos <= Z.of_nat i -> ~ occurs (chars1 v) (chars1 w) i) \/
     (exists i, r = Z.of_nat i /\ pos <= r /\ occurs (chars1 v) (chars1 w) i /\
        forall j, pos <= Z.of_nat j -> (j < i)%nat -> ~ occurs (chars1 v) (chars1 w) j)).
Proof. exact c223_search_last_refuted. Qed.
(** find_last_of( c, pos ) looks above pos instead of up to pos, never at index 0,
    and before the array when the view is empty. *)
Theorem C223_find_last_char_refuted :
  forall v c pos, valid1 v -> 0 <= pos ->
  (chars1 v <> [] -> exists r, find_last_char1 v c pos = Ok r /\
     last_where (fun i => (if Z.of_nat (length (chars1 v)) <=? pos then 0 else pos) < Z.of_nat i /\
                          char_is (chars1 v) (fun x => x = c) i) r) /\
  (chars1 v = [] -> first1 v = 0 -> find_last_char1 v c pos = UB).
Proof. exact c223_find_last_char_refuted. Qed.
(** find_last_not_of an empty set. *)
Theorem C223_find_last_not_of_partial :
  forall v w pos, valid1 v -> valid1 w -> chars1 w = [] -> 0 <= pos ->
  exists r, find_last_not_of1 v w pos = Ok r /\
    last_where (fun i => Z.of_nat i <= pos /\ char_is (chars1 v) (fun c => ~ In c (chars1 w)) i) r.
Proof. exact c223_find_last_not_of_partial. Qed.
(** With a set, it finds the last character that is equal to the first one of the
    set. *)
Theorem C223_find_last_not_of_refuted :
  forall v w d t pos, valid1 v -> valid1 w -> chars1 w = d :: t -> 0 <= pos ->
  exists r, find_last_not_of1 v w pos = Ok r /\
    last_where (fun i => Z.of_nat i <= pos /\ char_is (chars1 v) (fun c => c = d) i) r.
Proof. exact c223_find_last_not_of_refuted. Qed.
Print Assumptions C223_search_partial.
Print Assumptions C223_search_refuted.
Print Assumptions C223_search_last_refuted.
Print Assumptions C223_find_last_char_refuted.
Print Assumptions C223_find_last_not_of_partial.
Print Assumptions C223_find_last_not_of_refuted.

Theorem C224_starts_ends :
  forall v w, valid1 v -> valid1 w ->
  (exists b, starts_with1 v w = Ok b /\ (b = true <-> exists r, chars1 v = chars1 w ++ r)) /\
  (exists b, ends_with1 v w = Ok b /\ (b = true <-> exists r, chars1 v = r ++ chars1 w)) /\
  (forall c, exists b, starts_with_char1 v c = Ok b /\ (b = true <-> exists r, chars1 v = c :: r)) /\
  (forall c, exists b, ends_with_char1 v c = Ok b /\ (b = true <-> exists r, chars1 v = r ++ [c])).
Proof. exact c224_starts_ends. Qed.
Theorem C224_to_string :
  forall v s, valid1 v ->
  to_string1 v = Ok (chars1 v) /\ plus1 s v = Ok (s ++ chars1 v) /\ plus_right1 v s = Ok (chars1 v ++ s).
Proof. exact c224_to_string. Qed.
Print Assumptions C224_starts_ends.
Print Assumptions C224_to_string.

Theorem C225_split :
  forall v pred, valid1 v ->
  exists l, split1 v pred = Ok l /\ Forall valid1 l /\ pieces (fun c => pred c = true) (chars1 v) (map chars1 l).
Proof. exact c225_split. Qed.
(** The pieces are determined by the text. *)
Theorem C225_pieces_unique :
  forall D s l l', pieces D s l -> pieces D s l' -> l = l'.
Proof. exact c225_pieces_unique. Qed.
(** make_string_view( literal ) and split( literal, d ) also take the terminating
    zero for a character. *)
Theorem C225_literal_refuted :
  forall text, Z.of_nat (length (text ++ [0])) < 2 ^ 63 -> yields (make_view1 (text ++ [0])) (text ++ [0]).
Proof. exact c225_literal_refuted. Qed.
Print Assumptions C225_split.
Print Assumptions C225_pieces_unique.
Print Assumptions C225_literal_refuted.
