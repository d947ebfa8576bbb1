(** The properties C209 to C218: ASCII classes and case, hexadecimal output,
    bitcount, range checks, big-endian reads, parameter packs, equal_to_last,
    string_concat and string_join_iterator. *)
From Coq Require Import Ascii String.
From Verif Require Import Common Ints BitsModel SpecBits TextUtil SpecTextUtil TextUtilProofs.
Open Scope Z_scope.
Local Notation length := List.length.

(** * C209 ASCII classes and case *)
Theorem C209_classes c :
  (is_ascii_digit c = true <-> In c digit_chars) /\
  (is_ascii_alpha c = true <-> In c (upper_chars ++ lower_chars)%list) /\
  (is_ascii_alphanum c = true <-> In c (digit_chars ++ upper_chars ++ lower_chars)%list) /\
  (is_ascii_printable c = true <-> In c printable_chars).
Proof.
  exact (conj (is_ascii_digit_ok c) (conj (is_ascii_alpha_ok c)
    (conj (is_ascii_alphanum_ok c) (is_ascii_printable_ok c)))).
Qed.
Theorem C209_upper T c : std_int T -> letter_mapped lower_chars upper_chars c (to_upper_ascii T c).
Proof. exact (to_upper_ok T c). Qed.
Theorem C209_lower T c : std_int T -> letter_mapped upper_chars lower_chars c (to_lower_ascii T c).
Proof. exact (to_lower_ok T c). Qed.
Theorem C209_char_versions C c : width C = 8 ->
  AsciiUpper C c = to_upper_ascii C c /\ AsciiLower C c = to_lower_ascii C c.
Proof. exact (fun W => conj (AsciiUpper_agrees C c W) (AsciiLower_agrees C c W)). Qed.
Theorem C209_strings C s : width C = 8 -> Forall (fits C) s ->
  AsciiUpper_str C C s = map (to_upper_ascii C) s /\
  AsciiLower_str C C s = map (to_lower_ascii C) s.
Proof. exact (fun W F => conj (AsciiUpper_str_ok C s W F) (AsciiLower_str_ok C s W F)). Qed.
(** Wide strings: right for ASCII characters only. *)
Theorem C209_wide_strings_partial C W s : width C = 8 -> std_int W ->
  Forall (fun c => 0 <= c < 128) s ->
  AsciiUpper_str C W s = map (to_upper_ascii W) s /\
  AsciiLower_str C W s = map (to_lower_ascii W) s.
Proof. exact (fun A B F => conj (AsciiUpper_wide C W s A B F) (AsciiLower_wide C W s A B F)). Qed.
(** A wide character that does not fit in a char is replaced by another one. *)
Theorem C209_wide_strings_refuted C W c : width C = 8 -> std_int W -> 16 <= width W ->
  256 <= c < 2 ^ 15 ->
  AsciiUpper_str C W [c] <> [c] /\ AsciiLower_str C W [c] <> [c].
Proof. exact (AsciiUpper_wide_refuted C W c). Qed.
Example C209_nonvacuous :
  AsciiUpper_str i8 i8 (codes "header_libraries 2!") = codes "HEADER_LIBRARIES 2!" /\
  to_lower_ascii u16 90 = 122 /\ to_upper_ascii i8 (-31) = -31 /\
  AsciiUpper_str i8 i32 [353] = [65].
Proof. repeat split; reflexivity. Qed.
Print Assumptions C209_classes.
Print Assumptions C209_upper.
Print Assumptions C209_lower.
Print Assumptions C209_char_versions.
Print Assumptions C209_strings.
Print Assumptions C209_wide_strings_partial.
Print Assumptions C209_wide_strings_refuted.

(** * C210 hexadecimal output *)
Theorem C210_hex_integer C T v o : width C = 8 -> std_int T -> room o (Z.to_nat (width T / 4)) ->
  exists t o', hex_int C T v o = Ok o' /\ emitted o t o' /\
    Z.of_nat (length t) = width T / 4 /\ base16 hex_chars t (v mod 2 ^ width T).
Proof. exact (hex_int_ok C T v o). Qed.
Theorem C210_hex_char c o : room o 2 ->
  exists t o', hex_char c o = Ok o' /\ emitted o t o' /\
    length t = 2%nat /\ base16 hex_chars t (c mod 256).
Proof. exact (hex_char_ok c o). Qed.
Theorem C210_hex_lc c o : room o 2 ->
  exists t o', hex_lc_char c o = Ok o' /\ emitted o t o' /\
    length t = 2%nat /\ base16 hex_lc_chars t (c mod 256).
Proof. exact (hex_lc_ok c o). Qed.
Theorem C210_hex_range C T vals o : width C = 8 -> std_int T ->
  room o (length vals * Z.to_nat (width T / 4)) ->
  exists ts o', hex_range C T vals o = Ok o' /\ emitted o (List.concat ts) o' /\
    Forall2 (fun v t => Z.of_nat (length t) = width T / 4 /\
                        base16 hex_chars t (v mod 2 ^ width T)) vals ts.
Proof. exact (hex_range_ok C T vals o). Qed.
Theorem C210_hex_str str len o : (len <= length str)%nat -> room o (len * 2) ->
  exists ts o', hex_str str len o = Ok o' /\ emitted o (List.concat ts) o' /\
    Forall2 (fun c t => length t = 2%nat /\ base16 hex_chars t (c mod 256)) (firstn len str) ts.
Proof. exact (hex_str_ok str len o). Qed.
Theorem C210_hex_literal str z o : room o (length str * 2) ->
  exists ts o', hex_array (str ++ [z]) o = Ok o' /\ emitted o (List.concat ts) o' /\
    Forall2 (fun c t => length t = 2%nat /\ base16 hex_chars t (c mod 256)) str ts.
Proof. exact (hex_array_ok str z o). Qed.
(** Different values have different texts. *)
Theorem C210_hex_injective C T v w s : width C = 8 -> std_int T -> fits T v -> fits T w ->
  hex_int C T v (Back s) = hex_int C T w (Back s) -> v = w.
Proof. exact (hex_int_injective C T v w s). Qed.
(** Objects that are not integers: right for a back_inserter only. *)
Theorem C210_hex_object_partial bytes s :
  exists ts, hex_object bytes (Back s) = Ok (Back (s ++ List.concat ts)) /\
    Forall2 (fun c t => length t = 2%nat /\ base16 hex_chars t (c mod 256)) bytes ts.
Proof. exact (hex_object_back bytes s). Qed.
(** In a buffer every byte takes three places: one with room for exactly the text
    is overrun. *)
Theorem C210_hex_object_refuted bytes b p : bytes <> [] ->
  (length b < p + 3 * length bytes - 1)%nat -> hex_object bytes (Buf b p) = UB.
Proof. exact (hex_object_overruns bytes b p). Qed.
(** A range of such objects: the output does not depend on them. *)
Theorem C210_hex_objects_refuted in1 in2 o : length in1 = length in2 ->
  hex_objects in1 o = hex_objects in2 o.
Proof. exact (hex_objects_ignores in1 in2 o). Qed.
Example C210_nonvacuous :
  hex_int i8 i16 (-2) (Back []) = Ok (Back (codes "FFFE")) /\
  hex_int u8 u32 3735928559 (Buf (repeat 0 8) 0) = Ok (Buf (codes "DEADBEEF") 8) /\
  hex_lc_char 175 (Back []) = Ok (Back (codes "af")) /\
  hex_array [72; 105; 0] (Back []) = Ok (Back (codes "4869")) /\
  hex_object [1; 2] (Buf (repeat 0 4) 0) = UB /\
  hex_object [1; 2] (Buf (repeat 46 6) 0) = Ok (Buf (codes "01.02.") 6) /\
  hex_objects [[1]] (Buf [33; 0] 0) = Ok (Buf (codes "21") 2).
Proof. repeat split; reflexivity. Qed.
Print Assumptions C210_hex_integer.
Print Assumptions C210_hex_char.
Print Assumptions C210_hex_lc.
Print Assumptions C210_hex_range.
Print Assumptions C210_hex_str.
Print Assumptions C210_hex_literal.
Print Assumptions C210_hex_injective.
Print Assumptions C210_hex_object_partial.
Print Assumptions C210_hex_object_refuted.
Print Assumptions C210_hex_objects_refuted.

(** * C211 bitcount *)
(** What is computed for a value of [n] bits. *)
Theorem C211_bitcount_value n v : 0 <= v < 2 ^ Z.of_nat n ->
  bitcount (S n) v = Ok ((2 * (v - ones n v)) mod 2 ^ 64).
Proof. exact (bitcount_ok n v). Qed.
(** That is the number of one bits for two values only. *)
Theorem C211_bitcount_refuted n v : (n <= 64)%nat -> 0 <= v < 2 ^ Z.of_nat n ->
  bitcount (S n) v = Ok (ones n v) -> v = 0 \/ v = 3.
Proof. exact (bitcount_right n v). Qed.
(** A negative value is shifted for ever. *)
Theorem C211_bitcount_negative_refuted fuel v : v < 0 -> bitcount fuel v = OutOfFuel.
Proof. exact (bitcount_negative fuel v). Qed.
Example C211_nonvacuous :
  bitcount 9 255 = Ok 494 /\ ones 8 255 = 8 /\ bitcount 9 3 = Ok 2 /\ ones 8 3 = 2 /\
  bitcount 9 1 = Ok 0 /\ bitcount_all 9 2 [4] = Ok 8.
Proof. repeat split; reflexivity. Qed.
Theorem C211_bitcount_all :
  (forall n v vs, Forall (fun v => 0 <= v < 2 ^ Z.of_nat n) (v :: vs) ->
  bitcount_all (S n) v vs = Ok (fold_right (fun v s => 2 * (v - ones n v) + s) 0 (v :: vs) mod 2 ^ 64))%Z.
Proof. exact c211_bitcount_all_l. Qed.
Print Assumptions C211_bitcount_all.
Print Assumptions C211_bitcount_value.
Print Assumptions C211_bitcount_refuted.
Print Assumptions C211_bitcount_negative_refuted.

(** * C212 can_fit and narrow_cast *)
Theorem C212_can_fit D T v : std_int D -> std_int T -> fits T v ->
  (can_fit D T v = true <-> fits D v).
Proof.
  exact (fun HD HT => can_fit_ok D T v
    ltac:(destruct HD as [E|[E|[E|E]]]; rewrite E; reflexivity)
    ltac:(destruct HT as [E|[E|[E|E]]]; rewrite E; reflexivity)).
Qed.
Theorem C212_narrow_cast D T v : std_int D -> std_int T -> fits T v ->
  (fits D v -> narrow_cast D T v = Ok v) /\ (~ fits D v -> narrow_cast D T v = Throw).
Proof.
  exact (fun HD HT => narrow_cast_ok D T v
    ltac:(destruct HD as [E|[E|[E|E]]]; rewrite E; reflexivity)
    ltac:(destruct HT as [E|[E|[E|E]]]; rewrite E; reflexivity)).
Qed.
Example C212_nonvacuous :
  can_fit u8 i64 256 = false /\ can_fit u8 i64 255 = true /\ can_fit i8 u8 128 = false /\
  can_fit u64 i8 (-1) = false /\ can_fit i16 i64 (-32768) = true /\
  narrow_cast i8 u32 127 = Ok 127 /\ narrow_cast i8 u32 128 = Throw.
Proof. repeat split; reflexivity. Qed.
Print Assumptions C212_can_fit.
Print Assumptions C212_narrow_cast.

(** * C213 in_range( value, lower, upper ) *)
(** Operands of one signedness. *)
Theorem C213_in_range_partial V L U v lo hi :
  signed V = signed L -> signed V = signed U ->
  0 < width V -> 0 < width L -> 0 < width U -> fits V v -> fits L lo -> fits U hi ->
  (in_range3 V L U v lo hi = true <-> lo <= v < hi).
Proof. exact (in_range3_ok V L U v lo hi). Qed.
(** Mixed signedness: both kinds of error occur. *)
Theorem C213_in_range_refuted :
  (exists v lo hi, fits i32 v /\ fits u32 lo /\ fits u32 hi /\
     ~ lo <= v < hi /\ in_range3 i32 u32 u32 v lo hi = true) /\
  (exists v lo hi, fits u32 v /\ fits i32 lo /\ fits i32 hi /\
     lo <= v < hi /\ in_range3 u32 i32 i32 v lo hi = false).
Proof.
  split.
  - exists (-2), 0, (2 ^ 32 - 1). repeat split; try discriminate; try reflexivity. intros [H _]. apply H. reflexivity.
  - exists 5, (-1), 10. repeat split; try discriminate; reflexivity.
Qed.
Example C213_nonvacuous :
  in_range3 i32 i8 i64 5 (-1) 6 = true /\ in_range3 i32 i8 i64 6 (-1) 6 = false /\
  in_range3 u8 u8 u8 0 0 0 = false.
Proof. repeat split; reflexivity. Qed.
Print Assumptions C213_in_range_partial.
Print Assumptions C213_in_range_refuted.

(** * C214 value_from_chars and or_all *)
Theorem C214_value_from_chars m : Forall (fun b => 0 <= b < 256) m ->
  ((1 <= length m)%nat -> value_from_chars8 m = Ok (big_endian (firstn 1 m))) /\
  ((2 <= length m)%nat -> value_from_chars16 m = Ok (big_endian (firstn 2 m))) /\
  ((4 <= length m)%nat -> value_from_chars32 m = Ok (big_endian (firstn 4 m))) /\
  ((8 <= length m)%nat -> value_from_chars64 m = Ok (big_endian (firstn 8 m))).
Proof.
  exact (fun F => conj (value_from_chars8_ok m) (conj (fun L => value_from_chars16_ok m L F)
    (conj (fun L => value_from_chars32_ok m L F) (fun L => value_from_chars64_ok m L F)))).
Qed.
Theorem C214_or_all vs i : 0 <= i -> Z.testbit (or_all vs) i = existsb (fun v => Z.testbit v i) vs.
Proof. exact (or_all_bits vs i). Qed.
Example C214_nonvacuous :
  value_from_chars16 [1; 2] = Ok 258 /\ value_from_chars32 [255; 0; 0; 1] = Ok 4278190081 /\
  value_from_chars64 [1; 2; 3; 4; 5; 6; 7; 8; 9] = Ok 72623859790382856 /\
  value_from_chars32 [1; 2; 3] = UB /\ or_all [1; 6; 8] = 15.
Proof. repeat split; reflexivity. Qed.
Print Assumptions C214_value_from_chars.
Print Assumptions C214_or_all.

Close Scope Z_scope.

(** * C215 parameter packs and small searches *)
Section C215.
  Context {A : Type} (eqb : A -> A -> bool) (eqb_ok : forall x y, eqb x y = true <-> x = y).
  (** The last position of the type, or the number of types. *)
  Theorem C215_pack_index_of (t : A) ts :
    (~ In t ts -> pack_index_of eqb t ts = length ts) /\
    (In t ts -> nth_error ts (pack_index_of eqb t ts) = Some t /\
       forall j, pack_index_of eqb t ts < j -> nth_error ts j <> Some t).
  Proof. exact (pack_index_of_ok eqb eqb_ok t ts). Qed.
  Theorem C215_pack_index_unique (t : A) ts k : NoDup ts -> nth_error ts k = Some t ->
    pack_index_of eqb t ts = k.
  Proof. exact (pack_index_of_nodup eqb eqb_ok t ts k). Qed.
  Theorem C215_pack_get N (args : list A) x : nth_error args N = Some x -> pack_get N args = Ok x.
  Proof. exact (pack_get_ok N args x). Qed.
  (** The calls pack_apply makes. *)
  Theorem C215_pack_apply N ok (args : list A) :
    pack_apply N ok args =
    Ok (match nth_error args N with
        | Some x => if ok x then [x] else []
        | None => []
        end).
  Proof. exact (pack_apply_ok N ok args). Qed.
  Theorem C215_value_is v args :
    (one_of eqb v args = true <-> In v args) /\ (none_of eqb v args = true <-> ~ In v args).
  Proof. exact (conj (one_of_ok eqb eqb_ok v args) (none_of_ok eqb eqb_ok v args)). Qed.
  Theorem C215_copy_vector (c : list A) n :
    (n <= length c -> exists rest,
       copy_vector c n = Ok (firstn n c) /\ c = firstn n c ++ rest /\ length (firstn n c) = n) /\
    (length c < n -> copy_vector c n = Throw).
  Proof. exact (copy_vector_ok c n). Qed.
  Theorem C215_contains (l : list A) x : contains eqb l x = true <-> In x l.
  Proof. exact (contains_ok eqb eqb_ok l x). Qed.
  (** The first position of the item, or the size. *)
  Theorem C215_index_of (l : list A) x :
    (~ In x l -> index_of eqb l x = length l) /\
    (In x l -> nth_error l (index_of eqb l x) = Some x /\
       forall j, j < index_of eqb l x -> nth_error l j <> Some x).
  Proof. exact (index_of_ok eqb eqb_ok l x). Qed.
End C215.
(** With a repeated type the position is not the first one. *)
Theorem C215_pack_index_repeated : exists (t : nat) ts k,
  nth_error ts k = Some t /\ k < pack_index_of Nat.eqb t ts.
Proof. exists 7, [7; 5; 7], 0. split; [reflexivity|repeat constructor]. Qed.
Example C215_nonvacuous :
  pack_index_of Nat.eqb 5 [4; 5; 6] = 1 /\ pack_index_of Nat.eqb 7 [4; 5; 6] = 3 /\
  pack_index_of Nat.eqb 4 [4; 5; 4] = 2 /\
  pack_get 2 [4; 5; 6] = Ok 6 /\ pack_apply 1 (fun _ => true) [4; 5; 6] = Ok [5] /\
  pack_apply 3 (fun _ => true) [4; 5; 6] = Ok [] /\
  one_of Nat.eqb 5 [4; 5] = true /\ none_of Nat.eqb 5 [4; 5] = false /\
  copy_vector [1; 2; 3] 2 = Ok [1; 2] /\ copy_vector [1] 2 = Throw /\
  index_of Nat.eqb [3; 4; 4] 4 = 1 /\ contains Nat.eqb [3] 4 = false.
Proof. repeat split; reflexivity. Qed.
Print Assumptions C215_pack_index_of.
Print Assumptions C215_pack_index_unique.
Print Assumptions C215_pack_get.
Print Assumptions C215_pack_apply.
Print Assumptions C215_value_is.
Print Assumptions C215_copy_vector.
Print Assumptions C215_contains.
Print Assumptions C215_index_of.
Print Assumptions C215_pack_index_repeated.

(** * C216 equal_to_last *)
(** As long as the object passed last stays alive and unchanged. *)
Theorem C216_equal_to_last_partial {A} (eqb : A -> A -> bool) m (os : list el_op) :
  keeps_last m None os ->
  el_run eqb m None os = Ok (same_as_previous eqb None (arguments m os)).
Proof. exact (fun K => el_run_ok eqb m None os None K eq_refl). Qed.
(** One variable, assigned and passed again: always "equal". *)
Theorem C216_changed_refuted :
  el_run Nat.eqb [None] None [Store 0 1; Call 0; Store 0 2; Call 0] = Ok [false; true] /\
  same_as_previous Nat.eqb None (arguments [None] [Store 0 1; Call 0; Store 0 2; Call 0]) =
    [false; false].
Proof. split; reflexivity. Qed.
(** Temporaries: the second call reads a destroyed object. *)
Theorem C216_temporary_refuted x y :
  el_run Nat.eqb [None; None] None
    [Store 0 x; Call 0; Gone 0; Store 1 y; Call 1; Gone 1] = UB.
Proof. reflexivity. Qed.
Example C216_nonvacuous :
  let os := [Store 0 1; Store 1 1; Store 2 2; Call 0; Call 1; Store 0 9; Call 2; Call 0] in
  keeps_last [None; None; None] None os /\
  el_run Nat.eqb [None; None; None] None os = Ok [false; true; false; false].
Proof.
  split; [|reflexivity]. cbn. repeat split; try lia; try discriminate; eexists; reflexivity.
Qed.
Print Assumptions C216_equal_to_last_partial.
Print Assumptions C216_changed_refuted.
Print Assumptions C216_temporary_refuted.

(** * C217 string_concat *)
(** Whatever order the appends are made in: the first string, then the others in
    some order. *)
Theorem C217_concat_any_order {A} order (arg : list A) strings :
  Permutation order (seq 0 (length strings)) ->
  exists ps, Permutation ps strings /\
    string_concat order arg strings = Ok (arg ++ List.concat ps).
Proof. exact (string_concat_any order arg strings). Qed.
Theorem C217_concat_in_order_partial {A} (arg : list A) strings :
  string_concat (seq 0 (length strings)) arg strings = Ok (arg ++ List.concat strings).
Proof. exact (string_concat_in_order arg strings). Qed.
(** An order C++ allows, and the strings are joined in the wrong one. *)
Theorem C217_concat_refuted : exists order (arg : list nat) strings r,
  Permutation order (seq 0 (length strings)) /\
  string_concat order arg strings = Ok r /\ r <> arg ++ List.concat strings.
Proof.
  exists [1; 0], [], [[1]; [2]], [2; 1]. split; [apply perm_swap|]. split; [reflexivity|discriminate].
Qed.
Example C217_nonvacuous :
  string_concat [0; 1; 2] [1; 2] [[3]; []; [4; 5]] = Ok [1; 2; 3; 4; 5] /\
  Permutation [2; 0; 1] (seq 0 3) /\
  string_concat [2; 0; 1] [1; 2] [[3]; []; [4; 5]] = Ok [1; 2; 4; 5; 3].
Proof.
  repeat split; try reflexivity. cbn. apply (Permutation_cons_append [0; 1] 2).
Qed.
Print Assumptions C217_concat_any_order.
Print Assumptions C217_concat_in_order_partial.
Print Assumptions C217_concat_refuted.

(** * C218 string_join_iterator *)
(** Iterating from the constructed iterator to the default one yields the joined
    strings, if none of them is empty. *)
Theorem C218_join_partial {A} (nul : A) ss n : ss <> [] -> Forall (fun l => l <> []) ss ->
  join_collect nul (S (length (List.concat ss))) (join_begin ss) (join_end n) =
  Ok (List.concat ss).
Proof. exact (join_collect_ok nul ss n). Qed.
(** An empty string anywhere is undefined behaviour. *)
Theorem C218_join_empty_refuted {A} (nul : A) pre post n fuel :
  Forall (fun l => l <> []) pre -> length (List.concat pre) + 2 <= fuel ->
  join_collect nul fuel (join_begin (pre ++ [] :: post)) (join_end n) = UB.
Proof. exact (join_collect_empty nul pre post n fuel). Qed.
(** last - first is the total length wherever first is. *)
Theorem C218_distance_from_begin_partial {A} (ss : list (list A)) :
  join_diff (join_end (length ss)) (join_begin ss) = Ok (length (List.concat ss)).
Proof. exact (join_diff_any ss 0 (join_begin ss) eq_refl). Qed.
Theorem C218_distance_refuted {A} (ss : list (list A)) k i :
  join_advance k (join_begin ss) = Ok i ->
  join_diff (join_end (length ss)) i = Ok (length (List.concat ss)).
Proof. exact (join_diff_any ss k i). Qed.
(** == of two positions of the same join, and with the default iterator. *)
Theorem C218_equality {A} (ss : list (list A)) j k : ss <> [] -> Forall (fun l => l <> []) ss ->
  j <= length (List.concat ss) -> k <= length (List.concat ss) ->
  exists a b, join_advance j (join_begin ss) = Ok a /\ join_advance k (join_begin ss) = Ok b /\
    join_eq a b = (j =? k).
Proof. exact (join_eq_ok ss j k). Qed.
Theorem C218_equality_end {A} (ss : list (list A)) j n : ss <> [] -> Forall (fun l => l <> []) ss ->
  j <= length (List.concat ss) ->
  exists a, join_advance j (join_begin ss) = Ok a /\
    join_eq a (join_end n) = (j =? length (List.concat ss)).
Proof. exact (join_eq_end ss j n). Qed.
Example C218_nonvacuous :
  join_collect 0 6 (join_begin [[1; 2]; [3]; [4; 5]]) (join_end 3) = Ok [1; 2; 3; 4; 5] /\
  join_collect 0 9 (join_begin [[1; 2]; []; [4; 5]]) (join_end 3) = UB /\
  (exists i, join_advance 4 (join_begin [[1; 2]; [3]; [4; 5]]) = Ok i /\
     join_collect 0 2 i (join_end 3) = Ok [5] /\ join_diff (join_end 3) i = Ok 5).
Proof. repeat split; try reflexivity. eexists. repeat split; reflexivity. Qed.
Print Assumptions C218_join_partial.
Print Assumptions C218_join_empty_refuted.
Print Assumptions C218_distance_from_begin_partial.
Print Assumptions C218_distance_refuted.
Print Assumptions C218_equality.
Print Assumptions C218_equality_end.
