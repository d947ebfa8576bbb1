(** The properties of the string functions of deprecated/daw_string.h: C234-C238.
    The vocabulary is in SpecOldString.v. *)
From Coq Require Import List ZArith Bool Lia.
From Verif Require Import Common Ints OldString SpecOldString OldStringProofs.
Import ListNotations.
Open Scope Z_scope.

(** * C234 Splitting and combining *)

(** split and split_if cut the text at the delimiters. *)
Theorem C234_split :
  (forall s is_delim, exists ps, split_if s is_delim = Ok ps /\ cut_at (fun c => is_delim c = true) s ps) /\
  (forall s d, exists ps, split_char s d = Ok ps /\ cut_at (fun c => c = d) s ps) /\
  (forall s ds, exists ps, split_set s ds = Ok ps /\ cut_at (fun c => In c ds) s ps).
Proof. exact c234_split. Qed.

(** There is only one way to do so. *)
Theorem C234_pieces_unique :
  forall delim s ps qs, cut_at delim s ps -> cut_at delim s qs -> ps = qs.
Proof. exact c234_pieces_unique. Qed.

(** combine puts the separator between the texts. *)
Theorem C234_combine :
  forall ps chr, str_combine ps chr = joined chr ps.
Proof. exact c234_combine. Qed.

(** Splitting and combining with one delimiter undo each other. *)
Theorem C234_inverse :
  (forall s d, exists ps, split_char s d = Ok ps /\ str_combine ps [d] = s) /\
  (forall ps d, ps <> [] -> Forall (fun p => ~ In d p) ps -> split_char (str_combine ps [d]) d = Ok ps).
Proof. exact c234_inverse. Qed.

(** split without a delimiter cuts at white space, for the characters std::isspace accepts. *)
Theorem C234_space_partial :
  forall s, Forall (fun c => -1 <= c <= 255) s ->
  exists ps, split_space s = Ok ps /\ cut_at (fun c => c = 32 \/ 9 <= c <= 13) s ps.
Proof. exact c234_space_partial. Qed.

(** A negative character is passed to std::isspace as it is: undefined behaviour. *)
Theorem C234_space_refuted :
  forall a d b, Forall (fun c => -1 <= c <= 255) a -> d < -1 -> split_space (a ++ d :: b) = UB.
Proof. exact c234_space_refuted. Qed.

(** " a,;b" and a text with the byte 0xE9. *)
Example C234_nonvacuous :
  split_set [97; 44; 59; 98] [44; 59] = Ok [[97]; []; [98]] /\ split_char [44] 44 = Ok [[]; []] /\
  str_combine [[97]; []; [98]] [44; 32] = [97; 44; 32; 44; 32; 98] /\
  split_space [97; 32; 98] = Ok [[97]; [98]] /\ split_space [97; 32; -23] = UB.
Proof. repeat split. Qed.
Print Assumptions C234_split.
Print Assumptions C234_pieces_unique.
Print Assumptions C234_combine.
Print Assumptions C234_inverse.
Print Assumptions C234_space_partial.
Print Assumptions C234_space_refuted.

(** * C235 Trimming *)

(** trim_right removes the delimiters at the end and nothing else. *)
Theorem C235_trim_right :
  forall ds s, Z.of_nat (length s) < 2 ^ 63 -> exists r, trim_right s ds = Ok r /\ trimmed_right ds s r.
Proof. exact c235_trim_right. Qed.

(** trim removes them at both ends. *)
Theorem C235_trim :
  forall ds s, Z.of_nat (length s) < 2 ^ 63 -> exists r, trim s ds = Ok r /\ trimmed ds s r.
Proof. exact c235_trim. Qed.

(** trim_left removes them at the front, if another character is left. *)
Theorem C235_trim_left_partial :
  forall ds s, Z.of_nat (length s) < 2 ^ 63 -> s = [] \/ (exists c, In c s /\ ~ In c ds) ->
  exists r, trim_left s ds = Ok r /\ trimmed_left ds s r.
Proof. exact c235_trim_left_partial. Qed.

(** A text of delimiters only makes trim_left throw std::out_of_range. *)
Theorem C235_trim_left_refuted :
  forall ds s, Z.of_nat (length s) < 2 ^ 63 -> s <> [] -> Forall (fun c => In c ds) s -> trim_left s ds = Throw.
Proof. exact c235_trim_left_refuted. Qed.

(** There is only one such text. *)
Theorem C235_unique :
  forall ds s r r', trimmed_right ds s r -> trimmed_right ds s r' -> r = r'.
Proof. exact c235_unique. Qed.

Example C235_nonvacuous :
  trim_right [32; 97; 32; 98; 9; 32] standard_delimiters = Ok [32; 97; 32; 98] /\
  trim_left [32; 97; 32] standard_delimiters = Ok [97; 32] /\
  trim [9; 97; 32; 98; 9] standard_delimiters = Ok [97; 32; 98] /\
  trim [9; 32] standard_delimiters = Ok [] /\ trim_right [9; 32] standard_delimiters = Ok [] /\
  trim_left [9; 32] standard_delimiters = Throw.
Proof. repeat split. Qed.
Print Assumptions C235_trim_right.
Print Assumptions C235_trim.
Print Assumptions C235_trim_left_partial.
Print Assumptions C235_trim_left_refuted.
Print Assumptions C235_unique.

(** * C236 ends_with *)

(** ends_with a character. *)
Theorem C236_char :
  forall src c, exists b, ends_with_char src c = Ok b /\ (b = true <-> ends_in src [c]).
Proof. exact c236_char. Qed.

(** ends_with a string is right for a string of one character. *)
Theorem C236_string_partial :
  forall src c, Z.of_nat (length src) < 2 ^ 63 -> ends_with src [c] = true <-> ends_in src [c].
Proof. exact c236_string_partial. Qed.

(** For other strings it tells whether the last character is one of the ending: false for every text when the ending is empty. *)
Theorem C236_string_refuted :
  forall src e, Z.of_nat (length src) < 2 ^ 63 -> ends_with src e = true <-> exists a c, src = a ++ [c] /\ In c e.
Proof. exact c236_string_refuted. Qed.

(** "xyc" is said to end with "abc" and with "cb", "abc" not with "". *)
Example C236_nonvacuous :
  ends_with [120; 121; 99] [97; 98; 99] = true /\ ~ ends_in [120; 121; 99] [97; 98; 99] /\
  ends_with [97; 98; 99] [] = false /\ ends_with_char [97; 98] 98 = Ok true.
Proof.
  split; [reflexivity|]. split; [|split; reflexivity].
  intros ([|x a] & E); [discriminate|]. apply (f_equal (@length Z)) in E. rewrite app_length in E. cbn in E. lia.
Qed.
Print Assumptions C236_char.
Print Assumptions C236_string_partial.
Print Assumptions C236_string_refuted.

(** * C237 Replacing and searching *)

(** search_replace replaces the occurrences of a nonempty text from the left; the loop ends. *)
Theorem C237_replace :
  forall pat by_ s, pat <> [] -> exists r, replaced pat by_ s r /\
  forall fuel, (length s < fuel)%nat -> search_replace_loop fuel s pat by_ 0 = Ok r.
Proof. exact c237_replace. Qed.

(** There is only one result. *)
Theorem C237_unique :
  forall pat by_ s r r', pat <> [] -> replaced pat by_ s r -> replaced pat by_ s r' -> r = r'.
Proof. exact c237_unique. Qed.

(** The loop never ends for an empty text to search for. *)
Theorem C237_empty_refuted :
  forall by_ s fuel, search_replace_loop fuel s [] by_ 0 = OutOfFuel.
Proof. exact c237_empty_refuted. Qed.

(** contains and in decide whether a text is part of another. *)
Theorem C237_contains :
  forall s t, Z.of_nat (length s) < 2 ^ 63 -> (str_contains s t = true <-> part_of t s) /\ (str_in t s = true <-> part_of t s).
Proof. exact c237_contains. Qed.

(** "aaa" with "aa" replaced by "aab". *)
Example C237_nonvacuous :
  search_replace_loop 5 [97; 97; 97] [97; 97] [97; 97; 98] 0 = Ok [97; 97; 98; 97] /\
  str_contains [97; 98; 99] [98; 99] = true /\ str_in [98; 100] [97; 98; 99] = false.
Proof. repeat split. Qed.
Print Assumptions C237_replace.
Print Assumptions C237_unique.
Print Assumptions C237_empty_refuted.
Print Assumptions C237_contains.

(** * C238 Formatting *)

(** fmt replaces the placeholders from the left and keeps everything else, and gives nothing else. *)
Theorem C238_format :
  forall fixed args f o, Z.of_nat (length args) < 2 ^ 64 -> Z.of_nat (length f) < 2 ^ 63 ->
  fmt fixed f args = Ok o <-> formatted fixed args f o.
Proof. exact c238_format. Qed.

(** A format made of text without braces and placeholders of existing arguments. *)
Theorem C238_items :
  forall fixed args items, Z.of_nat (length args) < 2 ^ 64 -> Forall (item_ok (length args)) items ->
  Z.of_nat (length (List.concat (map item_text items))) < 2 ^ 63 ->
  fmt fixed (List.concat (map item_text items)) args = Ok (List.concat (map (item_value fixed args) items)).
Proof. exact c238_items. Qed.

(** A format without braces is kept. *)
Theorem C238_kept :
  forall fixed args f, Z.of_nat (length args) < 2 ^ 64 -> Z.of_nat (length f) < 2 ^ 63 -> ~ In 123 f -> fmt fixed f args = Ok f.
Proof. exact c238_kept. Qed.

(** A placeholder with two or more colons throws. *)
Theorem C238_colons :
  forall fixed args pre ds p q ps rest, ~ In 123 pre -> Z.of_nat (length pre) < 2 ^ 63 -> ds <> [] -> Forall digit_char ds ->
  Forall digit_char (p :: q :: ps) ->
  fmt fixed (pre ++ braced (ds ++ List.concat (map (fun p => [58; p]) (p :: q :: ps))) ++ rest) args = Throw.
Proof. exact c238_colons. Qed.

(** A placeholder without an argument reads behind the arguments. *)
Theorem C238_index_refuted :
  forall fixed args pre ds rest, ~ In 123 pre -> Z.of_nat (length pre) < 2 ^ 63 -> ds <> [] -> Forall digit_char ds ->
  Z.of_nat (length args) < 2 ^ 64 -> Z.of_nat (length args) <= number ds ->
  fmt fixed (pre ++ braced ds ++ rest) args = UB.
Proof. exact c238_index_refuted. Qed.

(** "a{1}b{0:2}" and "{{0}}", which keeps both braces. *)
Example C238_nonvacuous :
  (let items := [Text [97]; Arg [49]; Text [98]; Fixed [48] 50] in
   let fixed a p := a ++ [46; 48 + p] in
   Forall (item_ok 2) items /\
   List.concat (map item_text items) = [97; 123; 49; 125; 98; 123; 48; 58; 50; 125] /\
   fmt fixed (List.concat (map item_text items)) [[55]; [56]] = Ok [97; 56; 98; 55; 46; 50]) /\
  fmt (fun a _ => a) [123; 123; 48; 125; 125] [[55]] = Ok [123; 123; 48; 125; 125] /\
  fmt (fun a _ => a) [123; 48; 58; 49; 58; 49; 125] [[55]] = Throw /\
  fmt (fun a _ => a) [123; 49; 125] [[55]] = UB.
Proof.
  cbv zeta. split; [|repeat split]. split; [|repeat split].
  repeat constructor; cbn; try lia; try discriminate; intuition discriminate.
Qed.
Print Assumptions C238_format.
Print Assumptions C238_items.
Print Assumptions C238_kept.
Print Assumptions C238_colons.
Print Assumptions C238_index_refuted.
