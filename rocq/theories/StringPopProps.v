(** Properties C29, C30, C32, C69, C76: popping pieces off string views. *)
From Verif Require Import Common CommonProofs Ints StringView StringPop SpecString SpecStringOps StringViewProofs StringOtherProofs StringPopProofs StringMoreProofs StringZtProofs StringViewProps.
Open Scope Z_scope.

(** * C29: pop_front_until and pop_back_until. *)
Theorem C29_string_partial dbg v w : valid v -> valid w ->
  (exists p v', pop_front_until dbg v w = Ok (p, v') /\ valid p /\ valid v' /\
    cut_first (occurs (chars v) (chars w)) (length (chars w)) (chars v) (chars p) (chars v')) /\
  (exists p v', pop_front_until_keep dbg v w = Ok (p, v') /\ valid p /\ valid v' /\
    cut_first (occurs (chars v) (chars w)) 0 (chars v) (chars p) (chars v')) /\
  (exists p v', pop_back_until dbg v w = Ok (p, v') /\ valid p /\ valid v' /\
    cut_last (occurs (chars v) (chars w)) (length (chars w)) (chars v) (chars p) (chars v')).
Proof. exact (pop_until_string dbg v w). Qed.
Theorem C29_char_partial dbg runtime lo v c : valid v -> (runtime = true -> bytes lo (c :: chars v)) ->
  (exists p v', pop_front_until_char dbg runtime v c = Ok (p, v') /\ valid p /\ valid v' /\
    cut_first (char_is (chars v) (fun x => x = c)) 1 (chars v) (chars p) (chars v')) /\
  (exists p v', pop_front_until_char_keep dbg runtime v c = Ok (p, v') /\ valid p /\ valid v' /\
    cut_first (char_is (chars v) (fun x => x = c)) 0 (chars v) (chars p) (chars v')) /\
  (exists p v', pop_back_until_char dbg v c = Ok (p, v') /\ valid p /\ valid v' /\
    cut_last (char_is (chars v) (fun x => x = c)) 1 (chars v) (chars p) (chars v')).
Proof. exact (pop_until_char dbg runtime lo v c). Qed.
Theorem C29_predicate_partial dbg v pred : valid v ->
  (exists p v', pop_front_until_if dbg v pred = Ok (p, v') /\ valid p /\ valid v' /\
    cut_first (char_is (chars v) (fun x => pred x = true)) 1 (chars v) (chars p) (chars v')) /\
  (exists p v', pop_front_until_if_keep dbg v pred = Ok (p, v') /\ valid p /\ valid v' /\
    cut_first (char_is (chars v) (fun x => pred x = true)) 0 (chars v) (chars p) (chars v')) /\
  (exists p v', pop_back_until_if dbg v pred = Ok (p, v') /\ valid p /\ valid v' /\
    cut_last (char_is (chars v) (fun x => pred x = true)) 1 (chars v) (chars p) (chars v')).
Proof. exact (pop_until_if dbg v pred). Qed.
(** The overload of pop_back_until that should keep the delimiter drops it. *)
Theorem C29_pop_back_keep_refuted dbg v w : valid v -> valid w ->
  exists p v', pop_back_until_keep dbg v w = Ok (p, v') /\
    cut_last (occurs (chars v) (chars w)) (length (chars w)) (chars v) (chars p) (chars v').
Proof. exact (pop_back_until_keep_same dbg v w). Qed.
Theorem C29_pop_back_if_keep_partial :
  forall dbg v pred, valid v ->
  exists p v', pop_back_until_if_keep dbg v pred = Ok (p, v') /\ valid p /\ valid v' /\
    cut_last (char_is (chars v) (fun x => pred x = true)) 0 (chars v) (chars p) (chars v').
Proof. exact c29_pop_back_if_keep_partial_l. Qed.
Print Assumptions C29_pop_back_if_keep_partial.
Print Assumptions C29_string_partial.
Print Assumptions C29_char_partial.
Print Assumptions C29_predicate_partial.
Print Assumptions C29_pop_back_keep_refuted.

Example C29_nontrivial :
  shown2 (pop_back_until_keep true (sub_view [] [97; 44; 98; 44; 99] []) (sub_view [] [44] [])) = Some ([99], [97; 44; 98]).
Proof. vm_compute. reflexivity. Qed.
Example C29_nontrivial_front :
  shown2 (pop_front_until true (sub_view [] [97; 44; 98; 44; 99] []) (sub_view [] [44] [])) = Some ([97], [98; 44; 99]).
Proof. vm_compute. reflexivity. Qed.

(** * C30: the try_pop forms. *)
Theorem C30_front_partial dbg v w : valid v -> valid w ->
  try_front (occurs (chars v) (chars w)) (length (chars w)) v (try_pop_front_until dbg v w) /\
  try_front (occurs (chars v) (chars w)) 0 v (try_pop_front_until_keep dbg v w).
Proof. exact (try_pop_front_until_ok dbg v w). Qed.
Theorem C30_front_char_partial dbg runtime lo v c : valid v -> (runtime = true -> bytes lo (c :: chars v)) ->
  try_front (char_is (chars v) (fun x => x = c)) 1 v (try_pop_front_until_char dbg runtime v c) /\
  try_front (char_is (chars v) (fun x => x = c)) 0 v (try_pop_front_until_char_keep dbg runtime v c).
Proof. exact (try_pop_front_until_char_ok dbg runtime lo v c). Qed.
Theorem C30_front_predicate_keep_partial dbg v pred : valid v ->
  try_front (char_is (chars v) (fun x => pred x = true)) 0 v (try_pop_front_until_if_keep dbg v pred).
Proof. exact (try_pop_front_until_if_keep_ok dbg v pred). Qed.
Theorem C30_front_predicate_partial dbg v pred i : valid v -> char_is (chars v) (fun x => pred x = true) i ->
  exists p v', try_pop_front_until_if dbg v pred = Ok (p, v') /\ valid p /\ valid v' /\
    cut_first (char_is (chars v) (fun x => pred x = true)) 1 (chars v) (chars p) (chars v').
Proof. exact (try_pop_front_until_if_found dbg v pred i). Qed.
Theorem C30_back_partial dbg v w : valid v -> valid w ->
  try_back (occurs (chars v) (chars w)) (length (chars w)) v (try_pop_back_until dbg v w).
Proof. exact (try_pop_back_until_ok dbg v w). Qed.
(** Without a match try_pop_front_until( pred ) still removes a character. *)
Theorem C30_front_predicate_refuted dbg v pred : valid v ->
  (forall i, ~ char_is (chars v) (fun x => pred x = true) i) ->
  exists v', try_pop_front_until_if dbg v pred = Ok (v_null, v') /\ chars v' = skipn 1 (chars v).
Proof. exact (try_pop_front_until_if_absent dbg v pred). Qed.
(** try_pop_back_until( c ) and ( pred ) leave the delimiter in the piece, unlike
    pop_back_until, and their nodiscard forms leave it on both sides. *)
Theorem C30_back_char_refuted dbg v c : valid v ->
  try_back (char_is (chars v) (fun x => x = c)) 0 v (try_pop_back_until_char dbg v c).
Proof. exact (try_pop_back_until_char_ok dbg v c). Qed.
Theorem C30_back_predicate_refuted dbg v pred : valid v ->
  try_back (char_is (chars v) (fun x => pred x = true)) 0 v (try_pop_back_until_if dbg v pred).
Proof. exact (try_pop_back_until_if_ok dbg v pred). Qed.
Theorem C30_back_char_keep_refuted dbg v c i : valid v -> char_is (chars v) (fun x => x = c) i ->
  exists p v' a b, try_pop_back_until_char_keep dbg v c = Ok (p, v') /\
     chars v = a ++ c :: b /\ chars p = c :: b /\ chars v' = a ++ [c].
Proof. exact (try_back_char_dup dbg v c i). Qed.
Theorem C30_back_predicate_keep_refuted dbg v pred i : valid v -> char_is (chars v) (fun x => pred x = true) i ->
  exists p v' a d b, try_pop_back_until_if_keep dbg v pred = Ok (p, v') /\
     chars v = a ++ d :: b /\ pred d = true /\ chars p = d :: b /\ chars v' = a ++ [d].
Proof. exact (try_back_if_dup dbg v pred i). Qed.
Theorem C30_back_keep_refuted dbg v w : valid v -> valid w ->
  try_back (occurs (chars v) (chars w)) (length (chars w)) v (try_pop_back_until_keep dbg v w).
Proof. exact (try_pop_back_until_keep_same dbg v w). Qed.
Print Assumptions C30_front_partial.
Print Assumptions C30_front_char_partial.
Print Assumptions C30_front_predicate_keep_partial.
Print Assumptions C30_front_predicate_partial.
Print Assumptions C30_back_partial.
Print Assumptions C30_front_predicate_refuted.
Print Assumptions C30_back_char_refuted.
Print Assumptions C30_back_predicate_refuted.
Print Assumptions C30_back_char_keep_refuted.
Print Assumptions C30_back_predicate_keep_refuted.
Print Assumptions C30_back_keep_refuted.

Example C30_witness :
  (shown2 (try_pop_front_until_if true (sub_view [] [97; 98] []) (Z.eqb 44)) = Some ([], [98])) /\
  (shown2 (try_pop_front_until true (sub_view [] [97; 44; 98] []) (sub_view [] [44] [])) = Some ([97], [98])) /\
  (shown2 (try_pop_back_until_char true (sub_view [] [97; 44; 98] []) 44) = Some ([44; 98], [97])).
Proof. repeat split; vm_compute; reflexivity. Qed.

(** * C32: the zero-terminated mark.  [sound]: the mark implies a NUL after the last
    character.  Histories of operations that keep their preconditions: those without
    substr( ), the _unsafe members and the explicit mark succeed and keep the mark
    sound in every build; in builds with the checks every history that returns does. *)
Theorem C32_safe_histories_partial dbg v os : sound v -> forallb vsafe os = true -> pre_run dbg v os ->
  exists v', vrun dbg v os = Ok v' /\ sound v'.
Proof. exact (safe_history dbg os v). Qed.
Theorem C32_checked_histories_partial v os v' : sound v -> pre_run true v os -> vrun true v os = Ok v' -> sound v'.
Proof. exact (dbg_history os v v'). Qed.
(** Without the checks substr( ) marks every view, zero-terminated or not; with them
    it throws or reads past the array on views that are not. *)
Theorem C32_substr_marks_refuted v l : valid v -> vmem v = Some l ->
  exists r, substr_all false v = Ok r /\ vzt r = true /\ vmem r = vmem v /\ voff r = voff v /\ vsize r = vsize v /\ chars r = chars v.
Proof. exact (substr_all_marks v l). Qed.
Theorem C32_substr_checked_refuted v l : valid v -> vmem v = Some l -> ~ terminated v ->
  substr_all true v = Throw \/ substr_all true v = UB.
Proof. exact (substr_all_dbg v l). Qed.
Print Assumptions C32_safe_histories_partial.
Print Assumptions C32_checked_histories_partial.
Print Assumptions C32_substr_marks_refuted.
Print Assumptions C32_substr_checked_refuted.

Example C32_nontrivial :
  let v := View (Some [97; 44; 98; 0]) 0 (3 + 2 ^ 63) in
  sound v /\ vzt v = true /\
  pre_run false v [VPopFrontUntil false (sub_view [] [44] []); VTrim] /\
  vrun false v [VPopFrontUntil false (sub_view [] [44] []); VTrim] = Ok (View (Some [97; 44; 98; 0]) 2 (1 + 2 ^ 63)).
Proof.
  cbv zeta. split; [|split; [vm_compute; reflexivity|split; [|vm_compute; reflexivity]]].
  - split; [repeat split; vm_compute; congruence|]. intros _. eexists. split; [reflexivity|vm_compute; reflexivity].
  - simpl. split; [repeat split; vm_compute; congruence|]. intros v' _. split; auto.
Qed.

(** * C69: popping a given number of characters. *)
Theorem C69_pop_count_partial dbg v n : valid v -> 0 <= n < 2 ^ 64 ->
  (exists p v', pop_front dbg v n = Ok (p, v') /\ valid p /\ valid v' /\
     chars p = firstn (Z.to_nat n) (chars v) /\ chars v' = skipn (Z.to_nat n) (chars v)) /\
  (exists p v', pop_back dbg v n = Ok (p, v') /\ valid p /\ valid v' /\
     chars p = skipn (length (chars v) - Z.to_nat n) (chars v) /\ chars v' = firstn (length (chars v) - Z.to_nat n) (chars v)).
Proof. exact (pop_count dbg v n). Qed.
Theorem C69_pop_front_char_partial dbg v c t : valid v -> chars v = c :: t ->
  exists v', pop_front_char dbg v = Ok (c, v') /\ valid v' /\ chars v' = t.
Proof. exact (pop_front_char_ok dbg v c t). Qed.
Theorem C69_pop_back_char_partial dbg v c t : valid v -> chars v = t ++ [c] ->
  exists v', pop_back_char dbg v = Ok (c, v') /\ valid v' /\ chars v' = t.
Proof. exact (pop_back_char_ok dbg v c t). Qed.
Theorem C69_pop_back_unsafe_partial v l count : valid v -> vmem v = Some l -> 0 <= count <= vsize v ->
  exists p v', pop_back_unsafe false v count = Ok (p, v') /\
    chars p = skipn (length (chars v) - Z.to_nat count) (chars v) /\ chars v' = firstn (length (chars v) - Z.to_nat count) (chars v).
Proof. exact (pop_back_unsafe_ok v l count). Qed.
(** pop_front_unsafe( count ) returns the whole view instead of its first characters. *)
Theorem C69_pop_front_unsafe_refuted v l count : valid v -> vmem v = Some l -> 0 <= count <= vsize v ->
  exists p v', pop_front_unsafe false v count = Ok (p, v') /\ chars p = chars v /\
    chars v' = skipn (Z.to_nat count) (chars v).
Proof. exact (pop_front_unsafe_whole v l count). Qed.
Theorem C69_pop_char_unsafe_partial :
  forall v c t, valid v ->
  (chars v = c :: t -> exists v', pop_front_char_unsafe false v = Ok (c, v') /\ valid v' /\ chars v' = t) /\
  (chars v = t ++ [c] -> exists v', pop_back_char_unsafe false v = Ok (c, v') /\ valid v' /\ chars v' = t).
Proof. exact c69_pop_char_unsafe_partial_l. Qed.
Theorem C69_pop_char_checked :
  forall v, valid v -> chars v = [] -> pop_front_char_unsafe true v = Throw /\ pop_back_char_unsafe true v = Throw.
Proof. exact c69_pop_char_checked_l. Qed.
(** The assertions of the unchecked members hold for every view that is not empty. *)
Theorem C69_checks_pass :
  forall v, valid v -> chars v <> [] ->
  pop_front_char_unsafe true v = pop_front_char_unsafe false v /\
  pop_back_char_unsafe true v = pop_back_char_unsafe false v.
Proof. exact c69_checks_pass_l. Qed.
Print Assumptions C69_checks_pass.
Print Assumptions C69_pop_char_checked.
Print Assumptions C69_pop_char_unsafe_partial.
Print Assumptions C69_pop_count_partial.
Print Assumptions C69_pop_front_char_partial.
Print Assumptions C69_pop_back_char_partial.
Print Assumptions C69_pop_back_unsafe_partial.
Print Assumptions C69_pop_front_unsafe_refuted.

Example C69_witness :
  (shown2 (pop_front true (sub_view [1] [97; 98; 99] [7]) 2) = Some ([97; 98], [99])) /\
  (shown2 (pop_front_unsafe false (sub_view [1] [97; 98; 99] [7]) 1) = Some ([97; 98; 99], [98; 99])).
Proof. split; vm_compute; reflexivity. Qed.

(** * C76: removing and popping by content. *)
Theorem C76_remove_prefix_until v w : valid v -> valid w ->
  (exists v' p, remove_prefix_until v w = Ok v' /\ valid v' /\
    cut_first (occurs (chars v) (chars w)) (length (chars w)) (chars v) p (chars v')) /\
  (exists v' p, remove_prefix_until_keep v w = Ok v' /\ valid v' /\
    cut_first (occurs (chars v) (chars w)) 0 (chars v) p (chars v')).
Proof. exact (remove_until_string v w). Qed.
Theorem C76_remove_prefix_until_char dbg runtime lo v c : valid v -> (runtime = true -> bytes lo (c :: chars v)) ->
  exists v' p, remove_prefix_until_char dbg runtime v c = Ok v' /\ valid v' /\
    cut_first (char_is (chars v) (fun x => x = c)) 1 (chars v) p (chars v').
Proof. exact (remove_prefix_until_char_ok dbg runtime lo v c). Qed.
Theorem C76_remove_prefix_until_char_keep dbg runtime lo v c : valid v -> (runtime = true -> bytes lo (c :: chars v)) ->
  exists v' p, remove_prefix_until_char_keep dbg runtime v c = Ok v' /\ valid v' /\
    cut_first (char_is (chars v) (fun x => x = c)) 0 (chars v) p (chars v').
Proof. exact (remove_prefix_until_char_keep_ok dbg runtime lo v c). Qed.
Theorem C76_remove_prefix_until_predicate v pred : valid v ->
  exists v' p, remove_prefix_until_if v pred = Ok v' /\ valid v' /\
    cut_first (char_is (chars v) (fun x => pred x = true)) 1 (chars v) p (chars v').
Proof. exact (remove_prefix_until_if_ok v pred). Qed.
Theorem C76_pop_front_while dbg v w : valid v -> valid w ->
  exists p v', pop_front_while dbg v w = Ok (p, v') /\ valid p /\ valid v' /\
    cut_first (char_is (chars v) (fun x => ~ In x (chars w))) 0 (chars v) (chars p) (chars v').
Proof. exact (pop_front_while_ok dbg v w). Qed.
Theorem C76_pop_front_while_char dbg v c : valid v ->
  exists p v', pop_front_while_char dbg v c = Ok (p, v') /\ valid p /\ valid v' /\
    cut_first (char_is (chars v) (fun x => x <> c)) 0 (chars v) (chars p) (chars v').
Proof. exact (pop_front_while_char_ok dbg v c). Qed.
Theorem C76_pop_front_while_predicate dbg v pred : valid v ->
  exists p v', pop_front_while_if dbg v pred = Ok (p, v') /\ valid p /\ valid v' /\
    cut_first (char_is (chars v) (fun x => pred x = false)) 0 (chars v) (chars p) (chars v').
Proof. exact (pop_front_while_if_ok dbg v pred). Qed.
Theorem C76_remove_prefix_while v pred : valid v ->
  exists v', remove_prefix_while v pred = Ok v' /\ valid v' /\ drops_front (fun c => pred c = true) (chars v) (chars v').
Proof. exact (remove_prefix_while_ok v pred). Qed.
Theorem C76_remove_suffix_while dbg v pred : valid v ->
  exists v', remove_suffix_while dbg v pred = Ok v' /\ valid v' /\ drops_back (fun c => pred c = true) (chars v) (chars v').
Proof. exact (remove_suffix_while_ok dbg v pred). Qed.
Theorem C76_remove_prefix_while_char dbg v c : valid v ->
  exists v', remove_prefix_while_char dbg v c = Ok v' /\ valid v' /\ drops_front (fun x => x = c) (chars v) (chars v').
Proof. exact (remove_prefix_while_char_ok dbg v c). Qed.
Theorem C76_remove_suffix_while_char dbg runtime lo v c : valid v -> (runtime = true -> bytes lo (c :: chars v)) ->
  exists v', remove_suffix_while_char dbg runtime v c = Ok v' /\ valid v' /\ drops_back (fun x => x = c) (chars v) (chars v').
Proof. exact (remove_suffix_while_char_ok dbg runtime lo v c). Qed.
Print Assumptions C76_remove_prefix_until.
Print Assumptions C76_remove_prefix_until_char.
Print Assumptions C76_remove_prefix_until_char_keep.
Print Assumptions C76_remove_prefix_until_predicate.
Print Assumptions C76_pop_front_while.
Print Assumptions C76_pop_front_while_char.
Print Assumptions C76_pop_front_while_predicate.
Print Assumptions C76_remove_prefix_while.
Print Assumptions C76_remove_suffix_while.
Print Assumptions C76_remove_prefix_while_char.
Print Assumptions C76_remove_suffix_while_char.

Example C76_nontrivial :
  (shown (remove_prefix_until (sub_view [] [97; 58; 58; 98] []) (sub_view [] [58; 58] [])) = Some [98]) /\
  (shown2 (pop_front_while true (sub_view [] [97; 98; 99] []) (sub_view [] [98; 97] [])) = Some ([97; 98], [99])).
Proof. split; vm_compute; reflexivity. Qed.
