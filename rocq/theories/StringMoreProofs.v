From Verif Require Import Common CommonProofs Ints BitsModel BitQueueProofs StringView StringPop SpecString StringViewProofs StringSearchProofs StringLastProofs StringOtherProofs StringPopProofs.
Open Scope Z_scope.
Local Arguments Z.mul : simpl never.
Local Arguments Z.add : simpl never.
Local Arguments Z.sub : simpl never.
Local Arguments Z.pow : simpl never.
Local Arguments Z.of_nat : simpl never.

Lemma pop_front_while_char_ok dbg v c : valid v ->
  exists p v', pop_front_while_char dbg v c = Ok (p, v') /\ valid p /\ valid v' /\
    cut_first (char_is (chars v) (fun x => x <> c)) 0 (chars v) (chars p) (chars v').
Proof.
  intros V. destruct (char_view_valid c) as (W & C).
  destruct (pop_front_while_ok dbg v (v_char c) V W) as (p & v' & E & A & B & K).
  exists p, v'. split; [exact E|]. split; auto. split; auto. rewrite C in K.
  assert (X : forall i, char_is (chars v) (fun x => ~ In x [c]) i <-> char_is (chars v) (fun x => x <> c) i).
  { intros i. split; intros (x & N & H); exists x; split; auto; simpl in *; intuition. }
  destruct K as [(d & K1 & K2 & K3 & K4)|(K1 & K2 & K3)].
  - left. exists d. split; auto. split; auto. split; [apply X; auto|]. intros j Hj Q. apply (K4 j Hj). apply X; auto.
  - right. split; auto. intros i Q. apply (K1 i). apply X; auto.
Qed.

Lemma remove_prefix_until_char_keep_ok dbg runtime lo v c : valid v -> (runtime = true -> bytes lo (c :: chars v)) ->
  exists v' p, remove_prefix_until_char_keep dbg runtime v c = Ok v' /\ valid v' /\
    cut_first (char_is (chars v) (fun x => x = c)) 0 (chars v) p (chars v').
Proof.
  intros V B. pose proof (chars_length v V). pose proof (vsize_range v). unfold remove_prefix_until_char_keep.
  destruct (find_char_zero dbg runtime lo v c V B) as (r & E & F). rewrite E. cbn [bind].
  assert (0 <= r) by (destruct F as [(-> & _)|(i & -> & _)]; [rewrite npos_val|]; lia).
  destruct (prefix_i v r V ltac:(lia)) as (v' & E' & I & C). exists v', (firstn (Z.to_nat r) (chars v)).
  split; auto. split; [apply I|]. rewrite C. apply cut_first_keep; auto; [|lia].
  intros i Hi. apply char_is_lt in Hi. lia.
Qed.

(** The nodiscard overloads of try_pop_back_until for a character or a predicate keep
    the delimiter on both sides. *)
Lemma try_back_char_dup dbg v c i : valid v -> char_is (chars v) (fun x => x = c) i ->
  exists p v' a b, try_pop_back_until_char_keep dbg v c = Ok (p, v') /\
     chars v = a ++ c :: b /\ chars p = c :: b /\ chars v' = a ++ [c].
Proof.
  intros V Hi. unfold try_pop_back_until_char_keep. destruct (rfind0_char v c V) as (r & E & F). rewrite E. cbn [bind].
  destruct (dup_delim dbg v _ r V F) as (_ & D); [intros j Hj; apply char_is_lt in Hj; lia|].
  destruct (D i Hi) as (p & v' & a & d & b & E' & C1 & C2 & C3 & (x & N & Q)).
  rewrite C1, nth_error_app2, Nat.sub_diag in N by lia. simpl in N. inv N. exists p, v', a, b. auto.
Qed.
Lemma try_back_if_dup dbg v pred i : valid v -> char_is (chars v) (fun x => pred x = true) i ->
  exists p v' a d b, try_pop_back_until_if_keep dbg v pred = Ok (p, v') /\
     chars v = a ++ d :: b /\ pred d = true /\ chars p = d :: b /\ chars v' = a ++ [d].
Proof.
  intros V Hi. unfold try_pop_back_until_if_keep. destruct (find_last0_if dbg v pred V) as (r & E & F). rewrite E. cbn [bind].
  destruct (dup_delim dbg v _ r V F) as (_ & D); [intros j Hj; apply char_is_lt in Hj; lia|].
  destruct (D i Hi) as (p & v' & a & d & b & E' & C1 & C2 & C3 & (x & N & Q)).
  rewrite C1, nth_error_app2, Nat.sub_diag in N by lia. simpl in N. inv N. exists p, v', a, x, b. auto.
Qed.
Lemma pop_back_until_keep_same dbg v w : valid v -> valid w ->
  exists p v', pop_back_until_keep dbg v w = Ok (p, v') /\
    cut_last (occurs (chars v) (chars w)) (length (chars w)) (chars v) (chars p) (chars v').
Proof. intros V W. destruct (pop_back_until_ok dbg v w V W) as (p & v' & E & _ & _ & C). exists p, v'. split; [exact E|exact C]. Qed.
Lemma try_pop_back_until_keep_same dbg v w : valid v -> valid w ->
  try_back (occurs (chars v) (chars w)) (length (chars w)) v (try_pop_back_until_keep dbg v w).
Proof. exact (try_pop_back_until_ok dbg v w). Qed.

(** find( c, pos ) at run time counts from pos. *)
Lemma find_char_relative dbg lo v c pos i : valid v -> 0 <= pos <= Z.of_nat i ->
  bytes lo (c :: chars v) -> char_is (chars v) (fun x => x = c) i ->
  (forall j, pos <= Z.of_nat j -> (j < i)%nat -> ~ char_is (chars v) (fun x => x = c) j) ->
  sv_find_char dbg true v c pos = Ok (Z.of_nat i - pos).
Proof.
  intros V Hp B C N. pose proof (chars_length v V). pose proof (char_is_lt _ _ _ C).
  destruct (find_char_runtime dbg lo v c pos V ltac:(lia) B) as (r & E & F). rewrite E. f_equal.
  destruct F as [(_ & K)|(k & -> & K & M)].
  - exfalso. apply (K (i - Z.to_nat pos)%nat). replace (Z.to_nat pos + (i - Z.to_nat pos))%nat with i by lia. auto.
  - destruct (Nat.lt_trichotomy (Z.to_nat pos + k) i) as [L|[L|L]]; [|lia|].
    + exfalso. apply (N (Z.to_nat pos + k)%nat); auto; lia.
    + exfalso. apply (M (i - Z.to_nat pos)%nat); [lia|]. replace (Z.to_nat pos + (i - Z.to_nat pos))%nat with i by lia. auto.
Qed.

Lemma compare_sub_spec dbg v pos count w : valid v -> valid w -> 0 <= pos <= vsize v -> 0 <= count < 2 ^ 64 ->
  let s := firstn (Z.to_nat count) (skipn (Z.to_nat pos) (chars v)) in
  exists r, sv_compare_sub dbg v pos count w = Ok r /\ (r < 0 <-> lex_lt s (chars w)) /\ (r = 0 <-> s = chars w) /\
    (0 < r <-> lex_lt (chars w) s).
Proof.
  intros V W Hp Hc s. unfold sv_compare_sub. destruct (substr_i dbg v pos count V Hp Hc) as (u & E & I & C). rewrite E. cbn [bind].
  destruct (compare_spec u w (proj1 I) W) as (r & R & K). exists r. rewrite C in K. auto.
Qed.
Lemma compare_subs_spec dbg v pos count w pos2 count2 : valid v -> valid w -> 0 <= pos <= vsize v -> 0 <= count < 2 ^ 64 ->
  0 <= pos2 <= vsize w -> 0 <= count2 < 2 ^ 64 ->
  let s := firstn (Z.to_nat count) (skipn (Z.to_nat pos) (chars v)) in
  let t := firstn (Z.to_nat count2) (skipn (Z.to_nat pos2) (chars w)) in
  exists r, sv_compare_subs dbg v pos count w pos2 count2 = Ok r /\ (r < 0 <-> lex_lt s t) /\ (r = 0 <-> s = t) /\
    (0 < r <-> lex_lt t s).
Proof.
  intros V W Hp Hc Hp2 Hc2 s t. unfold sv_compare_subs. destruct (substr_i dbg v pos count V Hp Hc) as (u & E & I & C).
  destruct (substr_i dbg w pos2 count2 W Hp2 Hc2) as (u2 & E2 & I2 & C2).
  rewrite E. cbn [bind]. rewrite E2. cbn [bind].
  destruct (compare_spec u u2 (proj1 I) (proj1 I2)) as (r & R & K). exists r. rewrite C, C2 in K. auto.
Qed.

Lemma prefix_suffix v n : valid v -> 0 <= n < 2 ^ 64 ->
  exists v', remove_prefix v n = Ok v' /\ valid v' /\ valid (remove_suffix v n) /\
    chars v' = skipn (Z.to_nat n) (chars v) /\
    chars (remove_suffix v n) = firstn (length (chars v) - Z.to_nat n) (chars v).
Proof.
  intros V Hn. destruct (prefix_i v n V ltac:(lia)) as (v' & E & I & C). destruct (suffix_i v n V ltac:(lia)) as (I2 & C2).
  exists v'. split; auto. split; [apply I|]. split; [apply I2|]. auto.
Qed.
Lemma pop_count dbg v n : valid v -> 0 <= n < 2 ^ 64 ->
  (exists p v', pop_front dbg v n = Ok (p, v') /\ valid p /\ valid v' /\
     chars p = firstn (Z.to_nat n) (chars v) /\ chars v' = skipn (Z.to_nat n) (chars v)) /\
  (exists p v', pop_back dbg v n = Ok (p, v') /\ valid p /\ valid v' /\
     chars p = skipn (length (chars v) - Z.to_nat n) (chars v) /\ chars v' = firstn (length (chars v) - Z.to_nat n) (chars v)).
Proof.
  intros V Hn. split.
  - destruct (pop_front_ok dbg v n V Hn) as (p & v' & E & I & J & C). exists p, v'. split; auto. split; [apply I|]. split; [apply J|auto].
  - destruct (pop_back_ok dbg v n V Hn) as (p & v' & E & I & J & C). exists p, v'. split; auto. split; [apply I|]. split; [apply J|auto].
Qed.
Lemma substr_slice dbg v pos count : valid v -> 0 <= pos <= vsize v -> 0 <= count < 2 ^ 64 ->
  exists r, substr dbg v pos count = Ok r /\ valid r /\
    chars r = firstn (Z.to_nat count) (skipn (Z.to_nat pos) (chars v)).
Proof. intros V Hp Hc. destruct (substr_i dbg v pos count V Hp Hc) as (r & E & I & C). exists r. split; auto. split; [apply I|auto]. Qed.

(** pop_front/back_until for strings: the same without the zero-termination part. *)
Lemma pop_until_string dbg v w : valid v -> valid w ->
  (exists p v', pop_front_until dbg v w = Ok (p, v') /\ valid p /\ valid v' /\
    cut_first (occurs (chars v) (chars w)) (length (chars w)) (chars v) (chars p) (chars v')) /\
  (exists p v', pop_front_until_keep dbg v w = Ok (p, v') /\ valid p /\ valid v' /\
    cut_first (occurs (chars v) (chars w)) 0 (chars v) (chars p) (chars v')) /\
  (exists p v', pop_back_until dbg v w = Ok (p, v') /\ valid p /\ valid v' /\
    cut_last (occurs (chars v) (chars w)) (length (chars w)) (chars v) (chars p) (chars v')).
Proof.
  intros V W. split; [|split].
  - destruct (pop_front_until_ok dbg v w V W) as (p & v' & E & I & J & C). exists p, v'. split; auto. split; [apply I|]. split; [apply J|auto].
  - destruct (pop_front_until_keep_ok dbg v w V W) as (p & v' & E & I & J & C). exists p, v'. split; auto. split; [apply I|]. split; [apply J|auto].
  - destruct (pop_back_until_ok dbg v w V W) as (p & v' & E & I & J & C). exists p, v'. split; auto. split; [apply I|]. split; [apply J|auto].
Qed.
Lemma pop_until_char dbg runtime lo v c : valid v -> (runtime = true -> bytes lo (c :: chars v)) ->
  (exists p v', pop_front_until_char dbg runtime v c = Ok (p, v') /\ valid p /\ valid v' /\
    cut_first (char_is (chars v) (fun x => x = c)) 1 (chars v) (chars p) (chars v')) /\
  (exists p v', pop_front_until_char_keep dbg runtime v c = Ok (p, v') /\ valid p /\ valid v' /\
    cut_first (char_is (chars v) (fun x => x = c)) 0 (chars v) (chars p) (chars v')) /\
  (exists p v', pop_back_until_char dbg v c = Ok (p, v') /\ valid p /\ valid v' /\
    cut_last (char_is (chars v) (fun x => x = c)) 1 (chars v) (chars p) (chars v')).
Proof.
  intros V B. split; [|split].
  - exact (pop_front_until_char_ok dbg runtime lo v c V B).
  - exact (pop_front_until_char_keep_ok dbg runtime lo v c V B).
  - destruct (pop_back_until_char_ok dbg v c V) as (p & v' & E & I & J & C). exists p, v'. split; auto. split; [apply I|]. split; [apply J|auto].
Qed.
Lemma pop_until_if dbg v pred : valid v ->
  (exists p v', pop_front_until_if dbg v pred = Ok (p, v') /\ valid p /\ valid v' /\
    cut_first (char_is (chars v) (fun x => pred x = true)) 1 (chars v) (chars p) (chars v')) /\
  (exists p v', pop_front_until_if_keep dbg v pred = Ok (p, v') /\ valid p /\ valid v' /\
    cut_first (char_is (chars v) (fun x => pred x = true)) 0 (chars v) (chars p) (chars v')) /\
  (exists p v', pop_back_until_if dbg v pred = Ok (p, v') /\ valid p /\ valid v' /\
    cut_last (char_is (chars v) (fun x => pred x = true)) 1 (chars v) (chars p) (chars v')).
Proof.
  intros V. split; [|split].
  - exact (pop_front_until_if_ok dbg v pred V).
  - exact (pop_front_until_if_keep_ok dbg v pred V).
  - destruct (pop_back_until_if_ok dbg v pred V) as (p & v' & E & I & J & C). exists p, v'. split; auto. split; [apply I|]. split; [apply J|auto].
Qed.
Lemma remove_until_string v w : valid v -> valid w ->
  (exists v' p, remove_prefix_until v w = Ok v' /\ valid v' /\
    cut_first (occurs (chars v) (chars w)) (length (chars w)) (chars v) p (chars v')) /\
  (exists v' p, remove_prefix_until_keep v w = Ok v' /\ valid v' /\
    cut_first (occurs (chars v) (chars w)) 0 (chars v) p (chars v')).
Proof.
  intros V W. split.
  - destruct (remove_prefix_until_ok v w V W) as (v' & p & E & I & C). exists v', p. split; auto. split; [apply I|auto].
  - exact (remove_prefix_until_keep_ok v w V W).
Qed.
Lemma first_if_exact want v pred pos : valid v -> 0 <= pos ->
  exists r, find_first_if want v pred pos = Ok r /\
    first_where (fun i => pos <= Z.of_nat i /\ char_is (chars v) (fun c => pred c = want) i) r.
Proof. intros V Hp. destruct (find_first_if_ok want v pred pos V Hp) as (r & E & F & _). eauto. Qed.
