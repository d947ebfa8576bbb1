From Verif Require Import Common CommonProofs Ints BitsModel BitQueueProofs StringView StringPop SpecString StringViewProofs StringSearchProofs StringLastProofs StringOtherProofs.
From Coq Require Import ZifyNat.
Open Scope Z_scope.
Local Arguments Z.mul : simpl never.
Local Arguments Z.add : simpl never.
Local Arguments Z.sub : simpl never.
Local Arguments Z.pow : simpl never.
Local Arguments Z.of_nat : simpl never.
Ltac Zify.zify_post_hook ::= Z.div_mod_to_equations.

(** [v'] carries the mark only if [v] does and ends at the same place. *)
Definition inherits (v v' : view) : Prop :=
  valid v' /\ (vzt v' = true -> vzt v = true /\ vmem v' = vmem v /\ voff v' + vsize v' = voff v + vsize v).
Lemma inherits_sound v v' : inherits v v' -> sound v -> sound v'.
Proof.
  intros (V & I) (S1 & S2). split; auto. intros Z. destruct (I Z) as (A & B & C).
  destruct (S2 A) as (l & L1 & L2). exists l. rewrite B, C. auto.
Qed.
Lemma inherits_refl v : valid v -> inherits v v.
Proof. intros V. split; auto. Qed.
Lemma inherits_trans u v w : inherits u v -> inherits v w -> inherits u w.
Proof.
  intros (A1 & A2) (B1 & B2). split; auto. intros Z. destruct (B2 Z) as (C1 & C2 & C3).
  destruct (A2 C1) as (D1 & D2 & D3). rewrite C2, C3. auto.
Qed.
Lemma inherits_unmarked v v' : valid v' -> vzt v' = false -> inherits v v'.
Proof. intros V Z. split; auto. congruence. Qed.

Lemma prefix_i v n : valid v -> 0 <= n ->
  exists v', remove_prefix v n = Ok v' /\ inherits v v' /\ chars v' = skipn (Z.to_nat n) (chars v).
Proof.
  intros V Hn. destruct (remove_prefix_ok v n V Hn) as (v' & E & W & C & M & O & T & S).
  exists v'. split; auto. split; auto. split; auto. intros Z. rewrite T in Z. split; auto. split; auto. lia.
Qed.
Lemma suffix_i v n : valid v -> 0 <= n ->
  inherits v (remove_suffix v n) /\ chars (remove_suffix v n) = firstn (length (chars v) - Z.to_nat n) (chars v).
Proof.
  intros V Hn. destruct (remove_suffix_ok v n V Hn) as (W & C & M & O & T & S). split; auto.
  apply inherits_unmarked; auto.
Qed.
Lemma substr_i dbg v pos count : valid v -> 0 <= pos <= vsize v -> 0 <= count < 2 ^ 64 ->
  exists r, substr dbg v pos count = Ok r /\ inherits v r /\
    chars r = firstn (Z.to_nat count) (skipn (Z.to_nat pos) (chars v)).
Proof.
  intros V Hp Hc. destruct (substr_ok dbg v pos count V Hp Hc) as (r & E & R & C & M & O & T & S).
  exists r. split; auto. split; auto. apply inherits_unmarked; auto.
Qed.

Lemma npos_val : npos = 2 ^ 64 - 1. Proof. reflexivity. Qed.
Lemma npos_ge v : valid v -> (length (chars v) <= Z.to_nat npos)%nat.
Proof. intros V. pose proof (chars_length v V). pose proof (vsize_range v). rewrite npos_val. lia. Qed.

(** * pop_front and pop_back *)
Lemma pop_front_ok dbg v n : valid v -> 0 <= n < 2 ^ 64 ->
  exists r v', pop_front dbg v n = Ok (r, v') /\ inherits v r /\ inherits v v' /\
    chars r = firstn (Z.to_nat n) (chars v) /\ chars v' = skipn (Z.to_nat n) (chars v).
Proof.
  intros V Hn. pose proof (vsize_range v). unfold pop_front.
  destruct (substr_i dbg v 0 n V ltac:(lia) Hn) as (r & E & I & C). rewrite E. cbn [bind].
  destruct (prefix_i v n V ltac:(lia)) as (v' & E' & I' & C'). rewrite E'. cbn [bind].
  exists r, v'. repeat (split; auto).
Qed.
Lemma pop_back_ok dbg v n : valid v -> 0 <= n < 2 ^ 64 ->
  exists r v', pop_back dbg v n = Ok (r, v') /\ inherits v r /\ inherits v v' /\
    chars r = skipn (length (chars v) - Z.to_nat n) (chars v) /\ chars v' = firstn (length (chars v) - Z.to_nat n) (chars v).
Proof.
  intros V Hn. pose proof (vsize_range v). pose proof (chars_length v V). unfold pop_back. cbv zeta.
  rewrite sz_small by lia.
  destruct (substr_i dbg v (vsize v - Z.min n (vsize v)) npos V ltac:(lia) ltac:(rewrite npos_val; lia)) as (r & E & I & C).
  rewrite E. cbn [bind].
  destruct (suffix_i v (Z.min n (vsize v)) V ltac:(lia)) as (I' & C').
  eexists _, _. split; [reflexivity|]. split; auto. split; auto. rewrite C, C'. split.
  - rewrite firstn_all2 by (rewrite skipn_length, npos_val; lia). f_equal. lia.
  - f_equal. lia.
Qed.

Lemma pop_front_char_ok dbg v c t : valid v -> chars v = c :: t ->
  exists v', pop_front_char dbg v = Ok (c, v') /\ valid v' /\ chars v' = t.
Proof.
  intros V E. unfold pop_front_char. rewrite (front_ok dbg v c t V E). cbn [bind].
  destruct (prefix_i v 1 V ltac:(lia)) as (v' & E' & (V' & _) & C'). rewrite E'. cbn [bind].
  exists v'. split; auto. split; auto. rewrite C', E. reflexivity.
Qed.
Lemma pop_back_char_ok dbg v c t : valid v -> chars v = t ++ [c] ->
  exists v', pop_back_char dbg v = Ok (c, v') /\ valid v' /\ chars v' = t.
Proof.
  intros V E. unfold pop_back_char. rewrite (back_ok dbg v c t V E). cbn [bind].
  destruct (suffix_i v 1 V ltac:(lia)) as ((V' & _) & C').
  eexists. split; [reflexivity|]. split; auto. rewrite C', E, app_length. change (Z.to_nat 1) with 1%nat. simpl.
  replace (length t + 1 - 1)%nat with (length t + 0)%nat by lia. rewrite firstn_app_2. apply app_nil_r.
Qed.

(** * Splitting at the first match *)
Lemma cut_first_intro Q hay r len : first_where Q r -> (forall i, Q i -> (i + len <= length hay)%nat) ->
  Z.of_nat (length hay) < 2 ^ 63 ->
  cut_first Q len hay (firstn (Z.to_nat r) hay) (skipn len (skipn (Z.to_nat r) hay)).
Proof.
  intros F B L. destruct F as [(-> & N)|(i & -> & H & N)].
  - right. split; auto. rewrite firstn_all2, (skipn_all2 hay) by (rewrite npos_val; lia). rewrite skipn_nil. auto.
  - pose proof (B i H). rewrite Nat2Z.id. left. exists (firstn len (skipn i hay)).
    rewrite firstn_skipn, firstn_skipn. split; auto. rewrite !firstn_length, skipn_length.
    replace (Nat.min i (length hay)) with i by lia. split; [lia|]. auto.
Qed.
Lemma cut_first_keep Q hay r : first_where Q r -> (forall i, Q i -> (i <= length hay)%nat) ->
  Z.of_nat (length hay) < 2 ^ 63 ->
  cut_first Q 0 hay (firstn (Z.to_nat r) hay) (skipn (Z.to_nat r) hay).
Proof.
  intros F B L. change (skipn (Z.to_nat r) hay) with (skipn 0 (skipn (Z.to_nat r) hay)).
  apply cut_first_intro; auto. intros i H. rewrite Nat.add_0_r. auto.
Qed.

Lemma first_range Q r (n : Z) : first_where Q r -> (forall i, Q i -> Z.of_nat i <= n) -> n < 2 ^ 63 -> 0 <= r < 2 ^ 64.
Proof. intros [(-> & _)|(i & -> & H & _)] B L; [rewrite npos_val; lia|]. pose proof (B i H). lia. Qed.

Lemma pop_cut_keep dbg v Q r : valid v -> first_where Q r -> (forall i, Q i -> (i <= length (chars v))%nat) ->
  exists p v', pop_front dbg v r = Ok (p, v') /\ inherits v p /\ inherits v v' /\
    cut_first Q 0 (chars v) (chars p) (chars v').
Proof.
  intros V F B. pose proof (chars_length v V). pose proof (vsize_range v).
  destruct (pop_front_ok dbg v r V) as (p & v' & E & I1 & I2 & C1 & C2).
  { apply (first_range Q r (vsize v)); auto; [|lia]. intros i Hi. apply B in Hi. lia. }
  exists p, v'. split; auto. split; auto. split; auto. rewrite C1, C2. apply cut_first_keep; auto. lia.
Qed.
Lemma pop_cut dbg v Q r len : valid v -> first_where Q r -> (forall i, Q i -> (i + Z.to_nat len <= length (chars v))%nat) -> 0 <= len ->
  exists p v1 v', pop_front dbg v r = Ok (p, v1) /\ remove_prefix v1 len = Ok v' /\ inherits v p /\ inherits v v' /\
    cut_first Q (Z.to_nat len) (chars v) (chars p) (chars v').
Proof.
  intros V F B Hl. pose proof (chars_length v V). pose proof (vsize_range v).
  destruct (pop_front_ok dbg v r V) as (p & v1 & E & I1 & I2 & C1 & C2).
  { apply (first_range Q r (vsize v)); auto; [|lia]. intros i Hi. apply B in Hi. lia. }
  destruct (prefix_i v1 len (proj1 I2) Hl) as (v' & E' & I' & C').
  exists p, v1, v'. split; auto. split; auto. split; auto. split; [eapply inherits_trans; eauto|].
  rewrite C1, C', C2. apply cut_first_intro; auto. lia.
Qed.

(** The three kinds of delimiter. *)
Lemma find0 v w : valid v -> valid w -> exists r, sv_find v w 0 = Ok r /\ first_where (occurs (chars v) (chars w)) r.
Proof.
  intros V W. pose proof (vsize_range v). destruct (sv_find_ok v w 0 V W ltac:(lia)) as (r & E & F). exists r. split; auto.
  eapply first_where_ext; [|exact F]. intros i. split; [tauto|]. intros; split; auto; lia.
Qed.
Lemma find0_if want v pred : valid v -> exists r, find_first_if want v pred 0 = Ok r /\
  first_where (char_is (chars v) (fun c => pred c = want)) r.
Proof.
  intros V. destruct (find_first_if_ok want v pred 0 V ltac:(lia)) as (r & E & F & _). exists r. split; auto.
  eapply first_where_ext; [|exact F]. intros i. split; [tauto|]. intros; split; auto; lia.
Qed.
Lemma char_is_lt s P i : char_is s P i -> (i < length s)%nat.
Proof. intros (c & E & _). eapply nth_error_some_lt; eauto. Qed.
Lemma occurs_le s t i : occurs s t i -> (i <= length s)%nat.
Proof. intros H. apply occurs_length in H. lia. Qed.

Lemma pop_front_until_ok dbg v w : valid v -> valid w ->
  exists p v', pop_front_until dbg v w = Ok (p, v') /\ inherits v p /\ inherits v v' /\
    cut_first (occurs (chars v) (chars w)) (length (chars w)) (chars v) (chars p) (chars v').
Proof.
  intros V W. unfold pop_front_until. destruct (find0 v w V W) as (r & E & F). rewrite E. cbn [bind].
  pose proof (vsize_range w).
  destruct (pop_cut dbg v _ r (vsize w) V F) as (p & v1 & v' & E1 & E2 & I1 & I2 & C); [|lia|].
  { intros i H'. rewrite (chars_len w W). apply occurs_length; auto. }
  rewrite E1. cbn [bind]. rewrite E2. cbn [bind]. rewrite (chars_len w W) in C. exists p, v'. auto.
Qed.
Lemma pop_front_until_keep_ok dbg v w : valid v -> valid w ->
  exists p v', pop_front_until_keep dbg v w = Ok (p, v') /\ inherits v p /\ inherits v v' /\
    cut_first (occurs (chars v) (chars w)) 0 (chars v) (chars p) (chars v').
Proof.
  intros V W. unfold pop_front_until_keep. destruct (find0 v w V W) as (r & E & F). rewrite E. cbn [bind].
  apply pop_cut_keep; auto. intros i. apply occurs_le.
Qed.
Lemma pop_front_until_char_ok dbg runtime lo v c : valid v -> (runtime = true -> bytes lo (c :: chars v)) ->
  exists p v', pop_front_until_char dbg runtime v c = Ok (p, v') /\ valid p /\ valid v' /\
    cut_first (char_is (chars v) (fun x => x = c)) 1 (chars v) (chars p) (chars v').
Proof.
  intros V B. unfold pop_front_until_char. destruct (find_char_zero dbg runtime lo v c V B) as (r & E & F). rewrite E. cbn [bind].
  destruct (pop_cut dbg v _ r 1 V F) as (p & v1 & v' & E1 & E2 & I1 & I2 & C); [|lia|].
  { intros i H'. apply char_is_lt in H'. change (Z.to_nat 1) with 1%nat. lia. }
  rewrite E1. cbn [bind]. rewrite E2. cbn [bind]. exists p, v'. split; auto. destruct I1, I2. auto.
Qed.
Lemma pop_front_until_char_keep_ok dbg runtime lo v c : valid v -> (runtime = true -> bytes lo (c :: chars v)) ->
  exists p v', pop_front_until_char_keep dbg runtime v c = Ok (p, v') /\ valid p /\ valid v' /\
    cut_first (char_is (chars v) (fun x => x = c)) 0 (chars v) (chars p) (chars v').
Proof.
  intros V B. unfold pop_front_until_char_keep. destruct (find_char_zero dbg runtime lo v c V B) as (r & E & F). rewrite E. cbn [bind].
  destruct (pop_cut_keep dbg v _ r V F) as (p & v' & E1 & (I1 & _) & (I2 & _) & C).
  { intros i H'. apply char_is_lt in H'. lia. }
  exists p, v'. auto.
Qed.
Lemma pop_front_until_if_keep_ok dbg v pred : valid v ->
  exists p v', pop_front_until_if_keep dbg v pred = Ok (p, v') /\ valid p /\ valid v' /\
    cut_first (char_is (chars v) (fun x => pred x = true)) 0 (chars v) (chars p) (chars v').
Proof.
  intros V. unfold pop_front_until_if_keep, find_first_of_if. destruct (find0_if true v pred V) as (r & E & F). rewrite E. cbn [bind].
  destruct (pop_cut_keep dbg v _ r V F) as (p & v' & E1 & (I1 & _) & (I2 & _) & C).
  { intros i H'. apply char_is_lt in H'. lia. }
  exists p, v'. auto.
Qed.
Lemma pop_front_until_if_ok dbg v pred : valid v ->
  exists p v', pop_front_until_if dbg v pred = Ok (p, v') /\ valid p /\ valid v' /\
    cut_first (char_is (chars v) (fun x => pred x = true)) 1 (chars v) (chars p) (chars v').
Proof.
  intros V. unfold pop_front_until_if, pop_front_until_if_keep, find_first_of_if.
  destruct (find0_if true v pred V) as (r & E & F). rewrite E. cbn [bind].
  destruct (pop_cut dbg v _ r 1 V F) as (p & v1 & v' & E1 & E2 & I1 & I2 & C); [|lia|].
  { intros i H'. apply char_is_lt in H'. change (Z.to_nat 1) with 1%nat. lia. }
  rewrite E1. cbn [bind]. rewrite E2. cbn [bind]. exists p, v'. split; auto. destruct I1, I2. auto.
Qed.

(** pop_front_while: the piece is the maximal leading run. *)
Lemma pop_front_while_if_ok dbg v pred : valid v ->
  exists p v', pop_front_while_if dbg v pred = Ok (p, v') /\ valid p /\ valid v' /\
    cut_first (char_is (chars v) (fun x => pred x = false)) 0 (chars v) (chars p) (chars v').
Proof.
  intros V. unfold pop_front_while_if, find_first_not_of_if. destruct (find0_if false v pred V) as (r & E & F). rewrite E. cbn [bind].
  destruct (pop_cut_keep dbg v _ r V F) as (p & v' & E1 & (I1 & _) & (I2 & _) & C).
  { intros i H'. apply char_is_lt in H'. lia. }
  exists p, v'. auto.
Qed.
Lemma pop_front_while_ok dbg v w : valid v -> valid w ->
  exists p v', pop_front_while dbg v w = Ok (p, v') /\ valid p /\ valid v' /\
    cut_first (char_is (chars v) (fun x => ~ In x (chars w))) 0 (chars v) (chars p) (chars v').
Proof.
  intros V W. unfold pop_front_while. destruct (find_first_not_of_ok dbg v w 0 V W ltac:(lia)) as (r & E & F). rewrite E. cbn [bind].
  apply (first_where_ext _ (char_is (chars v) (fun x => ~ In x (chars w)))) in F.
  2: { intros i. split; [tauto|]. intros; split; auto; lia. }
  destruct (pop_cut_keep dbg v _ r V F) as (p & v' & E1 & (I1 & _) & (I2 & _) & C).
  { intros i H'. apply char_is_lt in H'. lia. }
  exists p, v'. auto.
Qed.

(** * Splitting at the last match *)
Lemma pop_all_ok v : valid v -> exists v', pop_all v = Ok (v, v') /\ inherits v v' /\ chars v' = [].
Proof.
  intros V. unfold pop_all. destruct (prefix_i v npos V ltac:(rewrite npos_val; lia)) as (v' & E & I & C).
  rewrite E. cbn [bind]. exists v'. split; auto. split; auto. rewrite C. apply skipn_all2. apply npos_ge; auto.
Qed.
Lemma split_back_ok dbg v (i : nat) skip keep : valid v -> 0 <= skip -> 0 <= keep ->
  Z.of_nat i + skip <= vsize v -> Z.of_nat i + keep <= vsize v ->
  exists r v', split_back dbg v (Z.of_nat i) skip keep = Ok (r, v') /\ inherits v r /\ inherits v v' /\
    chars r = skipn (i + Z.to_nat skip) (chars v) /\ chars v' = firstn (i + Z.to_nat keep) (chars v).
Proof.
  intros V Hs Hk B1 B2. pose proof (vsize_range v). pose proof (chars_length v V). unfold split_back, substr_from.
  rewrite (sz_small (Z.of_nat i + skip)) by lia. rewrite (sz_small (vsize v - Z.of_nat i)) by lia. rewrite sz_small by lia.
  destruct (substr_i dbg v (Z.of_nat i + skip) npos V ltac:(lia) ltac:(rewrite npos_val; lia)) as (r & E & I & C). rewrite E. cbn [bind].
  destruct (suffix_i v (vsize v - Z.of_nat i - keep) V ltac:(lia)) as (I' & C').
  eexists _, _. split; [reflexivity|]. split; auto. split; auto. rewrite C, C'. split.
  - rewrite firstn_all2 by (rewrite skipn_length, npos_val; lia). f_equal. lia.
  - f_equal. lia.
Qed.

Lemma last_not_npos Q r (n : Z) : last_where Q r -> (forall i, Q i -> Z.of_nat i <= n) -> n < 2 ^ 63 ->
  (r = npos /\ forall i, ~ Q i) \/
  exists i, r = Z.of_nat i /\ Q i /\ (forall j, (i < j)%nat -> ~ Q j) /\ (r =? npos) = false.
Proof.
  intros [(-> & N)|(i & -> & H & N)] B L; [left; auto|]. right. exists i. repeat (split; auto).
  apply Z.eqb_neq. pose proof (B i H). rewrite npos_val. lia.
Qed.
Lemma first_not_npos Q r (n : Z) : first_where Q r -> (forall i, Q i -> Z.of_nat i <= n) -> n < 2 ^ 63 ->
  (r = npos /\ forall i, ~ Q i) \/
  exists i, r = Z.of_nat i /\ Q i /\ (forall j, (j < i)%nat -> ~ Q j) /\ (r =? npos) = false.
Proof.
  intros [(-> & N)|(i & -> & H & N)] B L; [left; auto|]. right. exists i. repeat (split; auto).
  apply Z.eqb_neq. pose proof (B i H). rewrite npos_val. lia.
Qed.

Lemma cut_last_intro (Q : nat -> Prop) hay i len : Q i -> (forall j, (i < j)%nat -> ~ Q j) -> (i + len <= length hay)%nat ->
  cut_last Q len hay (skipn (i + len) hay) (firstn (i + 0) hay).
Proof.
  intros H N L. rewrite Nat.add_0_r. left. exists (firstn len (skipn i hay)).
  rewrite <- skipn_skipn. rewrite firstn_skipn, firstn_skipn. split; auto.
  rewrite !firstn_length, skipn_length. replace (Nat.min i (length hay)) with i by lia. split; [lia|]. auto.
Qed.

Lemma rfind0 v w : valid v -> valid w -> exists r, sv_rfind v w npos = Ok r /\ last_where (occurs (chars v) (chars w)) r.
Proof.
  intros V W. destruct (rfind_ok v w npos V W ltac:(rewrite npos_val; lia)) as (r & E & F). exists r. split; auto.
  eapply last_where_ext; [|exact F]. intros i. split; [tauto|]. intros H; split; auto.
  apply occurs_le in H. pose proof (npos_ge v V). rewrite npos_val in *. lia.
Qed.
Lemma occurs_char s c i : occurs s [c] i <-> char_is s (fun x => x = c) i.
Proof.
  split.
  - intros (a & b & -> & <-). exists c. split; auto. rewrite nth_error_app2, Nat.sub_diag by lia. auto.
  - intros (x & E & ->). apply nth_error_split in E. destruct E as (a & b & -> & L). exists a, b. auto.
Qed.
Lemma rfind0_char v c : valid v -> exists r, sv_rfind_char v c npos = Ok r /\ last_where (char_is (chars v) (fun x => x = c)) r.
Proof.
  intros V. destruct (char_view_valid c) as (W & Cw). destruct (rfind0 v (v_char c) V W) as (r & E & F).
  exists r. split; auto. rewrite Cw in F. eapply last_where_ext; [|exact F]. intros i. apply occurs_char.
Qed.
Lemma find_last0_if dbg v pred : valid v -> exists r, find_last_of_if dbg v pred npos = Ok r /\
  last_where (char_is (chars v) (fun c => pred c = true)) r.
Proof.
  intros V. destruct (find_last_of_if_ok dbg v pred npos V ltac:(rewrite npos_val; lia)) as (r & E & F). exists r. split; auto.
  eapply last_where_ext; [|exact F]. intros i. split; [tauto|]. intros H; split; auto.
  apply char_is_lt in H. pose proof (npos_ge v V). rewrite npos_val in *. lia.
Qed.

Lemma back_cut dbg v Q r len : valid v -> last_where Q r -> (forall i, Q i -> (i + Z.to_nat len <= length (chars v))%nat) -> 0 <= len ->
  exists p v', (if r =? npos then pop_all v else split_back dbg v r len 0) = Ok (p, v') /\ inherits v p /\ inherits v v' /\
    cut_last Q (Z.to_nat len) (chars v) (chars p) (chars v').
Proof.
  intros V F B Hl. pose proof (chars_length v V). pose proof (vsize_range v).
  destruct (last_not_npos Q r (vsize v) F) as [(-> & N)|(i & -> & Hi & N & NP)]; [intros i Hi; apply B in Hi; lia|lia| |].
  - rewrite Z.eqb_refl. destruct (pop_all_ok v V) as (v' & E & I & C). exists v, v'. split; auto.
    split; [apply inherits_refl; auto|]. split; auto. right. auto.
  - rewrite NP. pose proof (B i Hi). destruct (split_back_ok dbg v i len 0 V ltac:(lia) ltac:(lia) ltac:(lia) ltac:(lia)) as (p & v' & E & I1 & I2 & C1 & C2).
    exists p, v'. split; auto. split; auto. split; auto. rewrite C1, C2. apply cut_last_intro; auto.
Qed.

Lemma pop_back_until_ok dbg v w : valid v -> valid w ->
  exists p v', pop_back_until dbg v w = Ok (p, v') /\ inherits v p /\ inherits v v' /\
    cut_last (occurs (chars v) (chars w)) (length (chars w)) (chars v) (chars p) (chars v').
Proof.
  intros V W. unfold pop_back_until. destruct (rfind0 v w V W) as (r & E & F). rewrite E. cbn [bind].
  pose proof (vsize_range w). rewrite <- (chars_len w W). apply back_cut; auto; [|lia].
  intros i Hi. rewrite (chars_len w W). apply occurs_length; auto.
Qed.
Lemma pop_back_until_char_ok dbg v c : valid v ->
  exists p v', pop_back_until_char dbg v c = Ok (p, v') /\ inherits v p /\ inherits v v' /\
    cut_last (char_is (chars v) (fun x => x = c)) 1 (chars v) (chars p) (chars v').
Proof.
  intros V. unfold pop_back_until_char. destruct (rfind0_char v c V) as (r & E & F). rewrite E. cbn [bind].
  apply (back_cut dbg v _ r 1 V F); [|lia]. intros i Hi. apply char_is_lt in Hi. change (Z.to_nat 1) with 1%nat. lia.
Qed.
Lemma pop_back_until_if_ok dbg v pred : valid v ->
  exists p v', pop_back_until_if dbg v pred = Ok (p, v') /\ inherits v p /\ inherits v v' /\
    cut_last (char_is (chars v) (fun x => pred x = true)) 1 (chars v) (chars p) (chars v').
Proof.
  intros V. unfold pop_back_until_if. destruct (find_last0_if dbg v pred V) as (r & E & F). rewrite E. cbn [bind].
  apply (back_cut dbg v _ r 1 V F); [|lia]. intros i Hi. apply char_is_lt in Hi. change (Z.to_nat 1) with 1%nat. lia.
Qed.
(** The nodiscard overload for predicates: the delimiter ends up in the piece. *)
Lemma pop_back_until_if_keep_ok dbg v pred : valid v ->
  exists p v', pop_back_until_if_keep dbg v pred = Ok (p, v') /\ inherits v p /\ inherits v v' /\
    cut_last (char_is (chars v) (fun x => pred x = true)) 0 (chars v) (chars p) (chars v').
Proof.
  intros V. unfold pop_back_until_if_keep. destruct (find_last0_if dbg v pred V) as (r & E & F). rewrite E. cbn [bind].
  apply (back_cut dbg v _ r 0 V F); [|lia]. intros i Hi. apply char_is_lt in Hi. change (Z.to_nat 0) with 0%nat. lia.
Qed.

(** * try_pop *)

Lemma try_front_cut dbg v Q r len : valid v -> first_where Q r -> (forall i, Q i -> (i + Z.to_nat len <= length (chars v))%nat) -> 0 <= len ->
  try_front Q (Z.to_nat len) v
    (if r =? npos then Ok (v_null, v)
     else ' (p, v1) <- pop_front dbg v r ;; v2 <- remove_prefix v1 len ;; Ok (p, v2)).
Proof.
  intros V F B Hl. pose proof (chars_length v V). pose proof (vsize_range v).
  destruct (first_not_npos Q r (vsize v) F) as [(-> & N)|(i & -> & Hi & N & NP)]; [intros i Hi; apply B in Hi; lia|lia| |].
  - rewrite Z.eqb_refl. split; auto. intros i Hi. exfalso. apply (N i); auto.
  - rewrite NP. split; [intros N'; exfalso; apply (N' i); auto|]. intros _ _.
    destruct (pop_cut dbg v Q (Z.of_nat i) len V F B Hl) as (p & v1 & v' & E1 & E2 & (I1 & _) & (I2 & _) & C).
    rewrite E1. cbn [bind]. rewrite E2. cbn [bind]. exists p, v'. auto.
Qed.
Lemma try_front_keep dbg v Q r : valid v -> first_where Q r -> (forall i, Q i -> (i <= length (chars v))%nat) ->
  try_front Q 0 v (if r =? npos then Ok (v_null, v) else pop_front dbg v r).
Proof.
  intros V F B. pose proof (chars_length v V). pose proof (vsize_range v).
  destruct (first_not_npos Q r (vsize v) F) as [(-> & N)|(i & -> & Hi & N & NP)]; [intros i Hi; apply B in Hi; lia|lia| |].
  - rewrite Z.eqb_refl. split; auto. intros i Hi. exfalso. apply (N i); auto.
  - rewrite NP. split; [intros N'; exfalso; apply (N' i); auto|]. intros _ _.
    destruct (pop_cut_keep dbg v Q (Z.of_nat i) V F B) as (p & v' & E1 & (I1 & _) & (I2 & _) & C).
    exists p, v'. auto.
Qed.

Lemma try_pop_front_until_ok dbg v w : valid v -> valid w ->
  try_front (occurs (chars v) (chars w)) (length (chars w)) v (try_pop_front_until dbg v w) /\
  try_front (occurs (chars v) (chars w)) 0 v (try_pop_front_until_keep dbg v w).
Proof.
  intros V W. unfold try_pop_front_until, try_pop_front_until_keep. destruct (find0 v w V W) as (r & E & F). rewrite E. cbn [bind].
  pose proof (vsize_range w). split.
  - rewrite <- (chars_len w W). apply try_front_cut; auto; [|lia].
    intros i Hi. rewrite (chars_len w W). apply occurs_length; auto.
  - apply try_front_keep; auto. intros i. apply occurs_le.
Qed.
Lemma try_pop_front_until_char_ok dbg runtime lo v c : valid v -> (runtime = true -> bytes lo (c :: chars v)) ->
  try_front (char_is (chars v) (fun x => x = c)) 1 v (try_pop_front_until_char dbg runtime v c) /\
  try_front (char_is (chars v) (fun x => x = c)) 0 v (try_pop_front_until_char_keep dbg runtime v c).
Proof.
  intros V B. unfold try_pop_front_until_char, try_pop_front_until_char_keep.
  destruct (find_char_zero dbg runtime lo v c V B) as (r & E & F). rewrite E. cbn [bind]. split.
  - apply (try_front_cut dbg v _ r 1 V F); [|lia]. intros i Hi. apply char_is_lt in Hi. change (Z.to_nat 1) with 1%nat. lia.
  - apply try_front_keep; auto. intros i Hi. apply char_is_lt in Hi. lia.
Qed.
Lemma try_pop_front_until_if_keep_ok dbg v pred : valid v ->
  try_front (char_is (chars v) (fun x => pred x = true)) 0 v (try_pop_front_until_if_keep dbg v pred).
Proof.
  intros V. unfold try_pop_front_until_if_keep, find_first_of_if.
  destruct (find0_if true v pred V) as (r & E & F). rewrite E. cbn [bind].
  apply try_front_keep; auto. intros i Hi. apply char_is_lt in Hi. lia.
Qed.
(** The discarding overload for predicates: right when something is found, but it
    removes one character when nothing is. *)
Lemma try_pop_front_until_if_found dbg v pred i : valid v -> char_is (chars v) (fun x => pred x = true) i ->
  exists p v', try_pop_front_until_if dbg v pred = Ok (p, v') /\ valid p /\ valid v' /\
    cut_first (char_is (chars v) (fun x => pred x = true)) 1 (chars v) (chars p) (chars v').
Proof.
  intros V Hi. unfold try_pop_front_until_if, try_pop_front_until_if_keep, find_first_of_if.
  destruct (find0_if true v pred V) as (r & E & F). rewrite E. cbn [bind].
  destruct (try_front_cut dbg v _ r 1 V F) as (_ & T); [|lia|].
  { intros j Hj. apply char_is_lt in Hj. change (Z.to_nat 1) with 1%nat. lia. }
  specialize (T i Hi). destruct (r =? npos) eqn:NP; [|exact T].
  apply Z.eqb_eq in NP. subst r. exfalso. pose proof (chars_length v V). pose proof (vsize_range v).
  destruct (first_not_npos _ _ (vsize v) F) as [(_ & N)|(j & Ej & _ & _ & NP)]; [intros j Hj; apply char_is_lt in Hj; lia|lia| |].
  - apply (N i); auto.
  - rewrite Z.eqb_refl in NP. discriminate.
Qed.
Lemma try_pop_front_until_if_absent dbg v pred : valid v -> (forall i, ~ char_is (chars v) (fun x => pred x = true) i) ->
  exists v', try_pop_front_until_if dbg v pred = Ok (v_null, v') /\ chars v' = skipn 1 (chars v).
Proof.
  intros V N. unfold try_pop_front_until_if. destruct (try_pop_front_until_if_keep_ok dbg v pred V) as (A & _).
  rewrite (A N). cbn [bind]. destruct (prefix_i v 1 V ltac:(lia)) as (v' & E & _ & C). rewrite E. cbn [bind]. eauto.
Qed.

Lemma try_back_cut dbg v Q r len : valid v -> last_where Q r -> (forall i, Q i -> (i + Z.to_nat len <= length (chars v))%nat) -> 0 <= len ->
  try_back Q (Z.to_nat len) v (if r =? npos then Ok (v_null, v) else split_back dbg v r len 0).
Proof.
  intros V F B Hl. pose proof (chars_length v V). pose proof (vsize_range v).
  destruct (last_not_npos Q r (vsize v) F) as [(-> & N)|(i & -> & Hi & N & NP)]; [intros i Hi; apply B in Hi; lia|lia| |].
  - rewrite Z.eqb_refl. split; auto. intros i Hi. exfalso. apply (N i); auto.
  - rewrite NP. split; [intros N'; exfalso; apply (N' i); auto|]. intros _ _.
    pose proof (back_cut dbg v Q (Z.of_nat i) len V F B Hl) as (p & v' & E & (I1 & _) & (I2 & _) & C).
    rewrite NP in E. exists p, v'. auto.
Qed.
Lemma try_pop_back_until_ok dbg v w : valid v -> valid w ->
  try_back (occurs (chars v) (chars w)) (length (chars w)) v (try_pop_back_until dbg v w).
Proof.
  intros V W. unfold try_pop_back_until. destruct (rfind0 v w V W) as (r & E & F). rewrite E. cbn [bind].
  pose proof (vsize_range w). rewrite <- (chars_len w W). apply try_back_cut; auto; [|lia].
  intros i Hi. rewrite (chars_len w W). apply occurs_length; auto.
Qed.
Lemma try_pop_back_until_char_ok dbg v c : valid v ->
  try_back (char_is (chars v) (fun x => x = c)) 0 v (try_pop_back_until_char dbg v c).
Proof.
  intros V. unfold try_pop_back_until_char. destruct (rfind0_char v c V) as (r & E & F). rewrite E. cbn [bind].
  apply (try_back_cut dbg v _ r 0 V F); [|lia]. intros i Hi. apply char_is_lt in Hi. change (Z.to_nat 0) with 0%nat. lia.
Qed.
Lemma try_pop_back_until_if_ok dbg v pred : valid v ->
  try_back (char_is (chars v) (fun x => pred x = true)) 0 v (try_pop_back_until_if dbg v pred).
Proof.
  intros V. unfold try_pop_back_until_if. destruct (find_last0_if dbg v pred V) as (r & E & F). rewrite E. cbn [bind].
  apply (try_back_cut dbg v _ r 0 V F); [|lia]. intros i Hi. apply char_is_lt in Hi. change (Z.to_nat 0) with 0%nat. lia.
Qed.
(** The nodiscard overloads for characters and predicates duplicate the delimiter. *)
Lemma dup_delim dbg v Q r : valid v -> last_where Q r -> (forall i, Q i -> (i < length (chars v))%nat) ->
  ((forall i, ~ Q i) -> (if r =? npos then Ok (v_null, v) else split_back dbg v r 0 1) = Ok (v_null, v)) /\
  (forall i, Q i -> exists p v' a d b, (if r =? npos then Ok (v_null, v) else split_back dbg v r 0 1) = Ok (p, v') /\
     chars v = a ++ d :: b /\ chars p = d :: b /\ chars v' = a ++ [d] /\ Q (length a)).
Proof.
  intros V F B. pose proof (chars_length v V). pose proof (vsize_range v).
  destruct (last_not_npos Q r (vsize v) F) as [(-> & N)|(i & -> & Hi & N & NP)]; [intros i Hi; apply B in Hi; lia|lia| |].
  - rewrite Z.eqb_refl. split; auto. intros i Hi. exfalso. apply (N i); auto.
  - rewrite NP. split; [intros N'; exfalso; apply (N' i); auto|]. intros _ _.
    pose proof (B i Hi). destruct (split_back_ok dbg v i 0 1 V ltac:(lia) ltac:(lia) ltac:(lia) ltac:(lia)) as (p & v' & E & I1 & I2 & C1 & C2).
    destruct (nth_get (chars v) i) as (d & Ed); [lia|]. apply nth_error_split in Ed. destruct Ed as (a & b & Es & La).
    exists p, v', a, d, b. split; auto. split; auto. rewrite Es in C1, C2. subst i.
    change (Z.to_nat 0) with 0%nat in C1. change (Z.to_nat 1) with 1%nat in C2. rewrite Nat.add_0_r in C1.
    rewrite skipn_app, skipn_all, Nat.sub_diag in C1. rewrite firstn_app_2 in C2. auto.
Qed.

(** * remove_prefix_until: the same rest as the pop. *)
Lemma remove_prefix_until_ok v w : valid v -> valid w ->
  exists v' p, remove_prefix_until v w = Ok v' /\ inherits v v' /\
    cut_first (occurs (chars v) (chars w)) (length (chars w)) (chars v) p (chars v').
Proof.
  intros V W. unfold remove_prefix_until. destruct (find0 v w V W) as (r & E & F). rewrite E. cbn [bind].
  pose proof (vsize_range w). pose proof (vsize_range v). pose proof (chars_length v V).
  assert (0 <= r < 2 ^ 64).
  { apply (first_range _ r (vsize v) F); [|lia]. intros i Hi. apply occurs_le in Hi. lia. }
  destruct (prefix_i v r V ltac:(lia)) as (v1 & E1 & I1 & C1). rewrite E1. cbn [bind].
  destruct (prefix_i v1 (vsize w) (proj1 I1) ltac:(lia)) as (v2 & E2 & I2 & C2). rewrite E2.
  exists v2, (firstn (Z.to_nat r) (chars v)). split; auto. split; [eapply inherits_trans; eauto|].
  rewrite C2, C1, (chars_len w W). apply cut_first_intro; auto; [|lia]. intros i. apply occurs_length.
Qed.
Lemma remove_prefix_until_keep_ok v w : valid v -> valid w ->
  exists v' p, remove_prefix_until_keep v w = Ok v' /\ valid v' /\
    cut_first (occurs (chars v) (chars w)) 0 (chars v) p (chars v').
Proof.
  intros V W. unfold remove_prefix_until_keep. destruct (find0 v w V W) as (r & E & F). rewrite E. cbn [bind].
  pose proof (vsize_range v). pose proof (chars_length v V).
  assert (0 <= r < 2 ^ 64).
  { apply (first_range _ r (vsize v) F); [|lia]. intros i Hi. apply occurs_le in Hi. lia. }
  destruct (prefix_i v r V ltac:(lia)) as (v1 & E1 & (I1 & _) & C1). rewrite E1.
  exists v1, (firstn (Z.to_nat r) (chars v)). split; auto. split; auto.
  rewrite C1. apply cut_first_keep; auto; [|lia]. intros i. apply occurs_le.
Qed.
Lemma remove_prefix_until_char_ok dbg runtime lo v c : valid v -> (runtime = true -> bytes lo (c :: chars v)) ->
  exists v' p, remove_prefix_until_char dbg runtime v c = Ok v' /\ valid v' /\
    cut_first (char_is (chars v) (fun x => x = c)) 1 (chars v) p (chars v').
Proof.
  intros V B. unfold remove_prefix_until_char. destruct (find_char_zero dbg runtime lo v c V B) as (r & E & F). rewrite E. cbn [bind].
  pose proof (vsize_range v). pose proof (chars_length v V).
  assert (0 <= r < 2 ^ 64).
  { apply (first_range _ r (vsize v) F); [|lia]. intros i Hi. apply char_is_lt in Hi. lia. }
  destruct (prefix_i v r V ltac:(lia)) as (v1 & E1 & I1 & C1). rewrite E1. cbn [bind].
  destruct (prefix_i v1 1 (proj1 I1) ltac:(lia)) as (v2 & E2 & (I2 & _) & C2). rewrite E2.
  exists v2, (firstn (Z.to_nat r) (chars v)). split; auto. split; auto.
  rewrite C2, C1. apply cut_first_intro; auto; [|lia]. intros i Hi. apply char_is_lt in Hi. lia.
Qed.
Lemma remove_prefix_until_if_ok v pred : valid v ->
  exists v' p, remove_prefix_until_if v pred = Ok v' /\ valid v' /\
    cut_first (char_is (chars v) (fun x => pred x = true)) 1 (chars v) p (chars v').
Proof.
  intros V. unfold remove_prefix_until_if, find_first_of_if. destruct (find0_if true v pred V) as (r & E & F). rewrite E. cbn [bind].
  pose proof (vsize_range v). pose proof (chars_length v V).
  assert (0 <= r < 2 ^ 64).
  { apply (first_range _ r (vsize v) F); [|lia]. intros i Hi. apply char_is_lt in Hi. lia. }
  destruct (prefix_i v r V ltac:(lia)) as (v1 & E1 & I1 & C1). rewrite E1. cbn [bind].
  destruct (prefix_i v1 1 (proj1 I1) ltac:(lia)) as (v2 & E2 & (I2 & _) & C2). rewrite E2.
  exists v2, (firstn (Z.to_nat r) (chars v)). split; auto. split; auto.
  rewrite C2, C1. apply cut_first_intro; auto; [|lia]. intros i Hi. apply char_is_lt in Hi. lia.
Qed.

Lemma c69_pop_char_unsafe_partial_l :
  forall v c t, valid v ->
  (chars v = c :: t -> exists v', pop_front_char_unsafe false v = Ok (c, v') /\ valid v' /\ chars v' = t) /\
  (chars v = t ++ [c] -> exists v', pop_back_char_unsafe false v = Ok (c, v') /\ valid v' /\ chars v' = t).
Proof.
  intros v c t V. assert (L := chars_length v V). split; intros E.
  - destruct (pop_front_char_ok false v c t V E) as (v' & P & Q). exists v'. split; [|exact Q].
    unfold pop_front_char, pop_front_char_unsafe, remove_prefix, remove_prefix_unsafe in *. rewrite E in L. cbn [length] in L.
    rewrite Z.min_l in P by lia. exact P.
  - destruct (pop_back_char_ok false v c t V E) as (v' & P & Q). exists v'. split; [|exact Q].
    unfold pop_back_char, pop_back_char_unsafe, remove_suffix, remove_suffix_unsafe in *. rewrite E, app_length in L. cbn [length] in L.
    rewrite Z.min_l in P by lia. exact P.
Qed.

Lemma c69_pop_char_checked_l :
  forall v, valid v -> chars v = [] -> pop_front_char_unsafe true v = Throw /\ pop_back_char_unsafe true v = Throw.
Proof.
  intros v V E. pose proof (chars_length v V) as L. rewrite E in L. cbn [length] in L. unfold pop_front_char_unsafe, pop_back_char_unsafe.
  replace (1 <=? vsize v) with false by lia. split; reflexivity.
Qed.

Lemma c29_pop_back_if_keep_partial_l :
  forall dbg v pred, valid v ->
  exists p v', pop_back_until_if_keep dbg v pred = Ok (p, v') /\ valid p /\ valid v' /\
    cut_last (char_is (chars v) (fun x => pred x = true)) 0 (chars v) (chars p) (chars v').
Proof.
  intros dbg v pred V. destruct (pop_back_until_if_keep_ok dbg v pred V) as (p & v' & E & (A & _) & (B & _) & C).
  exists p, v'. auto.
Qed.

Lemma c69_checks_pass_l :
  forall v, valid v -> chars v <> [] ->
  pop_front_char_unsafe true v = pop_front_char_unsafe false v /\
  pop_back_char_unsafe true v = pop_back_char_unsafe false v.
Proof.
  intros v V N. pose proof (chars_length v V) as L. assert (P : 0 < vsize v) by (destruct (chars v); [contradiction | cbn [length] in L; lia]).
  unfold pop_front_char_unsafe, pop_back_char_unsafe, sv_front, sv_back, remove_prefix_unsafe, remove_suffix_unsafe, chk, vempty.
  destruct (Z.leb_spec 1 (vsize v)); [|lia]. destruct (Z.eqb_spec (vsize v) 0); [lia|]. split; reflexivity.
Qed.
