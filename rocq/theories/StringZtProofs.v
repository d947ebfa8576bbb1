From Verif Require Import Common CommonProofs Ints BitsModel BitQueueProofs StringView StringPop SpecString SpecStringOps StringViewProofs StringSearchProofs StringLastProofs StringOtherProofs StringPopProofs.
From Coq Require Import ZifyNat.
Open Scope Z_scope.
Local Arguments Z.mul : simpl never.
Local Arguments Z.add : simpl never.
Local Arguments Z.sub : simpl never.
Local Arguments Z.pow : simpl never.
Local Arguments Z.of_nat : simpl never.
Ltac Zify.zify_post_hook ::= Z.div_mod_to_equations.

Lemma vsize_plain m o n : 0 <= n < 2 ^ 63 -> vsize (View m o n) = n /\ vzt (View m o n) = false.
Proof.
  intros H. rewrite vsize_mod. unfold vzt, zt_offset. cbn [vlast]. split; [lia|].
  destruct (Z.ltb_spec n (2 ^ 63)); auto; lia.
Qed.
Lemma vsize_marked m o n : 0 <= n < 2 ^ 63 -> vsize (View m o (n + 2 ^ 63)) = n /\ vzt (View m o (n + 2 ^ 63)) = true.
Proof.
  intros H. rewrite vsize_mod. unfold vzt, zt_offset. cbn [vlast]. split; [lia|].
  destruct (Z.ltb_spec (n + 2 ^ 63) (2 ^ 63)); auto; lia.
Qed.

Lemma rdp_some l o c : rdp (Some l) o = Ok c -> nth_error l (Z.to_nat o) = Some c.
Proof. simpl. destruct (o <? 0); [discriminate|]. unfold rd. destruct (nth_error l (Z.to_nat o)); [intros H; inv H; auto|discriminate]. Qed.

(** * Marking *)
Lemma set_zt_ok dbg l f n r : 0 <= n < 2 ^ 63 -> set_zt dbg (Some l) f n = Ok r ->
  r = n + 2 ^ 63 /\ (dbg = true -> nth_error l (Z.to_nat (f + n)) = Some 0).
Proof.
  intros Hn. unfold set_zt, zt_offset. destruct (Z.leb_spec (2 ^ 63) n); [lia|].
  rewrite sz_small by lia. destruct dbg.
  - destruct (rdp (Some l) (f + n)) eqn:R; cbn [bind]; try discriminate.
    destruct (Z.eqb_spec a 0); cbn [bind]; [|discriminate]. intros H1; inv H1. split; auto. intros _.
    apply rdp_some; auto.
  - cbn [bind]. intros H1; inv H1. split; auto. discriminate.
Qed.

Lemma substr_unsafe_cases dbg v pos count r : valid v -> 0 <= pos -> 0 <= count -> pos + count <= vsize v ->
  substr_unsafe dbg v pos count = Ok r ->
  valid r /\ chars r = firstn (Z.to_nat count) (skipn (Z.to_nat pos) (chars v)) /\
  vmem r = vmem v /\ voff r = voff v + pos /\ vsize r = count /\ (dbg = true -> vzt r = true -> terminated r).
Proof.
  intros V Hp Hc Hs. pose proof (vsize_range v). pose proof (chars_length v V) as CL. unfold substr_unsafe, chk.
  rewrite !(sz_small (pos + count)) by lia. destruct (Z.leb_spec (pos + count) (vsize v)); [|lia]. cbn [negb].
  rewrite andb_false_r. cbn [bind]. rewrite padd_ok by (auto; lia). cbn [bind].
  rewrite (hold_padd _ _ _ _ (hold_at v pos V ltac:(lia))) by (rewrite skipn_length; lia). cbn [bind].
  unfold v_between_zt, v_between. replace (voff v + pos + count - (voff v + pos)) with count by lia. rewrite sz_small by lia.
  assert (PL : forall l, l = count \/ l = count + 2 ^ 63 -> (vmem v = None -> l = 0) ->
    valid (View (vmem v) (voff v + pos) l) /\
    chars (View (vmem v) (voff v + pos) l) = firstn (Z.to_nat count) (skipn (Z.to_nat pos) (chars v)) /\
    vsize (View (vmem v) (voff v + pos) l) = count).
  { intros l Hl Hnull. destruct (mk_view v pos count V Hp Hc Hs l) as (A & B); [lia|lia|auto|].
    split; auto. split; auto. rewrite vsize_mod. cbn [vlast]. lia. }
  destruct (Z.eqb_spec (pos + count) (vsize v)).
  - destruct (vmem v) as [l|] eqn:M.
    + destruct (set_zt dbg (Some l) (voff v + pos) count) eqn:S; cbn [bind]; try discriminate. intros H1; inv H1.
      apply set_zt_ok in S; [|lia]. destruct S as (-> & T).
      destruct (PL (count + 2 ^ 63)) as (A & B & C); [auto|discriminate|]. cbn [vmem voff].
      split; [exact A|]. split; [exact B|]. split; auto. split; auto. split; [exact C|]. intros D _. exists l. split; auto.
      rewrite C. cbn [voff]. auto.
    + simpl set_zt. cbn [bind]. intros H1; inv H1. destruct (null_size v V M) as (Z1 & Z2 & Z3).
      destruct (PL count) as (A & B & C); [auto|intros; lia|]. cbn [vmem voff].
      split; [exact A|]. split; [exact B|]. split; auto. split; auto. split; [exact C|]. intros _ Zt.
      destruct (vsize_plain None (voff v + pos) count ltac:(lia)) as (_ & K). congruence.
  - intros H1; inv H1. destruct (PL count) as (A & B & C); [auto|intros Hn; destruct (null_size v V Hn); lia|]. cbn [vmem voff].
    split; [exact A|]. split; [exact B|]. split; auto. split; auto. split; [exact C|]. intros _ Zt.
    destruct (vsize_plain (vmem v) (voff v + pos) count ltac:(lia)) as (_ & K). congruence.
Qed.

(** In a release build substr( ) marks any view. *)
Lemma substr_all_marks v l : valid v -> vmem v = Some l ->
  exists r, substr_all false v = Ok r /\ vzt r = true /\ vmem r = vmem v /\ voff r = voff v /\ vsize r = vsize v /\ chars r = chars v.
Proof.
  intros V M. pose proof (vsize_range v). pose proof (chars_length v V). unfold substr_all.
  assert (exists r, substr_unsafe false v 0 (vsize v) = Ok r /\ vzt r = true) as (r & E & Z).
  { unfold substr_unsafe, chk. cbn [andb bind]. rewrite padd_ok by (auto; lia). cbn [bind]. rewrite Z.add_0_r.
    rewrite padd_ok by (auto; lia). cbn [bind]. rewrite sz_small by lia. rewrite Z.add_0_l, Z.eqb_refl.
    unfold v_between_zt. replace (voff v + vsize v - voff v) with (vsize v) by lia. rewrite sz_small by lia.
    rewrite M. unfold set_zt, zt_offset. destruct (Z.leb_spec (2 ^ 63) (vsize v)); [lia|]. cbn [bind].
    rewrite sz_small by lia. eexists. split; [reflexivity|]. apply vsize_marked. lia. }
  exists r. split; auto. split; auto.
  destruct (substr_unsafe_cases false v 0 (vsize v) r V ltac:(lia) ltac:(lia) ltac:(lia) E) as (A & B & C & D & F & _).
  rewrite Z.add_0_r in D. split; auto. split; auto. split; auto. rewrite B. simpl skipn. apply firstn_all2. lia.
Qed.
(** In a build with checks it fails on views that are not zero-terminated. *)
Lemma substr_all_dbg v l : valid v -> vmem v = Some l -> ~ terminated v ->
  substr_all true v = Throw \/ substr_all true v = UB.
Proof.
  intros V M T. pose proof (vsize_range v). unfold substr_all, substr_unsafe, chk.
  rewrite sz_small by lia. rewrite Z.add_0_l. destruct (Z.leb_spec (vsize v) (vsize v)); [|lia]. cbn [andb negb bind].
  rewrite padd_ok by (auto; lia). cbn [bind]. rewrite Z.add_0_r. rewrite padd_ok by (auto; lia). cbn [bind].
  rewrite Z.eqb_refl. unfold v_between_zt. replace (voff v + vsize v - voff v) with (vsize v) by lia. rewrite sz_small by lia.
  rewrite M. unfold set_zt, zt_offset. destruct (Z.leb_spec (2 ^ 63) (vsize v)); [lia|].
  destruct (rdp (Some l) (voff v + vsize v)) eqn:R; cbn [bind]; auto.
  - destruct (Z.eqb_spec a 0); cbn [bind]; auto. exfalso. apply T. exists l. split; auto. subst. apply rdp_some; auto.
  - exfalso. simpl in R. destruct (_ <? 0); [discriminate|]. unfold rd in R. destruct (nth_error _ _); discriminate.
Qed.

Lemma mark_sound v r : sound v -> v_mark_zt true v = Ok r -> sound r.
Proof.
  intros (V & S) E. unfold v_mark_zt in E. destruct (vzt v) eqn:Z; [inv E; split; auto|].
  pose proof (last_range v V) as LR.
  assert (vlast v < 2 ^ 63). { unfold vzt, zt_offset in Z. destruct (Z.ltb_spec (vlast v) (2 ^ 63)); auto; discriminate. }
  assert (Sv : vsize v = vlast v) by (rewrite vsize_mod; lia).
  destruct (vmem v) as [l|] eqn:M.
  - destruct (set_zt true (Some l) (voff v) (vlast v)) eqn:K; cbn [bind] in E; try discriminate. inv E.
    apply set_zt_ok in K; [|lia]. destruct K as (-> & T).
    destruct (vsize_marked (Some l) (voff v) (vlast v) ltac:(lia)) as (A & B).
    split.
    + unfold valid in *. rewrite M in V. rewrite A. cbn [vmem voff vlast]. lia.
    + intros _. exists l. rewrite A. cbn [vmem voff]. auto.
  - cbn in E. inv E. split.
    + unfold valid in *. rewrite M in V. cbn [vmem voff vlast]. auto.
    + intros K. destruct (vsize_plain None (voff v) (vlast v) ltac:(lia)) as (_ & K'). congruence.
Qed.

(** * Histories *)
Lemma pick_ok piece r a b : r = Ok (a, b) -> pick piece r = Ok (if piece then a else b).
Proof. intros ->. reflexivity. Qed.

Lemma try_front_inh dbg v w : valid v -> valid w ->
  exists p v', try_pop_front_until dbg v w = Ok (p, v') /\ inherits v p /\ inherits v v'.
Proof.
  intros V W. unfold try_pop_front_until. destruct (find0 v w V W) as (r & E & F). rewrite E. cbn [bind].
  destruct (r =? npos).
  - exists v_null, v. split; auto. split; [|apply inherits_refl; auto]. apply inherits_unmarked; [split; reflexivity|reflexivity].
  - pose proof (vsize_range w).
    destruct (pop_cut dbg v _ r (vsize w) V F) as (p & v1 & v' & E1 & E2 & I1 & I2 & C); [|lia|].
    { intros i H'. rewrite (chars_len w W). apply occurs_length; auto. }
    rewrite E1. cbn [bind]. rewrite E2. cbn [bind]. exists p, v'. auto.
Qed.
Lemma try_back_inh dbg v w : valid v -> valid w ->
  exists p v', try_pop_back_until dbg v w = Ok (p, v') /\ inherits v p /\ inherits v v'.
Proof.
  intros V W. unfold try_pop_back_until. destruct (rfind0 v w V W) as (r & E & F). rewrite E. cbn [bind].
  destruct (r =? npos) eqn:NP.
  - exists v_null, v. split; auto. split; [|apply inherits_refl; auto]. apply inherits_unmarked; [split; reflexivity|reflexivity].
  - pose proof (vsize_range w). destruct (back_cut dbg v _ r (vsize w) V F) as (p & v' & E1 & I1 & I2 & C); [|lia|].
    { intros i H'. rewrite (chars_len w W). apply occurs_length; auto. }
    rewrite NP in E1. exists p, v'. auto.
Qed.

Lemma resize_i dbg v n : valid v -> 0 <= n <= vsize v -> exists v', resize dbg v n = Ok v' /\ inherits v v'.
Proof.
  intros V Hn. destruct (resize_ok dbg v n V Hn) as (v' & E & V' & C & M & O & Z). exists v'. split; auto. split; auto.
  rewrite Z, andb_true_iff, Z.eqb_eq. intros (A & B). split; auto. split; auto.
  pose proof (chars_length v V). pose proof (chars_length v' V'). rewrite C, firstn_length in H0. lia.
Qed.
Lemma prefix_while_i v pred : valid v -> exists v', remove_prefix_while v pred = Ok v' /\ inherits v v'.
Proof.
  intros V. unfold remove_prefix_while, find_first_not_of_if. destruct (find0_if false v pred V) as (r & E & F). rewrite E. cbn [bind].
  assert (0 <= r) by (destruct F as [(-> & _)|(i & -> & _)]; [rewrite npos_val|]; lia).
  destruct (prefix_i v r V ltac:(lia)) as (v' & E' & I & _). eauto.
Qed.
Lemma suffix_while_i dbg v pred : valid v -> exists v', remove_suffix_while dbg v pred = Ok v' /\ inherits v v'.
Proof.
  intros V. pose proof (chars_length v V). pose proof (vsize_range v). unfold remove_suffix_while.
  destruct (find_last_not_of_if_ok v pred npos V) as (r & E & F); [rewrite npos_val; lia|rewrite npos_val; lia|].
  rewrite E. cbn [bind].
  assert (0 <= sz (r + 1) <= vsize v).
  { destruct F as [(-> & _)|(i & -> & (_ & K) & _)].
    - change (sz (npos + 1)) with 0. lia.
    - apply char_is_lt in K. rewrite sz_small by lia. lia. }
  apply resize_i; auto.
Qed.
Lemma trim_i dbg v : valid v -> exists v', trim dbg v = Ok v' /\ inherits v v'.
Proof.
  intros V. unfold trim, trim_prefix, trim_suffix. destruct (prefix_while_i v sv_is_space V) as (v1 & E1 & I1).
  rewrite E1. cbn [bind]. destruct (suffix_while_i dbg v1 sv_is_space (proj1 I1)) as (v2 & E2 & I2). rewrite E2.
  exists v2. split; auto. eapply inherits_trans; eauto.
Qed.
Lemma clear_i v : valid v -> inherits v (sv_clear v).
Proof.
  intros V. apply inherits_unmarked; [|reflexivity]. pose proof (vsize_range v). unfold valid, sv_clear in *. cbn [vmem voff vlast].
  destruct (vmem v); [|tauto]. change (vsize _) with 0 at 1. lia.
Qed.

Lemma safe_step dbg v o : valid v -> vsafe o = true -> vpre v o -> exists v', vstep dbg v o = Ok v' /\ inherits v v'.
Proof.
  intros V S P.
  destruct o; try discriminate S; simpl in P; cbn [vstep].
  - destruct (prefix_i v n V ltac:(lia)) as (v' & E & I & _). eauto.
  - eexists. split; [reflexivity|]. apply (suffix_i v n V ltac:(lia)).
  - apply resize_i; auto.
  - eexists. split; [reflexivity|]. apply clear_i; auto.
  - eexists. split; [reflexivity|]. apply inherits_unmarked; [split; reflexivity|reflexivity].
  - destruct P. destruct (substr_i dbg v pos count V ltac:(auto) ltac:(auto)) as (v' & E & I & _). eauto.
  - destruct (pop_front_ok dbg v count V P) as (p & v' & E & I1 & I2 & _).
    rewrite (pick_ok piece _ _ _ E). eexists. split; [reflexivity|]. destruct piece; auto.
  - destruct (pop_back_ok dbg v count V P) as (p & v' & E & I1 & I2 & _).
    rewrite (pick_ok piece _ _ _ E). eexists. split; [reflexivity|]. destruct piece; auto.
  - destruct (pop_front_until_ok dbg v w V P) as (p & v' & E & I1 & I2 & _).
    rewrite (pick_ok piece _ _ _ E). eexists. split; [reflexivity|]. destruct piece; auto.
  - destruct (pop_back_until_ok dbg v w V P) as (p & v' & E & I1 & I2 & _).
    rewrite (pick_ok piece _ _ _ E). eexists. split; [reflexivity|]. destruct piece; auto.
  - destruct (try_front_inh dbg v w V P) as (p & v' & E & I1 & I2).
    rewrite (pick_ok piece _ _ _ E). eexists. split; [reflexivity|]. destruct piece; auto.
  - destruct (try_back_inh dbg v w V P) as (p & v' & E & I1 & I2).
    rewrite (pick_ok piece _ _ _ E). eexists. split; [reflexivity|]. destruct piece; auto.
  - destruct (remove_prefix_until_ok v w V P) as (v' & p & E & I & _). eauto.
  - apply prefix_while_i; auto.
  - apply suffix_while_i; auto.
  - apply trim_i; auto.
Qed.

Lemma safe_history dbg os : forall v, sound v -> forallb vsafe os = true -> pre_run dbg v os ->
  exists v', vrun dbg v os = Ok v' /\ sound v'.
Proof.
  induction os as [|o os IH]; intros v S F P; simpl.
  - exists v. auto.
  - simpl in F. apply andb_true_iff in F. destruct F as (F1 & F2). destruct P as (P1 & P2).
    destruct (safe_step dbg v o (proj1 S) F1 P1) as (v1 & E & I). rewrite E. cbn [bind].
    apply IH; auto. eapply inherits_sound; eauto.
Qed.

Lemma prefix_unsafe_i dbg v n v' : valid v -> 0 <= n <= vsize v -> remove_prefix_unsafe dbg v n = Ok v' ->
  inherits v v' /\ chars v' = skipn (Z.to_nat n) (chars v).
Proof.
  intros V Hn. unfold remove_prefix_unsafe, chk. destruct (Z.leb_spec n (vsize v)); [|lia]. cbn [negb]. rewrite andb_false_r. cbn [bind].
  destruct (dec_front_ok v n V Hn) as (v1 & E & W & C & M & O & T & S). rewrite E. intros K; inv K. split; auto. split; auto.
  intros Z. rewrite T in Z. split; auto. split; auto. lia.
Qed.
Lemma suffix_unsafe_i dbg v n v' : valid v -> 0 <= n <= vsize v -> remove_suffix_unsafe dbg v n = Ok v' ->
  inherits v v' /\ chars v' = firstn (length (chars v) - Z.to_nat n) (chars v).
Proof.
  intros V Hn. unfold remove_suffix_unsafe, chk. destruct (Z.leb_spec n (vsize v)); [|lia]. cbn [negb]. rewrite andb_false_r. cbn [bind].
  intros K; inv K. destruct (dec_back_ok v n V Hn) as (W & C & M & O & T & S). split; [apply inherits_unmarked; auto|].
  rewrite C. f_equal. pose proof (chars_length v V). lia.
Qed.

Lemma substr_unsafe_from_cases dbg v pos r : valid v -> 0 <= pos <= vsize v -> substr_unsafe_from dbg v pos = Ok r ->
  valid r /\ chars r = skipn (Z.to_nat pos) (chars v) /\ (dbg = true -> vzt r = true -> terminated r).
Proof.
  intros V Hp. pose proof (vsize_range v). pose proof (chars_length v V). unfold substr_unsafe_from, chk.
  destruct (Z.leb_spec pos (vsize v)); [|lia]. cbn [negb]. rewrite andb_false_r. cbn [bind]. rewrite sz_small by lia. intros E.
  destruct (substr_unsafe_cases dbg v pos (vsize v - pos) r V ltac:(lia) ltac:(lia) ltac:(lia) E) as (A & B & _ & _ & _ & D).
  split; auto. split; auto. rewrite B. apply firstn_all2. rewrite skipn_length. lia.
Qed.

Lemma dbg_step v o v' : sound v -> vpre v o -> vstep true v o = Ok v' -> sound v'.
Proof.
  intros S P E. destruct (vsafe o) eqn:F.
  - destruct (safe_step true v o (proj1 S) F P) as (v1 & E1 & I). rewrite E in E1. inv E1. eapply inherits_sound; eauto.
  - pose proof (proj1 S) as V. pose proof (vsize_range v). destruct o; try discriminate F; simpl in P; cbn [vstep] in E.
    + unfold substr_all in E. destruct (substr_unsafe_cases true v 0 (vsize v) v' V ltac:(lia) ltac:(lia) ltac:(lia) E) as (A & _ & _ & _ & _ & D).
      split; auto.
    + destruct P as (P1 & P2 & P3).
      destruct (substr_unsafe_cases true v pos count v' V P1 P2 P3 E) as (A & _ & _ & _ & _ & D). split; auto.
    + destruct (substr_unsafe_from_cases true v pos v' V P E) as (A & _ & D). split; auto.
    + unfold pop_front_unsafe, pick, chk in E. destruct (Z.leb_spec count (vsize v)); [|lia]. cbn [andb negb bind] in E.
      destruct (substr_unsafe_from true v 0) as [r| | |] eqn:E1; cbn [bind] in E; try discriminate.
      destruct (remove_prefix_unsafe true v count) as [v1| | |] eqn:E2; cbn [bind] in E; try discriminate. inv E.
      destruct (substr_unsafe_from_cases true v 0 r V ltac:(lia) E1) as (A & _ & D).
      destruct (prefix_unsafe_i true v count v1 V P E2) as (I & _).
      destruct piece; [split; auto|eapply inherits_sound; eauto].
    + unfold pop_back_unsafe, pick, chk in E. destruct (Z.leb_spec count (vsize v)); [|lia]. cbn [andb negb bind] in E.
      rewrite sz_small in E by lia.
      destruct (substr_unsafe true v (vsize v - count) count) as [r| | |] eqn:E1; cbn [bind] in E; try discriminate.
      destruct (remove_suffix_unsafe true v count) as [v1| | |] eqn:E2; cbn [bind] in E; try discriminate. inv E.
      destruct (substr_unsafe_cases true v (vsize v - count) count r V ltac:(lia) ltac:(lia) ltac:(lia) E1) as (A & _ & _ & _ & _ & D).
      destruct (suffix_unsafe_i true v count v1 V P E2) as (I & _).
      destruct piece; [split; auto|eapply inherits_sound; eauto].
    + apply (mark_sound v); auto.
Qed.
Lemma dbg_history os : forall v v', sound v -> pre_run true v os -> vrun true v os = Ok v' -> sound v'.
Proof.
  induction os as [|o os IH]; intros v v' S P E; simpl in E; [inv E; auto|].
  destruct P as (P1 & P2). destruct (vstep true v o) as [v1| | |] eqn:E1; cbn [bind] in E; try discriminate.
  apply (IH v1); auto. eapply dbg_step; eauto.
Qed.

(** * Constructors *)
Lemma strlen_ok l b : forall s p str fuel, hold (Some l) p (s ++ 0 :: b) -> ~ In 0 s -> (length s < fuel)%nat -> str <= p ->
  p - str + Z.of_nat (length s) < 2 ^ 63 ->
  strlen_loop fuel (Some l) str p = Ok (p - str + Z.of_nat (length s)).
Proof.
  induction s as [|c s IH]; intros p str fuel H N F L B; (destruct fuel as [|fuel]; [simpl in F; lia|]); cbn [strlen_loop].
  - simpl app in H. apply hold_cons in H. destruct H as (E & _). rewrite E. cbn [bind]. simpl negb. cbn iota.
    simpl in B. rewrite sz_small by lia. f_equal. simpl. lia.
  - simpl app in H. apply hold_cons in H. destruct H as (E & H). rewrite E. cbn [bind].
    destruct (Z.eqb_spec c 0); [subst; exfalso; apply N; simpl; auto|]. cbn [negb].
    rewrite IH; auto; simpl in *; try lia.
    + f_equal. lia.
    + intros K. apply N. auto.
Qed.

Lemma cstr_ok dbg a s b : ~ In 0 s -> Z.of_nat (length (a ++ s ++ 0 :: b)) < 2 ^ 63 ->
  exists v, v_cstr dbg (Some (a ++ s ++ 0 :: b)) (Z.of_nat (length a)) = Ok v /\ sound v /\ vzt v = true /\ chars v = s.
Proof.
  intros N B. rewrite !app_length in B. simpl in B. unfold v_cstr, sv_strlen.
  rewrite (strlen_ok _ b s); auto; try lia.
  2: { exists a, []. rewrite app_nil_r. auto. }
  2: { rewrite !app_length. simpl. lia. }
  replace (Z.of_nat (length a) - Z.of_nat (length a) + Z.of_nat (length s)) with (Z.of_nat (length s)) by lia. cbn [bind].
  assert (NE : nth_error (a ++ s ++ 0 :: b) (Z.to_nat (Z.of_nat (length a) + Z.of_nat (length s))) = Some 0).
  { replace (Z.to_nat (Z.of_nat (length a) + Z.of_nat (length s))) with (length (a ++ s)) by (rewrite app_length; lia).
    rewrite app_assoc, nth_error_app2, Nat.sub_diag by lia. auto. }
  unfold set_zt, zt_offset. destruct (Z.leb_spec (2 ^ 63) (Z.of_nat (length s))); [lia|].
  assert ((if dbg then c <- rdp (Some (a ++ s ++ 0 :: b)) (Z.of_nat (length a) + Z.of_nat (length s));; (if c =? 0 then Ok tt else Throw) else Ok tt) = Ok tt) as ->.
  { destruct dbg; auto. simpl rdp. destruct (Z.ltb_spec (Z.of_nat (length a) + Z.of_nat (length s)) 0); [lia|].
    unfold rd. rewrite NE. reflexivity. }
  cbn [bind]. rewrite sz_small by lia.
  destruct (vsize_marked (Some (a ++ s ++ 0 :: b)) (Z.of_nat (length a)) (Z.of_nat (length s)) ltac:(lia)) as (Sz & Zt).
  eexists. split; [reflexivity|]. split; [split|split; auto].
  - unfold valid. rewrite Sz. cbn [vmem voff vlast]. rewrite !app_length. simpl. lia.
  - intros _. eexists. split; [reflexivity|]. rewrite Sz. cbn [voff]. auto.
  - unfold chars. cbn [vmem voff]. rewrite Sz, !Nat2Z.id. rewrite skipn_app, skipn_all, Nat.sub_diag. simpl.
    rewrite firstn_app, firstn_all, Nat.sub_diag. simpl. apply app_nil_r.
Qed.

Lemma literal_zt dbg s : Z.of_nat (length s) + 1 < 2 ^ 63 ->
  exists v, v_literal dbg (s ++ [0]) = Ok v /\ sound v /\ vzt v = true /\ chars v = s.
Proof.
  intros B. unfold v_literal. cbv zeta. rewrite app_length. simpl length.
  replace (Z.of_nat (length s + 1) - 1) with (Z.of_nat (length s)) by lia.
  assert (R : rdp (Some (s ++ [0])) (Z.of_nat (length s)) = Ok 0).
  { simpl. destruct (Z.ltb_spec (Z.of_nat (length s)) 0); [lia|]. rewrite Nat2Z.id. unfold rd.
    rewrite nth_error_app2, Nat.sub_diag by lia. auto. }
  rewrite R. cbn [bind]. simpl (0 =? 0). cbn iota.
  unfold set_zt, zt_offset. destruct (Z.leb_spec (2 ^ 63) (Z.of_nat (length s))); [lia|].
  rewrite Z.add_0_l, R. cbn [bind]. simpl (0 =? 0). cbn iota.
  assert ((if dbg then Ok tt else Ok tt) = Ok tt) as -> by (destruct dbg; auto).
  cbn [bind]. rewrite sz_small by lia.
  destruct (vsize_marked (Some (s ++ [0])) 0 (Z.of_nat (length s)) ltac:(lia)) as (Sz & Zt).
  eexists. split; [reflexivity|]. split; [split|split; auto].
  - unfold valid. rewrite Sz. cbn [vmem voff vlast]. rewrite !app_length. simpl. lia.
  - intros _. eexists. split; [reflexivity|]. rewrite Sz. cbn [voff]. apply rdp_some; auto.
  - unfold chars. cbn [vmem voff]. rewrite Sz, !Nat2Z.id. simpl skipn.
    rewrite firstn_app, firstn_all, Nat.sub_diag. simpl. apply app_nil_r.
Qed.
Lemma literal_plain dbg s c : c <> 0 -> Z.of_nat (length s) + 1 < 2 ^ 63 ->
  exists v, v_literal dbg (s ++ [c]) = Ok v /\ sound v /\ vzt v = false /\ chars v = s ++ [c].
Proof.
  intros Hc B. unfold v_literal. cbv zeta. rewrite app_length. simpl length.
  replace (Z.of_nat (length s + 1) - 1) with (Z.of_nat (length s)) by lia.
  assert (R : rdp (Some (s ++ [c])) (Z.of_nat (length s)) = Ok c).
  { simpl. destruct (Z.ltb_spec (Z.of_nat (length s)) 0); [lia|]. rewrite Nat2Z.id. unfold rd.
    rewrite nth_error_app2, Nat.sub_diag by lia. auto. }
  rewrite R. cbn [bind]. destruct (Z.eqb_spec c 0); [congruence|].
  destruct (vsize_plain (Some (s ++ [c])) 0 (Z.of_nat (length s + 1)) ltac:(lia)) as (Sz & Zt).
  eexists. split; [reflexivity|]. split; [split|split; auto].
  - unfold valid. rewrite Sz. cbn [vmem voff vlast]. rewrite !app_length. simpl. lia.
  - congruence.
  - unfold chars. cbn [vmem voff]. rewrite Sz, !Nat2Z.id. simpl skipn. apply firstn_all2. rewrite app_length. simpl. lia.
Qed.
Lemma null_ok dbg : sound v_null /\ chars v_null = [] /\ v_cstr dbg None 0 = Ok v_null.
Proof. split; [split; [split; reflexivity|discriminate]|]. split; reflexivity. Qed.

(** * Expansion *)
Lemma expand_prefix_ok dbg v n l v' : valid v -> vmem v = Some l -> 0 <= n <= vsize v -> remove_prefix v n = Ok v' ->
  expand_prefix dbg v' n = Ok v.
Proof.
  intros V M Hn E. pose proof (vsize_range v). pose proof (last_range v V). unfold remove_prefix in E. rewrite Z.min_l in E by lia.
  unfold dec_front in E. rewrite swrap_id in E by lia. rewrite padd_ok in E by auto. cbn [bind] in E. inv E.
  unfold expand_prefix, chk, nonnull. cbn [vmem]. rewrite M. cbn [negb]. rewrite andb_false_r. cbn [bind].
  unfold inc_front. cbn [vmem voff vlast]. rewrite swrap_id by lia.
  pose proof (valid_off v l V M). unfold padd.
  destruct (Z.leb_spec 0 (voff v + n + - n)); [|lia]. destruct (Z.leb_spec (voff v + n + - n) (Z.of_nat (length l))); [|lia].
  cbn [andb bind]. rewrite vsize_mod in *. rewrite (sz_small (vlast v - n)) by lia. rewrite sz_small by lia.
  rewrite <- M. destruct v as [m o la]. cbn [vmem voff vlast] in *. do 2 f_equal; lia.
Qed.
Lemma expand_suffix_ok dbg v n l : valid v -> vmem v = Some l -> 0 <= n <= vsize v ->
  exists r, expand_suffix dbg (remove_suffix v n) n = Ok r /\ inherits v r /\ chars r = chars v /\ vzt r = false.
Proof.
  intros V M Hn. pose proof (vsize_range v). pose proof (last_range v V). unfold remove_suffix. rewrite Z.min_l by lia.
  unfold expand_suffix, chk, nonnull, dec_back. cbn [vmem]. rewrite M. cbn [negb]. rewrite andb_false_r. cbn [bind].
  eexists. split; [reflexivity|]. unfold inc_back. cbn [vmem voff vlast].
  assert (unset_zt (sz (unset_zt (sz (vlast v - n)) + n)) = vsize v) as ->.
  { rewrite !unset_mod. rewrite vsize_mod in *. rewrite (sz_small (vlast v - n)) by lia. rewrite sz_small by lia. lia. }
  destruct (mk_view v 0 (vsize v) V ltac:(lia) ltac:(lia) ltac:(lia) (vsize v)) as (A & B); [lia|lia|congruence|].
  rewrite Z.add_0_r, M in *. destruct (vsize_plain (Some l) (voff v) (vsize v) ltac:(lia)) as (_ & Z).
  split; [apply inherits_unmarked; auto|]. split; auto. rewrite B. simpl skipn. apply firstn_all2.
  pose proof (chars_length v V). lia.
Qed.

(** * find_first_match with one needle *)
Lemma multi_inner_ok hm nm t : forall s h n hlast, hold hm h s -> hold nm n t ->
  hlast = h + Z.of_nat (length s) ->
  match pre s t with
  | Found => multi_inner (length t) hm h hlast nm n = Ok MFound
  | AtEnd => multi_inner (length t) hm h hlast nm n = Ok MEnd
  | Differ => exists it, multi_inner (length t) hm h hlast nm n = Ok (MDiffer it)
  end.
Proof.
  induction t as [|d t IH]; intros s h n hlast Hs Ht ->; simpl; auto.
  destruct s as [|c s].
  - simpl. destruct (Z.eqb_spec h (h + Z.of_nat 0)); [auto|lia].
  - destruct (Z.eqb_spec h (h + Z.of_nat (length (c :: s)))); [simpl in e; lia|].
    apply hold_cons in Hs. apply hold_cons in Ht. destruct Hs as (Es & Hs), Ht as (Et & Ht).
    rewrite Es, Et. cbn [bind]. destruct (Z.eqb_spec c d); cbn [negb]; eauto.
    apply IH; auto. simpl. lia.
Qed.

Lemma multi_outer_ok w : valid w -> chars w <> [] -> forall fuel hay last, valid hay -> last = voff hay + vsize hay ->
  (length (chars hay) < fuel)%nat ->
  multi_outer fuel hay [w] last = Ok (match srch (chars hay) (chars w) with Some k => voff hay + Z.of_nat k | None => last end).
Proof.
  intros W Ne. induction fuel as [|fuel IH]; intros hay last V El F; [lia|]. cbn [multi_outer].
  pose proof (chars_length hay V) as CL. rewrite vempty_spec by auto. destruct (chars hay) as [|c s] eqn:E.
  - rewrite vend_ok by auto. subst last. destruct (chars w); [congruence|]. reflexivity.
  - pose proof (chars_hold hay V) as H. pose proof (chars_hold w W) as Hw. rewrite E in H.
    cbn [multi_needles].
    pose proof (multi_inner_ok (vmem hay) (vmem w) (chars w) (c :: s) (voff hay) (voff w) last H Hw) as MI.
    rewrite CL in MI. specialize (MI El). rewrite (chars_len w W).
    cbn [srch]. destruct (pre (c :: s) (chars w)).
    + rewrite MI. cbn [bind]. f_equal. lia.
    + rewrite MI. cbn [bind]. auto.
    + destruct MI as (it & MI). rewrite MI. cbn [bind].
      destruct (remove_prefix_ok hay 1 V ltac:(lia)) as (v' & E' & V' & C' & M' & O' & T' & S'). rewrite E'. cbn [bind].
      rewrite E in C'. change (Z.to_nat 1) with 1%nat in C'. simpl in C'. simpl in CL.
      rewrite (IH v' last V').
      * rewrite C', O', Z.min_l by lia. destruct (srch s (chars w)); simpl; auto. f_equal. lia.
      * subst last. rewrite O', S', Z.min_l by lia. lia.
      * rewrite C'. simpl in F. lia.
Qed.

Lemma find_first_match_one dbg v w pos : valid v -> valid w -> 0 <= pos <= vsize v -> chars w <> [] ->
  exists r, find_first_match dbg v [w] pos = Ok r /\
    first_where (fun i => pos <= Z.of_nat i /\ occurs (chars v) (chars w) i) r.
Proof.
  intros V W Hp Ne. pose proof (chars_length v V) as CL. pose proof (vsize_range v). unfold find_first_match. simpl existsb.
  rewrite vempty_spec by auto. assert ((match chars w with [] => true | _ => false end) = false) as -> by (destruct (chars w); congruence).
  cbn [orb]. unfold substr_from.
  destruct (substr_ok dbg v pos npos V Hp ltac:(rewrite npos_val; lia)) as (hay & Eh & Vh & Ch & Mh & Oh & _ & Sh).
  rewrite Eh. cbn [bind]. rewrite vend_ok by auto. cbn [bind].
  assert (Ch' : chars hay = skipn (Z.to_nat pos) (chars v)).
  { rewrite Ch. apply firstn_all2. rewrite skipn_length. rewrite npos_val. lia. }
  rewrite (multi_outer_ok w W Ne) by (auto; rewrite <- (chars_len hay Vh); lia). cbn [bind]. rewrite vend_ok by auto. cbn [bind].
  rewrite Ch', Oh.
  exists (srch_res (chars v) (chars w) (Z.to_nat pos)). split.
  - unfold srch_res. pose proof (srch_spec (skipn (Z.to_nat pos) (chars v)) (chars w)) as SP.
    destruct (srch _ _) as [k|].
    + destruct SP as (SP & _). apply occurs_length in SP. rewrite skipn_length in SP.
      assert (0 < length (chars w))%nat by (destruct (chars w); simpl; [congruence|lia]).
      destruct (Z.eqb_spec (voff v + vsize v) (voff v + pos + Z.of_nat k)); [lia|]. rewrite sz_small by lia. f_equal. lia.
    + rewrite Sh, npos_val. destruct (Z.eqb_spec (voff v + vsize v) (voff v + pos + Z.min (2 ^ 64 - 1) (vsize v - pos))); [auto|lia].
  - eapply first_where_ext; [|apply srch_res_spec; lia]. intros i. split; intros (A & B); split; auto; lia.
Qed.

(** pop_front_unsafe( count ) returns the whole view. *)
Lemma pop_front_unsafe_whole v l count : valid v -> vmem v = Some l -> 0 <= count <= vsize v ->
  exists p v', pop_front_unsafe false v count = Ok (p, v') /\ chars p = chars v /\
    chars v' = skipn (Z.to_nat count) (chars v).
Proof.
  intros V M Hc. pose proof (vsize_range v). unfold pop_front_unsafe, substr_unsafe_from, chk. cbn [andb bind].
  rewrite Z.sub_0_r, sz_small by lia. destruct (substr_all_marks v l V M) as (r & E & _ & _ & _ & _ & C).
  unfold substr_all in E. rewrite E. cbn [bind].
  destruct (remove_prefix_unsafe false v count) as [v1| | |] eqn:E2.
  2-4: unfold remove_prefix_unsafe, chk in E2; cbn [andb bind] in E2; destruct (dec_front_ok v count V Hc) as (? & K & _); congruence.
  destruct (prefix_unsafe_i false v count v1 V Hc E2) as (_ & C2). cbn [bind]. exists r, v1. auto.
Qed.
Lemma pop_back_unsafe_ok v l count : valid v -> vmem v = Some l -> 0 <= count <= vsize v ->
  exists p v', pop_back_unsafe false v count = Ok (p, v') /\
    chars p = skipn (length (chars v) - Z.to_nat count) (chars v) /\ chars v' = firstn (length (chars v) - Z.to_nat count) (chars v).
Proof.
  intros V M Hc. pose proof (vsize_range v). pose proof (chars_length v V). unfold pop_back_unsafe, chk. cbn [andb bind].
  rewrite sz_small by lia.
  assert (exists r, substr_unsafe false v (vsize v - count) count = Ok r) as (r & E).
  { unfold substr_unsafe, chk. cbn [andb bind]. rewrite padd_ok by (auto; lia). cbn [bind].
    rewrite (hold_padd _ _ _ _ (hold_at v (vsize v - count) V ltac:(lia))) by (rewrite skipn_length; lia). cbn [bind].
    destruct (_ =? _); eauto. unfold v_between_zt. rewrite M. unfold set_zt. destruct (_ <=? _); cbn [bind]; eauto. }
  rewrite E. cbn [bind].
  destruct (substr_unsafe_cases false v (vsize v - count) count r V ltac:(lia) ltac:(lia) ltac:(lia) E) as (_ & C & _).
  unfold remove_suffix_unsafe, chk. cbn [andb bind].
  destruct (dec_back_ok v count V Hc) as (_ & C2 & _). eexists _, _. split; [reflexivity|]. rewrite C, C2. split.
  - rewrite firstn_all2 by (rewrite skipn_length; lia). f_equal. lia.
  - f_equal. lia.
Qed.
Lemma expand_suffix_back dbg v n l : valid v -> vmem v = Some l -> 0 <= n <= vsize v ->
  exists r, expand_suffix dbg (remove_suffix v n) n = Ok r /\ valid r /\ chars r = chars v.
Proof. intros V M Hn. destruct (expand_suffix_ok dbg v n l V M Hn) as (r & E & I & C & _). exists r. split; auto. split; [apply I|auto]. Qed.
