From Verif Require Import Common CommonProofs Ints BitsModel SpecBits BitsProofs BitQueueProofs StringView SpecString StringViewProofs StringSearchProofs.
From Coq Require Import ZifyNat.
Open Scope Z_scope.
Local Arguments Z.mul : simpl never.
Local Arguments Z.add : simpl never.
Local Arguments Z.sub : simpl never.
Local Arguments Z.pow : simpl never.
Local Arguments Z.of_nat : simpl never.
Ltac Zify.zify_post_hook ::= Z.div_mod_to_equations.

(** * search *)
Lemma search_short v w pos : valid v -> valid w -> 0 <= pos < 2 ^ 63 -> vsize v <= pos + vsize w ->
  sv_search v w pos = Ok npos /\ search_last v w pos = Ok npos.
Proof.
  intros V W Hp H. pose proof (vsize_range w). unfold sv_search, search_last. rewrite sz_small by lia.
  destruct (Z.leb_spec (vsize v) (pos + vsize w)); [auto|lia].
Qed.
Lemma search_empty v w pos : valid w -> chars w = [] -> sv_search v w pos = Ok npos /\ search_last v w pos = Ok npos.
Proof.
  intros W E. unfold sv_search, search_last. rewrite vempty_spec, E by auto. rewrite orb_true_r. auto.
Qed.

Lemma search_inside v w pos : valid v -> valid w -> 0 <= pos -> chars w <> [] -> pos + vsize w < vsize v ->
  sv_search v w pos = Ok (srch_res (chars v) (chars w) (Z.to_nat pos)).
Proof.
  intros V W Hp Ne H. pose proof (vsize_range v). pose proof (vsize_range w). pose proof (chars_length v V).
  unfold sv_search. rewrite sz_small by lia.
  destruct (Z.leb_spec (vsize v) (pos + vsize w)); [lia|]. rewrite vempty_spec by auto.
  destruct (chars w) as [|d t] eqn:E; [congruence|]. rewrite <- E. cbn [orb].
  rewrite swrap_id by lia. rewrite padd_ok by (auto; lia). cbn [bind]. rewrite sz_small by lia.
  rewrite search_ptr_ok by (auto; lia). cbn [bind]. unfold srch_res.
  pose proof (srch_spec (skipn (Z.to_nat pos) (chars v)) (chars w)) as SP.
  destruct (srch _ _) as [k|]; simpl; auto.
  destruct SP as (SP & _). apply occurs_length in SP. rewrite skipn_length in SP.
  rewrite sz_small by lia. f_equal. lia.
Qed.

Lemma search_ok v w pos : valid v -> valid w -> 0 <= pos -> chars w <> [] -> pos + vsize w < vsize v ->
  exists r, sv_search v w pos = Ok r /\
    first_where (fun i => pos <= Z.of_nat i /\ occurs (chars v) (chars w) i) r.
Proof.
  intros V W Hp Ne H. eexists. split; [apply search_inside; auto|].
  pose proof (chars_length v V). pose proof (vsize_range w).
  eapply first_where_ext; [|apply srch_res_spec; lia]. intros i. split; intros (A & B); split; auto; lia.
Qed.

(** search_last stops at the first occurrence, and answers pos when there is none. *)
Lemma search_last_ok v w pos : valid v -> valid w -> 0 <= pos -> chars w <> [] -> pos + vsize w < vsize v ->
  exists r, search_last v w pos = Ok r /\
    ((r = pos /\ forall i, pos <= Z.of_nat i -> ~ occurs (chars v) (chars w) i) \/
     (exists i, r = Z.of_nat i /\ pos <= r /\ occurs (chars v) (chars w) i /\
        forall j, pos <= Z.of_nat j -> (j < i)%nat -> ~ occurs (chars v) (chars w) j)).
Proof.
  intros V W Hp Ne H. pose proof (chars_length v V) as CL. pose proof (chars_length w W) as CW.
  pose proof (vsize_range v). pose proof (vsize_range w).
  destruct (search_ok v w pos V W Hp Ne H) as (r & E & F).
  unfold search_last. rewrite sz_small by lia.
  destruct (Z.leb_spec (vsize v) (pos + vsize w)); [lia|]. rewrite vempty_spec by auto.
  destruct (chars w) as [|d t] eqn:Ew; [congruence|]. rewrite <- Ew in *. cbn [orb]. rewrite E. cbn [bind].
  destruct F as [(-> & N)|(i & -> & (Hi & O) & N)].
  - cbn [search_last_loop]. rewrite Z.eqb_refl. exists pos. split; auto. left. split; auto.
    intros i Hi O. apply (N i). auto.
  - exists (Z.of_nat i). split.
    2: { right. exists i. split; auto. split; auto. split; auto. intros j Hj Hlt O'. apply (N j); auto. }
    pose proof (occurs_length _ _ _ O) as OL.
    cbn [search_last_loop]. destruct (Z.eqb_spec (Z.of_nat i) npos) as [Eq|_]; [unfold npos in Eq; lia|]. cbv zeta.
    destruct (Z.le_gt_cases (vsize v) (Z.of_nat i + vsize w)) as [L|G].
    + destruct (search_short v w (Z.of_nat i) V W) as (Es & _); [lia|lia|]. rewrite Es. cbn [bind].
      destruct (npos =? Z.of_nat i); auto.
    + destruct (search_ok v w (Z.of_nat i) V W ltac:(lia) Ne ltac:(lia)) as (r & Er & F). rewrite Er. cbn [bind].
      assert (r = Z.of_nat i).
      { destruct F as [(-> & N')|(j & -> & (Hj & Oj) & N')].
        - exfalso. apply (N' i). split; auto; lia.
        - destruct (Nat.eq_dec i j); [congruence|]. exfalso. apply (N' i); [lia|]. split; auto; lia. }
      subst r. rewrite Z.eqb_refl. auto.
Qed.

(** * Last index below a bound with a property *)
Fixpoint lastn (f : Z -> bool) (s : list Z) (n : nat) : option nat :=
  match n with
  | O => None
  | S n => match nth_error s n with
           | Some c => if f c then Some n else lastn f s n
           | None => lastn f s n
           end
  end.
Definition last_res (o : option nat) : Z := match o with None => npos | Some i => Z.of_nat i end.

Lemma lastn_spec f (P : Z -> Prop) s n : (forall c, In c s -> f c = true <-> P c) ->
  last_where (fun i => (i < n)%nat /\ char_is s P i) (last_res (lastn f s n)).
Proof.
  intros F. induction n as [|n IH]; simpl.
  - left. split; auto. intros i (H & _). lia.
  - assert (K : ~ char_is s P n -> last_where (fun i => (i < S n)%nat /\ char_is s P i) (last_res (lastn f s n))).
    { intros K. eapply last_where_ext; [|exact IH]. intros i. split; intros (A & B); split; auto.
      assert (i <> n) by (intros ->; auto). lia. }
    destruct (nth_error s n) as [c|] eqn:E.
    + destruct (f c) eqn:D.
      * right. exists n. split; auto. split.
        -- split; auto. exists c. split; auto. apply F; auto. apply nth_error_In in E; auto.
        -- intros j Hj (A & _). lia.
      * apply K. intros (d & Ed & Pd). rewrite E in Ed. inv Ed. apply F in Pd; [congruence|]. apply nth_error_In in E; auto.
    + apply K. intros (d & Ed & _). congruence.
Qed.

Lemma nth_get (s : list Z) n : (n < length s)%nat -> exists c, nth_error s n = Some c.
Proof. intros H. destruct (nth_error s n) eqn:E; eauto. apply nth_error_None in E. lia. Qed.

(** * find_last_of *)
Lemma last_bit_loop_ok v bs f n : valid v -> (n <= length (chars v))%nat ->
  (forall c, In c (chars v) -> bs_test bs (wrap 8 c) = Ok (f c)) ->
  last_bit_loop n v bs = Ok (last_res (lastn f (chars v) n)).
Proof.
  intros V L T. induction n as [|n IH]; simpl; auto.
  destruct (nth_get (chars v) n) as (c & E); [lia|]. rewrite (vget_ok v n c V E), E. cbn [bind].
  rewrite T by (apply nth_error_In in E; auto). cbn [bind]. destruct (f c); auto. apply IH. lia.
Qed.

Lemma last_eq_loop_ok m first nm q t s : hold m first s -> hold nm q t -> forall n, (n <= length s)%nat ->
  last_eq_loop n m first nm q (length t) =
    Ok (match lastn (fun c => existsb (Z.eqb c) t) s n with None => first | Some i => first + Z.of_nat i + 1 end).
Proof.
  intros Hs Ht. induction n as [|n IH]; intros L; simpl; auto.
  destruct (nth_get s n) as (c & E); [lia|]. rewrite (hold_nth _ _ _ _ _ Hs E), E. cbn [bind].
  rewrite any_eq_ok by auto. cbn [bind]. destruct (existsb (Z.eqb c) t); [f_equal; lia|]. apply IH. lia.
Qed.

Lemma last_if_loop_ok m first pred s : hold m first s -> forall n, (n <= length s)%nat ->
  last_if_loop pred n m first =
    Ok (match lastn pred s n with None => first | Some i => first + Z.of_nat i + 1 end).
Proof.
  intros Hs. induction n as [|n IH]; intros L; simpl; auto.
  destruct (nth_get s n) as (c & E); [lia|]. rewrite (hold_nth _ _ _ _ _ Hs E), E. cbn [bind].
  destruct (pred c); [f_equal; lia|]. apply IH. lia.
Qed.

Lemma lastn_lt f s n i : lastn f s n = Some i -> (i < n)%nat.
Proof.
  induction n as [|n IH]; simpl; [discriminate|]. destruct (nth_error s n); [destruct (f z)|]; intros H;
    try (apply IH in H; lia). inv H. lia.
Qed.

Lemma rev_dist v i : valid v -> 0 <= i < vsize v ->
  reverse_distance v (voff v + vsize v) (voff v + i + 1) = i.
Proof.
  intros V H. pose proof (vsize_range v). unfold reverse_distance.
  rewrite (sz_small (vsize v - 1)) by lia. rewrite sz_small; lia.
Qed.

(** One-byte characters: the position is ignored. *)
Lemma find_last_of_byte dbg lo v w pos : valid v -> valid w -> 0 <= pos ->
  bytes lo (chars v ++ chars w) ->
  exists r, find_last_of dbg true v w pos = Ok r /\
    last_where (char_is (chars v) (fun c => In c (chars w))) r.
Proof.
  intros V W Hp B. pose proof (chars_length v V) as CL. unfold bytes in B. apply Forall_app in B. destruct B as (Bv & Bw).
  pose proof (vsize_range v). unfold find_last_of. rewrite vempty_spec by auto. destruct (chars w) as [|d t] eqn:Ew.
  - eexists. split; [reflexivity|]. left. split; auto. intros i (c & _ & []).
  - rewrite <- Ew in *. cbv zeta. unfold substr_from.
    destruct (substr_ok dbg v (if vsize v <=? pos then 0 else sz (vsize v - (pos + 1))) npos V) as (hay & Eh & _).
    { destruct (Z.leb_spec (vsize v) pos); [lia|]. rewrite sz_small; lia. }
    { unfold npos; lia. }
    rewrite Eh. cbn [bind]. rewrite (chars_len w W).
    destruct (needle_set _ _ _ lo (chars_hold w W) Bw) as (bs & Eb & T). rewrite Eb. cbn [bind].
    rewrite (last_bit_loop_ok v bs (fun c => existsb (Z.eqb c) (chars w))); auto.
    + eexists. split; [reflexivity|].
      eapply last_where_ext; [|apply (lastn_spec _ (fun c => In c (chars w))); intros c _; apply existsb_in].
      intros i. split; [intros (_ & A); auto|]. intros A. split; auto. pose proof A as (c & Ec & _).
      pose proof (nth_error_some_lt _ _ _ Ec). lia.
    + lia.
    + intros c I. apply T. exact (bytes_in lo (chars v) c Bv I).
Qed.

(** Wider characters: exact when pos >= size. *)
Lemma find_last_of_wide dbg v w pos : valid v -> valid w -> vsize v <= pos ->
  exists r, find_last_of dbg false v w pos = Ok r /\
    last_where (char_is (chars v) (fun c => In c (chars w))) r.
Proof.
  intros V W Hp. pose proof (chars_length v V) as CL.
  pose proof (vsize_range v). unfold find_last_of. rewrite vempty_spec by auto. destruct (chars w) as [|d t] eqn:Ew.
  - eexists. split; [reflexivity|]. left. split; auto. intros i (c & _ & []).
  - rewrite <- Ew in *. cbv zeta. unfold substr_from.
    destruct (Z.leb_spec (vsize v) pos); [|lia].
    destruct (substr_ok dbg v 0 npos V) as (hay & Eh & Vh & Ch & Mh & Oh & _ & Sh); [lia|unfold npos; lia|].
    rewrite Eh. cbn [bind]. rewrite (chars_len w W).
    assert (Ch' : chars hay = chars v).
    { rewrite Ch. simpl skipn. apply firstn_all2. unfold npos. lia. }
    rewrite (last_eq_loop_ok _ _ _ _ (chars w) (chars v)).
    2: rewrite <- Ch'; apply chars_hold; auto.
    2: apply chars_hold; auto.
    2: lia.
    cbn [bind]. rewrite vend_ok by auto. cbn [bind]. rewrite (chars_len hay Vh), Ch', Oh, Z.add_0_r.
    pose proof (lastn_spec (fun c => existsb (Z.eqb c) (chars w)) (fun c => In c (chars w)) (chars v) (length (chars v))) as LS.
    exists (last_res (lastn (fun c => existsb (Z.eqb c) (chars w)) (chars v) (length (chars v)))). split.
    + destruct (lastn _ _ _) as [i|] eqn:El; simpl.
      * apply lastn_lt in El. destruct (Z.eqb_spec (voff v + Z.of_nat i + 1) (voff v)); [lia|].
        rewrite rev_dist by (auto; lia). auto.
      * rewrite Z.eqb_refl. auto.
    + eapply last_where_ext; [|apply LS; intros c _; apply existsb_in].
      intros i. split; [intros (_ & A); auto|]. intros A. split; auto. pose proof A as (c & Ec & _).
      pose proof (nth_error_some_lt _ _ _ Ec). lia.
Qed.

Lemma find_last_of_ok dbg one_byte lo v w pos : valid v -> valid w -> vsize v <= pos ->
  (one_byte = true -> bytes lo (chars v ++ chars w)) ->
  exists r, find_last_of dbg one_byte v w pos = Ok r /\
    last_where (fun i => Z.of_nat i <= pos /\ char_is (chars v) (fun c => In c (chars w)) i) r.
Proof.
  intros V W Hp B. pose proof (vsize_range v). pose proof (chars_length v V).
  assert (exists r, find_last_of dbg one_byte v w pos = Ok r /\
    last_where (char_is (chars v) (fun c => In c (chars w))) r) as (r & E & L).
  { destruct one_byte; [apply (find_last_of_byte dbg lo)|apply find_last_of_wide]; auto; lia. }
  exists r. split; auto. eapply last_where_ext; [|exact L]. intros i. split; [|tauto]. intros C. split; auto.
  destruct C as (c & Ec & _). pose proof (nth_error_some_lt _ _ _ Ec). lia.
Qed.

(** Wider characters below size: the last pos + 1 characters are searched, and a
    failed search is not reported as npos. *)
Lemma find_last_of_wide_absent dbg v w pos : valid v -> valid w -> 0 <= pos -> pos + 1 < vsize v -> chars w <> [] ->
  (forall c, In c (chars v) -> ~ In c (chars w)) ->
  find_last_of dbg false v w pos = Ok (vsize v - pos - 2).
Proof.
  intros V W Hp Hs Ne N. pose proof (chars_length v V) as CL.
  pose proof (vsize_range v). unfold find_last_of. rewrite vempty_spec by auto. destruct (chars w) as [|d t] eqn:Ew; [congruence|].
  rewrite <- Ew in *. cbv zeta. unfold substr_from.
  destruct (Z.leb_spec (vsize v) pos); [lia|]. rewrite (sz_small (vsize v - (pos + 1))) by lia.
  destruct (substr_ok dbg v (vsize v - (pos + 1)) npos V) as (hay & Eh & Vh & Ch & Mh & Oh & _ & Sh); [lia|unfold npos; lia|].
  rewrite Eh. cbn [bind]. rewrite (chars_len w W), (chars_len hay Vh).
  rewrite (last_eq_loop_ok _ _ _ _ (chars w) (chars hay)).
  2: apply chars_hold; auto.
  2: apply chars_hold; auto.
  2: lia.
  cbn [bind]. rewrite vend_ok by auto. cbn [bind].
  assert (LN : lastn (fun c => existsb (Z.eqb c) (chars w)) (chars hay) (length (chars hay)) = None).
  { generalize (length (chars hay)). intros n. induction n as [|n IH]; simpl; auto.
    destruct (nth_error (chars hay) n) as [c|] eqn:Ec; auto.
    destruct (existsb (Z.eqb c) (chars w)) eqn:X; auto. exfalso. apply existsb_in in X. apply (N c); auto.
    apply nth_error_In in Ec. rewrite Ch in Ec.
    rewrite <- (firstn_skipn (Z.to_nat (vsize v - (pos + 1))) (chars v)). apply in_or_app. right.
    rewrite <- (firstn_skipn (Z.to_nat npos) (skipn (Z.to_nat (vsize v - (pos + 1))) (chars v))). apply in_or_app; auto. }
  rewrite LN, Oh. destruct (Z.eqb_spec (voff v + (vsize v - (pos + 1))) (voff v)); [lia|].
  unfold reverse_distance. rewrite (sz_small (vsize v - 1)) by lia. rewrite sz_small by lia. f_equal. lia.
Qed.

Lemma find_last_of_if_ok dbg v pred pos : valid v -> 0 <= pos < 2 ^ 64 ->
  exists r, find_last_of_if dbg v pred pos = Ok r /\
    last_where (fun i => Z.of_nat i < pos /\ char_is (chars v) (fun c => pred c = true) i) r.
Proof.
  intros V Hp. pose proof (chars_length v V) as CL. pose proof (vsize_range v). unfold find_last_of_if.
  destruct (substr_ok dbg v 0 pos V) as (hay & Eh & Vh & Ch & Mh & Oh & _ & Sh); [lia|lia|].
  rewrite Eh. cbn [bind]. rewrite (chars_len hay Vh). simpl skipn in Ch. rewrite Z.sub_0_r in Sh.
  rewrite (last_if_loop_ok _ _ _ (chars hay)) by (try apply chars_hold; auto).
  cbn [bind]. rewrite vend_ok by auto. cbn [bind]. rewrite Oh, Z.add_0_r.
  pose proof (lastn_spec pred (fun c => pred c = true) (chars hay) (length (chars hay))) as LS.
  pose proof (chars_length hay Vh) as CLh.
  exists (last_res (lastn pred (chars hay) (length (chars hay)))). split.
  - destruct (lastn _ _ _) as [i|] eqn:El; simpl.
    + apply lastn_lt in El. destruct (Z.eqb_spec (voff v + Z.of_nat i + 1) (voff v)); [lia|].
      rewrite rev_dist by (auto; lia). auto.
    + rewrite Z.eqb_refl. auto.
  - eapply last_where_ext; [|apply LS; intros c _; tauto].
    assert (NE : forall i, (i < length (chars hay))%nat -> nth_error (chars hay) i = nth_error (chars v) i).
    { intros i Hi. rewrite Ch. rewrite <- (firstn_skipn (Z.to_nat pos) (chars v)) at 2.
      rewrite nth_error_app1; auto. rewrite <- Ch; auto. }
    intros i. split.
    + intros (A & c & Ec & Pc). split; [lia|]. exists c. rewrite <- NE; auto.
    + intros (A & c & Ec & Pc). pose proof (nth_error_some_lt _ _ _ Ec).
      assert (i < length (chars hay))%nat by lia. split; auto. exists c. rewrite NE; auto.
Qed.

(** * find_last_not_of *)
Lemma last_not_if_ok v pred : valid v -> forall n, (n < length (chars v))%nat ->
  last_not_if_loop n v pred = Ok (last_res (lastn (fun c => negb (pred c)) (chars v) (S n))).
Proof.
  intros V. induction n as [|n IH]; intros L; destruct (nth_get (chars v) _ L) as (c & E); cbn [last_not_if_loop];
    rewrite (vget_ok v _ c V E); cbn [bind]; cbn [lastn]; rewrite E; destruct (negb (pred c)); auto.
  apply IH. lia.
Qed.

Lemma find_last_not_of_if_ok v pred pos : valid v -> 0 <= pos -> pos <> vsize v ->
  exists r, find_last_not_of_if v pred pos = Ok r /\
    last_where (fun i => Z.of_nat i <= pos /\ char_is (chars v) (fun c => pred c = false) i) r.
Proof.
  intros V Hp Hn. pose proof (chars_length v V) as CL. pose proof (vsize_range v). unfold find_last_not_of_if.
  rewrite vempty_spec by auto. destruct (chars v) as [|d t] eqn:E.
  - eexists. split; [reflexivity|]. left. split; auto. intros i (_ & c & Ec & _). destruct i; discriminate.
  - rewrite <- E in *. assert (0 < vsize v) by (rewrite E in CL; simpl in CL; lia). cbv zeta.
    rewrite last_not_if_ok; auto.
    2: destruct (Z.ltb_spec (vsize v) pos); lia.
    eexists. split; [reflexivity|].
    eapply last_where_ext; [|apply (lastn_spec _ (fun c => pred c = false)); intros c _; apply negb_true_iff].
    intros i. split; intros (A & c & Ec & Pc); (split; [|exists c; auto]);
      pose proof (nth_error_some_lt _ _ _ Ec); destruct (Z.ltb_spec (vsize v) pos); lia.
Qed.

Lemma last_not_ok dbg runtime lo v w : valid v -> valid w ->
  (runtime = true -> bytes lo (chars v ++ chars w)) ->
  forall n, (n < length (chars v))%nat ->
  last_not_loop dbg runtime n v w = Ok (last_res (lastn (fun c => negb (existsb (Z.eqb c) (chars w))) (chars v) (S n))).
Proof.
  intros V W B.
  assert (FC : forall c, In c (chars v) -> exists r, sv_find_char dbg runtime w c 0 = Ok r /\
             (r =? npos) = negb (existsb (Z.eqb c) (chars w))).
  { intros c I. destruct (find_char_zero dbg runtime lo w c W) as (r & E & F).
    { intros R. specialize (B R). unfold bytes in *. rewrite Forall_app in B. destruct B as (Bv & Bw).
      constructor; auto. exact (bytes_in lo (chars v) c Bv I). }
    exists r. split; auto. destruct F as [(-> & N)|(i & -> & (x & Ex & ->) & _)].
    - rewrite Z.eqb_refl. destruct (existsb (Z.eqb c) (chars w)) eqn:X; auto. exfalso.
      apply existsb_in in X. apply In_nth_error in X. destruct X as (i & Ei). apply (N i). exists c. auto.
    - assert (existsb (Z.eqb c) (chars w) = true) as -> by (apply existsb_in; apply nth_error_In in Ex; auto).
      apply Z.eqb_neq. pose proof (nth_error_some_lt _ _ _ Ex). pose proof (chars_length w W). pose proof (vsize_range w).
      unfold npos. lia. }
  induction n as [|n IH]; intros L; destruct (nth_get (chars v) _ L) as (c & E); cbn [last_not_loop];
    rewrite (vget_ok v _ c V E); cbn [bind]; cbn [lastn]; rewrite E;
    destruct (FC c ltac:(apply nth_error_In in E; auto)) as (r & Er & Q); rewrite Er; cbn [bind]; rewrite Q;
    destruct (negb (existsb (Z.eqb c) (chars w))); auto.
  apply IH. lia.
Qed.

Lemma find_last_not_of_ok dbg runtime lo v w pos : valid v -> valid w -> 0 <= pos -> pos <> vsize v ->
  (runtime = true -> bytes lo (chars v ++ chars w)) ->
  exists r, find_last_not_of dbg runtime v w pos = Ok r /\
    last_where (fun i => Z.of_nat i <= pos /\ char_is (chars v) (fun c => ~ In c (chars w)) i) r.
Proof.
  intros V W Hp Hn B. pose proof (chars_length v V) as CL. pose proof (vsize_range v). unfold find_last_not_of.
  rewrite vempty_spec by auto. destruct (chars v) as [|d t] eqn:E.
  - eexists. split; [reflexivity|]. left. split; auto. intros i (_ & c & Ec & _). destruct i; discriminate.
  - rewrite <- E in *. assert (0 < vsize v) by (rewrite E in CL; simpl in CL; lia). cbv zeta.
    rewrite (vempty_spec w) by auto. destruct (chars w) as [|d' t'] eqn:Ew.
    + eexists. split; [reflexivity|]. right. exists (Z.to_nat (if vsize v <? pos then vsize v - 1 else pos)).
      split; [destruct (Z.ltb_spec (vsize v) pos); lia|]. split.
      * split; [destruct (Z.ltb_spec (vsize v) pos); lia|].
        destruct (nth_get (chars v) (Z.to_nat (if vsize v <? pos then vsize v - 1 else pos))) as (c & Ec);
          [destruct (Z.ltb_spec (vsize v) pos); lia|]. exists c. split; auto.
      * intros j Hj (A & c & Ec & _). pose proof (nth_error_some_lt _ _ _ Ec).
        destruct (Z.ltb_spec (vsize v) pos); lia.
    + rewrite <- Ew in *. rewrite (last_not_ok dbg runtime lo); auto.
      2: destruct (Z.ltb_spec (vsize v) pos); lia.
      eexists. split; [reflexivity|].
      eapply last_where_ext; [|apply (lastn_spec _ (fun c => ~ In c (chars w)))].
      2: intros c _; rewrite <- existsb_in, negb_true_iff; destruct (existsb (Z.eqb c) (chars w)); split; congruence.
      intros i. split; intros (A & c & Ec & Pc); (split; [|exists c; auto]);
        pose proof (nth_error_some_lt _ _ _ Ec); destruct (Z.ltb_spec (vsize v) pos); lia.
Qed.

(** At pos = size the character after the view is read. *)
Lemma find_last_not_of_if_end l v pred : valid v -> vmem v = Some l -> chars v <> [] ->
  voff v + vsize v = Z.of_nat (length l) -> find_last_not_of_if v pred (vsize v) = UB.
Proof.
  intros V M Ne E. unfold find_last_not_of_if. rewrite vempty_spec by auto.
  destruct (chars v); [congruence|]. cbv zeta. rewrite Z.ltb_irrefl.
  assert (G : vget v (vsize v) = UB).
  { unfold vget. rewrite M. unfold rdp. rewrite E. destruct (Z.ltb_spec (Z.of_nat (length l)) 0); [lia|].
    rewrite Nat2Z.id. unfold rd. destruct (nth_error l (length l)) eqn:X; auto.
    pose proof (nth_error_some_lt _ _ _ X). lia. }
  pose proof (vsize_range v). destruct (Z.to_nat (vsize v)) eqn:S; cbn [last_not_if_loop]; rewrite <- S, Z2Nat.id, G by lia; auto.
Qed.
Lemma find_last_not_of_end dbg runtime l v w : valid v -> valid w -> vmem v = Some l -> chars v <> [] -> chars w <> [] ->
  voff v + vsize v = Z.of_nat (length l) -> find_last_not_of dbg runtime v w (vsize v) = UB.
Proof.
  intros V W M Ne Nw E. unfold find_last_not_of. rewrite !vempty_spec by auto.
  destruct (chars v); [congruence|]. destruct (chars w); [congruence|]. cbv zeta. rewrite Z.ltb_irrefl.
  assert (G : vget v (vsize v) = UB).
  { unfold vget. rewrite M. unfold rdp. rewrite E. destruct (Z.ltb_spec (Z.of_nat (length l)) 0); [lia|].
    rewrite Nat2Z.id. unfold rd. destruct (nth_error l (length l)) eqn:X; auto.
    pose proof (nth_error_some_lt _ _ _ X). lia. }
  pose proof (vsize_range v). destruct (Z.to_nat (vsize v)) eqn:S; cbn [last_not_loop]; rewrite <- S, Z2Nat.id, G by lia; auto.
Qed.
