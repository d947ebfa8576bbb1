From Verif Require Import Common CommonProofs Ints BitsModel SpecBits BitsProofs BitQueueProofs StringView SpecString StringViewProofs StringSearchProofs StringLastProofs.
From Coq Require Import ZifyNat.
Open Scope Z_scope.
Local Arguments Z.mul : simpl never.
Local Arguments Z.add : simpl never.
Local Arguments Z.sub : simpl never.
Local Arguments Z.pow : simpl never.
Local Arguments Z.of_nat : simpl never.
Ltac Zify.zify_post_hook ::= Z.div_mod_to_equations.

(** * compare *)
Fixpoint lexc (s t : list Z) : Z :=
  match s, t with
  | [], [] => 0
  | [], _ => -1
  | _, [] => 1
  | c :: s, d :: t => if c <? d then -1 else if d <? c then 1 else lexc s t
  end.

Lemma lex_irrefl s : ~ lex_lt s s.
Proof. induction s as [|c s IH]; intros H; inv H; auto; lia. Qed.
Lemma lex_trans s t u : lex_lt s t -> lex_lt t u -> lex_lt s u.
Proof.
  intros H. revert u. induction H; intros u K; inv K; try (constructor; fail); try (constructor; lia);
    try (apply lex_head; auto; fail). apply lex_tail. auto.
Qed.
Lemma lexc_spec s t : (lexc s t = -1 /\ lex_lt s t) \/ (lexc s t = 0 /\ s = t) \/ (lexc s t = 1 /\ lex_lt t s).
Proof.
  revert t. induction s as [|c s IH]; intros [|d t]; simpl; auto.
  - left. split; auto. constructor.
  - right. right. split; auto. constructor.
  - destruct (Z.ltb_spec c d); [left; split; auto; constructor; auto|].
    destruct (Z.ltb_spec d c); [right; right; split; auto; constructor; auto|].
    assert (c = d) by lia. subst. destruct (IH t) as [(E & L)|[(E & L)|(E & L)]]; rewrite E.
    + left. split; auto. apply lex_tail; auto.
    + right. left. subst; auto.
    + right. right. split; auto. apply lex_tail; auto.
Qed.

Lemma str_compare_ok m0 m1 s : forall t p0 p1, hold m0 p0 s -> hold m1 p1 t ->
  exists r, str_compare Z.ltb (Nat.min (length s) (length t)) m0 p0 m1 p1 = Ok r /\
    lexc s t = if r =? 0 then (if Z.of_nat (length s) <? Z.of_nat (length t) then -1
                               else if Z.of_nat (length t) <? Z.of_nat (length s) then 1 else 0) else r.
Proof.
  induction s as [|c s IH]; intros t p0 p1 H0 H1; destruct t as [|d t]; simpl.
  - exists 0. auto.
  - exists 0. split; reflexivity.
  - exists 0. split; reflexivity.
  - apply hold_cons in H0. apply hold_cons in H1. destruct H0 as (E0 & H0), H1 as (E1 & H1).
    rewrite E0, E1. cbn [bind]. destruct (c <? d); [exists (-1); auto|]. destruct (d <? c); [exists 1; auto|].
    destruct (IH t _ _ H0 H1) as (r & E & L). exists r. split; auto. rewrite L.
    destruct (Z.ltb_spec (Z.of_nat (length s)) (Z.of_nat (length t))), (Z.ltb_spec (Z.of_nat (S (length s))) (Z.of_nat (S (length t)))); try lia; auto.
    destruct (Z.ltb_spec (Z.of_nat (length t)) (Z.of_nat (length s))), (Z.ltb_spec (Z.of_nat (S (length t))) (Z.of_nat (S (length s)))); try lia; auto.
Qed.

Lemma compare_ok v w : valid v -> valid w -> sv_compare v w = Ok (lexc (chars v) (chars w)).
Proof.
  intros V W. pose proof (chars_length v V) as CV. pose proof (chars_length w W) as CW.
  unfold sv_compare, sv_compare_by.
  replace (Z.to_nat (Z.min (vsize v) (vsize w))) with (Nat.min (length (chars v)) (length (chars w))) by lia.
  destruct (str_compare_ok _ _ _ _ _ _ (chars_hold v V) (chars_hold w W)) as (r & E & L).
  rewrite E. cbn [bind]. rewrite L, CV, CW.
  destruct (Z.eqb_spec r 0); auto. destruct (vsize v <? vsize w); auto. destruct (vsize w <? vsize v); subst; auto.
Qed.

Lemma compare_spec v w : valid v -> valid w ->
  exists r, sv_compare v w = Ok r /\ (r < 0 <-> lex_lt (chars v) (chars w)) /\ (r = 0 <-> chars v = chars w) /\
    (0 < r <-> lex_lt (chars w) (chars v)).
Proof.
  intros V W. exists (lexc (chars v) (chars w)). split; [apply compare_ok; auto|].
  destruct (lexc_spec (chars v) (chars w)) as [(E & L)|[(E & L)|(E & L)]]; rewrite E.
  - split; [split; auto; lia|]. split; split; try lia; intros K.
    + rewrite K in L. apply lex_irrefl in L. tauto.
    + pose proof (lex_trans _ _ _ L K) as I. apply lex_irrefl in I. tauto.
  - rewrite L. split; [|split; [tauto|]]; (split; [lia|intros K; apply lex_irrefl in K; tauto]).
  - split; [|split; [|split; auto; lia]]; split; try lia; intros K.
    + pose proof (lex_trans _ _ _ L K) as I. apply lex_irrefl in I. tauto.
    + rewrite K in L. apply lex_irrefl in L. tauto.
Qed.

Lemma lex_total s t : lex_lt s t \/ s = t \/ lex_lt t s.
Proof. destruct (lexc_spec s t) as [(_ & L)|[(_ & L)|(_ & L)]]; auto. Qed.

Lemma compare_order u v w a b : valid u -> valid v -> valid w ->
  sv_compare u v = Ok a -> sv_compare v w = Ok b ->
  exists c d, sv_compare u w = Ok c /\ sv_compare v u = Ok d /\ Z.sgn d = - Z.sgn a /\ (a <= 0 -> b <= 0 -> c <= 0) /\
    (a < 0 -> b <= 0 -> c < 0) /\ (a <= 0 -> b < 0 -> c < 0).
Proof.
  intros U V W Ha Hb.
  destruct (compare_spec u v U V) as (a' & Ea & A1 & A2 & A3). rewrite Ha in Ea. inv Ea. rename a' into a.
  destruct (compare_spec v w V W) as (b' & Eb & B1 & B2 & B3). rewrite Hb in Eb. inv Eb. rename b' into b.
  destruct (compare_spec u w U W) as (c & Ec & C1 & C2 & C3).
  destruct (compare_spec v u V U) as (d & Ed & D1 & D2 & D3).
  exists c, d. split; auto. split; auto.
  assert (T : a < 0 -> b < 0 -> c < 0).
  { rewrite A1, B1, C1. intros. eapply lex_trans; eauto. }
  assert (T2 : a = 0 -> (b < 0 <-> c < 0) /\ (b = 0 <-> c = 0)).
  { intros E. apply A2 in E. rewrite B1, C1, B2, C2, E. tauto. }
  assert (T3 : b = 0 -> (a < 0 <-> c < 0) /\ (a = 0 <-> c = 0)).
  { intros E. apply B2 in E. rewrite A1, C1, A2, C2, E. tauto. }
  split.
  - destruct (Z.lt_trichotomy a 0) as [L|[L|L]].
    + assert (0 < d) by tauto. rewrite (Z.sgn_pos d), (Z.sgn_neg a) by lia. auto.
    + assert (d = 0) by (apply D2; symmetry; tauto). subst. auto.
    + assert (d < 0) by tauto. rewrite (Z.sgn_pos a), (Z.sgn_neg d) by lia. auto.
  - lia.
Qed.

Lemma rel_ops v w : valid v -> valid w ->
  exists e n l le g ge, sv_eq v w = Ok e /\ sv_ne v w = Ok n /\ sv_lt v w = Ok l /\ sv_le v w = Ok le /\
    sv_gt v w = Ok g /\ sv_ge v w = Ok ge /\
    (e = true <-> chars v = chars w) /\ (n = true <-> chars v <> chars w) /\
    (l = true <-> lex_lt (chars v) (chars w)) /\ (le = true <-> lex_lt (chars v) (chars w) \/ chars v = chars w) /\
    (g = true <-> lex_lt (chars w) (chars v)) /\ (ge = true <-> lex_lt (chars w) (chars v) \/ chars v = chars w).
Proof.
  intros V W. destruct (compare_spec v w V W) as (r & E & A & B & C).
  unfold sv_eq, sv_ne, sv_lt, sv_le, sv_gt, sv_ge. rewrite E. cbn [bind].
  do 6 eexists. repeat (split; [reflexivity|]).
  rewrite <- A, <- B, <- C, negb_true_iff, Z.eqb_eq, Z.eqb_neq, !Z.ltb_lt, !Z.leb_le. lia.
Qed.

Lemma compare_sub_ok dbg v pos count w : valid v -> valid w -> 0 <= pos <= vsize v -> 0 <= count < 2 ^ 64 ->
  sv_compare_sub dbg v pos count w = Ok (lexc (firstn (Z.to_nat count) (skipn (Z.to_nat pos) (chars v))) (chars w)).
Proof.
  intros V W Hp Hc. unfold sv_compare_sub. destruct (substr_ok dbg v pos count V Hp Hc) as (r & E & R & C & _).
  rewrite E. cbn [bind]. rewrite compare_ok, C by auto. auto.
Qed.

(** * starts_with and ends_with *)
Lemma front_ok dbg v c t : valid v -> chars v = c :: t -> sv_front dbg v = Ok c.
Proof.
  intros V E. unfold sv_front, chk. rewrite vempty_spec, E by auto. cbn [negb]. rewrite andb_false_r. cbn [bind].
  apply (vget_ok v 0 c V). rewrite E. auto.
Qed.
Lemma back_ok dbg v c t : valid v -> chars v = t ++ [c] -> sv_back dbg v = Ok c.
Proof.
  intros V E. pose proof (chars_length v V) as CL. pose proof (vsize_range v).
  unfold sv_back, chk. rewrite vempty_spec, E by auto.
  assert ((match t ++ [c] with [] => true | _ :: _ => false end) = false) as -> by (destruct t; auto).
  cbn [negb]. rewrite andb_false_r. cbn [bind]. rewrite vend_ok by auto. cbn [bind].
  rewrite E, app_length in CL. simpl in CL.
  pose proof (chars_hold v V) as H'. rewrite E in H'. pose proof H' as Hs. apply hold_snoc in H'. destruct H' as (R & _).
  assert (padd (vmem v) (voff v + vsize v) (-1) = Ok (voff v + Z.of_nat (length t))) as ->.
  { replace (voff v + Z.of_nat (length t)) with (voff v + vsize v + -1) by lia.
    unfold padd. destruct (vmem v) as [l|].
    - destruct Hs as (a & b & El & La). rewrite El, !app_length. simpl length.
      destruct (Z.leb_spec 0 (voff v + vsize v + -1)); [|lia].
      destruct (Z.leb_spec (voff v + vsize v + -1) (Z.of_nat (length a + (length t + 1 + length b)))); [auto|lia].
    - destruct Hs as (K & _). destruct t; discriminate. }
  cbn [bind]. exact R.
Qed.

Lemma vempty_cons v c t : valid v -> chars v = c :: t -> vempty v = false.
Proof. intros V E. rewrite vempty_spec, E; auto. Qed.

Lemma starts_loop_ok dbg m t : forall s p w, hold m p s -> valid w -> chars w = t -> (length t <= length s)%nat ->
  exists b, starts_loop dbg (length t) m p w = Ok b /\ (b = true <-> exists r, s = t ++ r).
Proof.
  induction t as [|d t IH]; intros s p w H W E L; cbn [length starts_loop]; rewrite (vempty_spec w) by auto; rewrite E.
  - exists true. split; [reflexivity|]. split; [intros _; exists s; reflexivity|auto].
  - destruct s as [|c s]; [simpl in L; lia|]. apply hold_cons in H. destruct H as (Rc & H). rewrite Rc. cbn [bind].
    rewrite (front_ok dbg w d t W E). cbn [bind]. destruct (Z.eqb_spec c d); cbn [negb].
    + destruct (remove_prefix_ok w 1 W ltac:(lia)) as (w' & Ew & W' & C' & _). rewrite Ew. cbn [bind].
      rewrite E in C'. change (Z.to_nat 1) with 1%nat in C'. simpl in C'.
      destruct (IH s (p + 1) w' H W' C') as (b & Eb & S); [simpl in L; lia|].
      exists b. split; auto. rewrite S. subst. split; intros (r & K); exists r; simpl in *; congruence.
    + exists false. split; auto. split; [discriminate|]. intros (r & K). simpl in K. congruence.
Qed.

Lemma starts_with_ok dbg v w : valid v -> valid w ->
  exists b, starts_with dbg v w = Ok b /\ (b = true <-> exists r, chars v = chars w ++ r).
Proof.
  intros V W. pose proof (chars_length v V) as CV. pose proof (chars_length w W) as CW. unfold starts_with.
  destruct (Z.ltb_spec (vsize v) (vsize w)).
  - exists false. split; auto. split; [discriminate|]. intros (r & E). rewrite E, app_length in CV. lia.
  - rewrite (chars_len w W). apply starts_loop_ok; auto; [apply chars_hold; auto|lia].
Qed.

Lemma snoc_inv {A} (l : list A) : l = [] \/ exists t c, l = t ++ [c].
Proof. destruct l as [|a l]; auto. right. destruct (exists_last (l := a :: l)) as (t & c & E); [discriminate|]. eauto. Qed.

Lemma ends_loop_ok dbg m n : forall s p w, hold m p s -> valid w -> length (chars w) = n -> (n <= length s)%nat ->
  exists b, ends_loop dbg n m (p + Z.of_nat (length s)) w = Ok b /\ (b = true <-> exists r, s = r ++ chars w).
Proof.
  induction n as [|n IH]; intros s p w H W E L; cbn [ends_loop]; rewrite (vempty_spec w) by auto.
  - destruct (chars w); [|discriminate]. exists true. split; [reflexivity|]. split; [intros _; exists s; rewrite app_nil_r; auto|auto].
  - destruct (snoc_inv (chars w)) as [E0|(t & d & Et)]; [rewrite E0 in E; discriminate|].
    destruct (snoc_inv s) as [E0|(s' & c & Es)]; [rewrite E0 in L; simpl in L; lia|].
    assert ((match chars w with [] => true | _ :: _ => false end) = false) as -> by (rewrite Et; destruct t; auto).
    subst s. rewrite app_length in *. simpl in L.
    apply hold_snoc in H. destruct H as (Rc & H).
    replace (p + Z.of_nat (length s' + length [c]) - 1) with (p + Z.of_nat (length s')) by (simpl; lia).
    rewrite Rc. cbn [bind]. rewrite (back_ok dbg w d t W Et). cbn [bind]. destruct (Z.eqb_spec c d); cbn [negb].
    + destruct (remove_suffix_ok w 1 W ltac:(lia)) as (W' & C' & _).
      assert (C2 : chars (remove_suffix w 1) = t).
      { rewrite C', Et, app_length. change (Z.to_nat 1) with 1%nat. simpl.
        replace (length t + 1 - 1)%nat with (length t + 0)%nat by lia. rewrite firstn_app_2. simpl. apply app_nil_r. }
      rewrite Et, app_length in E. simpl in E.
      destruct (IH s' p (remove_suffix w 1) H W') as (b & Eb & S); [rewrite C2; lia|lia|].
      exists b. split; auto. rewrite S, C2, Et. subst. split; intros (r & K); exists r.
      * rewrite K, app_assoc. auto.
      * rewrite app_assoc in K. apply app_inj_tail in K. tauto.
    + exists false. split; auto. split; [discriminate|]. intros (r & K). rewrite Et, app_assoc in K.
      apply app_inj_tail in K. tauto.
Qed.

Lemma ends_with_ok dbg v w : valid v -> valid w ->
  exists b, ends_with dbg v w = Ok b /\ (b = true <-> exists r, chars v = r ++ chars w).
Proof.
  intros V W. pose proof (chars_length v V) as CV. pose proof (chars_length w W) as CW. unfold ends_with.
  destruct (Z.ltb_spec (vsize v) (vsize w)).
  - exists false. split; auto. split; [discriminate|]. intros (r & E). rewrite E, app_length in CV. lia.
  - rewrite vend_ok by auto. cbn [bind]. rewrite (chars_len w W), <- CV.
    apply ends_loop_ok; auto; [apply chars_hold; auto|lia].
Qed.

Lemma starts_with_char_ok dbg v c : valid v ->
  exists b, starts_with_char dbg v c = Ok b /\ (b = true <-> exists r, chars v = c :: r).
Proof.
  intros V. unfold starts_with_char. rewrite vempty_spec by auto. destruct (chars v) as [|d t] eqn:E.
  - exists false. split; auto. split; [discriminate|]. intros (r & K). discriminate.
  - rewrite (front_ok dbg v d t V E). cbn [bind]. eexists. split; [reflexivity|]. rewrite Z.eqb_eq.
    split; [intros ->; eauto|]. intros (r & K). congruence.
Qed.
Lemma ends_with_char_ok dbg v c : valid v ->
  exists b, ends_with_char dbg v c = Ok b /\ (b = true <-> exists r, chars v = r ++ [c]).
Proof.
  intros V. unfold ends_with_char. rewrite vempty_spec by auto. destruct (snoc_inv (chars v)) as [E|(t & d & E)].
  - rewrite E. exists false. split; auto. split; [discriminate|]. intros ([|] & K); discriminate.
  - assert ((match chars v with [] => true | _ :: _ => false end) = false) as -> by (rewrite E; destruct t; auto).
    rewrite (back_ok dbg v d t V E). cbn [bind]. eexists. split; [reflexivity|]. rewrite Z.eqb_eq, E.
    split; [intros ->; eauto|]. intros (r & K). apply app_inj_tail in K. tauto.
Qed.

(** * Trimming *)
Lemma resize_ok dbg v n : valid v -> 0 <= n <= vsize v ->
  exists v', resize dbg v n = Ok v' /\ valid v' /\ chars v' = firstn (Z.to_nat n) (chars v) /\
    vmem v' = vmem v /\ voff v' = voff v /\ vzt v' = (vzt v && (n =? vsize v)).
Proof.
  intros V Hn. pose proof (vsize_range v). pose proof (chars_length v V). unfold resize.
  destruct (Z.eqb_spec n (vsize v)); cbn [negb].
  - exists v. rewrite andb_true_r. subst. repeat (split; auto). symmetry. apply firstn_all2. lia.
  - unfold chk. destruct (Z.leb_spec n (vsize v)); [|lia]. cbn [negb]. rewrite andb_false_r. cbn [bind].
    destruct (mk_view v 0 n V ltac:(lia) ltac:(lia) ltac:(lia) n) as (A & B).
    + rewrite Z.mod_small; lia.
    + lia.
    + intros Hnull. pose proof (null_size v V Hnull). lia.
    + rewrite Z.add_0_r in *. eexists. split; [reflexivity|]. split; auto. split; auto. split; auto. split; auto.
      rewrite andb_false_r. unfold vzt, zt_offset. cbn [vlast]. destruct (Z.ltb_spec n (2 ^ 63)); auto; lia.
Qed.

(** [a ++ b] with everything in [a] satisfying and the head of [b] not. *)
Lemma idx_split f s : s = firstn (idx f s) s ++ skipn (idx f s) s /\
  Forall (fun c => f c = false) (firstn (idx f s) s) /\
  match skipn (idx f s) s with [] => True | c :: _ => f c = true end.
Proof.
  split; [symmetry; apply firstn_skipn|]. induction s as [|c s IH]; simpl; auto.
  destruct (f c) eqn:D; simpl; auto. destruct IH. split; auto.
Qed.

Lemma first_where_front (P : Z -> Prop) s r : first_where (char_is s (fun c => ~ P c)) r ->
  (forall c, P c \/ ~ P c) -> Z.of_nat (length s) < 2 ^ 63 ->
  drops_front P s (skipn (Z.to_nat r) s).
Proof.
  intros F Dec L. destruct F as [(-> & N)|(i & -> & (c & Ec & Nc) & N)].
  - exists s. rewrite skipn_all2 by (unfold npos; lia). rewrite app_nil_r. split; auto. split; auto.
    apply Forall_forall. intros c I. apply In_nth_error in I. destruct I as (i & Ei).
    destruct (Dec c); auto. exfalso. apply (N i). exists c. auto.
  - rewrite Nat2Z.id. exists (firstn i s). rewrite firstn_skipn. split; auto. split.
    + apply Forall_forall. intros d I. apply In_nth_error in I. destruct I as (j & Ej).
      pose proof (nth_error_some_lt _ _ _ Ej) as Lj. rewrite firstn_length in Lj.
      assert (nth_error s j = Some d).
      { rewrite <- (firstn_skipn i s). rewrite nth_error_app1; auto. rewrite firstn_length. auto. }
      destruct (Dec d); auto. exfalso. apply (N j); [lia|]. exists d. auto.
    + apply nth_error_split in Ec. destruct Ec as (s1 & s2 & -> & <-).
      rewrite skipn_app, skipn_all, Nat.sub_diag. simpl. auto.
Qed.

Lemma last_where_back (P : Z -> Prop) s r : last_where (char_is s (fun c => ~ P c)) r ->
  (forall c, P c \/ ~ P c) -> Z.of_nat (length s) < 2 ^ 63 ->
  0 <= sz (r + 1) <= Z.of_nat (length s) /\ drops_back P s (firstn (Z.to_nat (sz (r + 1))) s).
Proof.
  intros F Dec L. destruct F as [(-> & N)|(i & -> & (c & Ec & Nc) & N)].
  - change (sz (npos + 1)) with 0. split; [lia|]. exists s. simpl. split; auto. split.
    + apply Forall_forall. intros c I. apply In_nth_error in I. destruct I as (i & Ei).
      destruct (Dec c); auto. exfalso. apply (N i). exists c. auto.
    + intros [|] c K; discriminate.
  - pose proof (nth_error_some_lt _ _ _ Ec). rewrite sz_small by lia. split; [lia|].
    replace (Z.to_nat (Z.of_nat i + 1)) with (S i) by lia.
    exists (skipn (S i) s). rewrite firstn_skipn. split; auto. split.
    + apply Forall_forall. intros d I. apply In_nth_error in I. destruct I as (j & Ej). rewrite nth_error_skipn in Ej.
      destruct (Dec d); auto. exfalso. apply (N (S i + j)%nat); [lia|]. exists d. auto.
    + apply nth_error_split in Ec. destruct Ec as (s1 & s2 & -> & <-). intros t d K.
      replace (S (length s1)) with (length s1 + 1)%nat in K by lia. rewrite firstn_app_2 in K. simpl in K.
      apply app_inj_tail in K. destruct K as (_ & <-). auto.
Qed.

Lemma is_space_white c : sv_is_space c = true <-> white c.
Proof. unfold sv_is_space, white. rewrite !orb_true_iff, !Z.eqb_eq. lia. Qed.

Lemma remove_prefix_while_ok v pred : valid v ->
  exists v', remove_prefix_while v pred = Ok v' /\ valid v' /\ drops_front (fun c => pred c = true) (chars v) (chars v').
Proof.
  intros V. pose proof (chars_length v V). pose proof (vsize_range v). unfold remove_prefix_while, find_first_not_of_if.
  destruct (find_first_if_ok false v pred 0 V ltac:(lia)) as (r & E & F & _). rewrite E. cbn [bind].
  assert (0 <= r) by (destruct F as [(-> & _)|(i & -> & _)]; unfold npos; lia).
  destruct (remove_prefix_ok v r V ltac:(lia)) as (v' & Ev & V' & C & _). exists v'. split; auto. split; auto.
  rewrite C. apply first_where_front; [|intros c; destruct (pred c); auto|lia].
  eapply first_where_ext; [|exact F]. intros i. unfold char_is. split.
  - intros (_ & c & Ec & P). exists c. split; auto. congruence.
  - intros (c & Ec & P). split; [lia|]. exists c. split; auto. destruct (pred c); congruence.
Qed.

Lemma remove_suffix_while_ok dbg v pred : valid v ->
  exists v', remove_suffix_while dbg v pred = Ok v' /\ valid v' /\ drops_back (fun c => pred c = true) (chars v) (chars v').
Proof.
  intros V. pose proof (chars_length v V). pose proof (vsize_range v). unfold remove_suffix_while.
  destruct (find_last_not_of_if_ok v pred npos V) as (r & E & F); [unfold npos; lia|unfold npos; lia|].
  rewrite E. cbn [bind].
  destruct (last_where_back (fun c => pred c = true) (chars v) r) as (R & D).
  { eapply last_where_ext; [|exact F]. intros i. unfold char_is. split.
    - intros (_ & c & Ec & P). exists c. split; auto. congruence.
    - intros (c & Ec & P). pose proof (nth_error_some_lt _ _ _ Ec). split; [unfold npos; lia|].
      exists c. split; auto. destruct (pred c); congruence. }
  { intros c; destruct (pred c); auto. }
  { lia. }
  destruct (resize_ok dbg v (sz (r + 1)) V ltac:(lia)) as (v' & Ev & V' & C & _). exists v'. split; auto. split; auto.
  rewrite C. exact D.
Qed.

Lemma char_view_valid c : valid (v_char c) /\ chars (v_char c) = [c].
Proof. split; [|reflexivity]. unfold valid, v_char. repeat split; vm_compute; congruence. Qed.

Lemma remove_prefix_while_char_ok dbg v c : valid v ->
  exists v', remove_prefix_while_char dbg v c = Ok v' /\ valid v' /\ drops_front (fun x => x = c) (chars v) (chars v').
Proof.
  intros V. pose proof (chars_length v V). pose proof (vsize_range v). unfold remove_prefix_while_char, find_first_not_of_char.
  destruct (char_view_valid c) as (W & Cw).
  destruct (find_first_not_of_ok dbg v (v_char c) 0 V W ltac:(lia)) as (r & E & F). rewrite E. cbn [bind].
  assert (0 <= r) by (destruct F as [(-> & _)|(i & -> & _)]; unfold npos; lia).
  destruct (remove_prefix_ok v r V ltac:(lia)) as (v' & Ev & V' & C & _). exists v'. split; auto. split; auto.
  rewrite C. apply first_where_front; [|intros x; destruct (Z.eq_dec x c); auto|lia].
  eapply first_where_ext; [|exact F]. intros i. unfold char_is. rewrite Cw. simpl. split.
  - intros (_ & x & Ec & P). exists x. split; auto.
  - intros (x & Ec & P). split; [lia|]. exists x. split; auto. intros [?|[]]; congruence.
Qed.

Lemma remove_suffix_while_char_ok dbg runtime lo v c : valid v -> (runtime = true -> bytes lo (c :: chars v)) ->
  exists v', remove_suffix_while_char dbg runtime v c = Ok v' /\ valid v' /\ drops_back (fun x => x = c) (chars v) (chars v').
Proof.
  intros V B. pose proof (chars_length v V). pose proof (vsize_range v). unfold remove_suffix_while_char, find_last_not_of_char.
  destruct (char_view_valid c) as (W & Cw).
  destruct (find_last_not_of_ok dbg runtime lo v (v_char c) npos V W) as (r & E & F); [unfold npos; lia|unfold npos; lia| |].
  { intros R. specialize (B R). inversion B; subst. rewrite Cw. apply Forall_app. split; auto. }
  rewrite E. cbn [bind].
  destruct (last_where_back (fun x => x = c) (chars v) r) as (R & D).
  { eapply last_where_ext; [|exact F]. intros i. unfold char_is. rewrite Cw. simpl. split.
    - intros (_ & x & Ec & P). exists x. split; auto.
    - intros (x & Ec & P). pose proof (nth_error_some_lt _ _ _ Ec). split; [unfold npos; lia|].
      exists x. split; auto. intros [?|[]]; congruence. }
  { intros x; destruct (Z.eq_dec x c); auto. }
  { lia. }
  destruct (resize_ok dbg v (sz (r + 1)) V ltac:(lia)) as (v' & Ev & V' & C & _). exists v'. split; auto. split; auto.
  rewrite C. exact D.
Qed.

Lemma drops_front_ext P Q s s' : (forall c, P c <-> Q c) -> drops_front P s s' -> drops_front Q s s'.
Proof.
  intros E (a & S & F & H). exists a. split; auto. split.
  - eapply Forall_impl; [|exact F]. intros c. apply E.
  - destruct s'; auto. rewrite <- E. auto.
Qed.
Lemma drops_back_ext P Q s s' : (forall c, P c <-> Q c) -> drops_back P s s' -> drops_back Q s s'.
Proof.
  intros E (a & S & F & H). exists a. split; auto. split.
  - eapply Forall_impl; [|exact F]. intros c. apply E.
  - intros t c K. rewrite <- E. eauto.
Qed.

Lemma trim_prefix_ok v : valid v ->
  exists v', trim_prefix v = Ok v' /\ valid v' /\ drops_front white (chars v) (chars v').
Proof.
  intros V. destruct (remove_prefix_while_ok v sv_is_space V) as (v' & E & V' & D). exists v'. split; auto. split; auto.
  eapply drops_front_ext; [|exact D]. apply is_space_white.
Qed.
Lemma trim_suffix_ok dbg v : valid v ->
  exists v', trim_suffix dbg v = Ok v' /\ valid v' /\ drops_back white (chars v) (chars v').
Proof.
  intros V. destruct (remove_suffix_while_ok dbg v sv_is_space V) as (v' & E & V' & D). exists v'. split; auto. split; auto.
  eapply drops_back_ext; [|exact D]. apply is_space_white.
Qed.
Lemma trim_ok dbg v : valid v ->
  exists v', trim dbg v = Ok v' /\ valid v' /\
    exists a b, chars v = a ++ chars v' ++ b /\ Forall white a /\ Forall white b /\
      match chars v' with [] => True | c :: _ => ~ white c end /\
      forall t c, chars v' = t ++ [c] -> ~ white c.
Proof.
  intros V. unfold trim. destruct (trim_prefix_ok v V) as (v1 & E1 & V1 & (a & S1 & F1 & H1)).
  rewrite E1. cbn [bind]. destruct (trim_suffix_ok dbg v1 V1) as (v2 & E2 & V2 & (b & S2 & F2 & H2)).
  exists v2. split; auto. split; auto. exists a, b. rewrite S1, S2. repeat (split; auto).
  rewrite S2 in H1. destruct (chars v2); auto.
Qed.

(** * contains *)
Lemma contains_ok v w pos : valid v -> valid w -> 0 <= pos <= vsize v ->
  exists b, sv_contains_pos v w pos = Ok b /\
    (b = true <-> exists i, pos <= Z.of_nat i /\ occurs (chars v) (chars w) i).
Proof.
  intros V W Hp. unfold sv_contains_pos. destruct (sv_find_ok v w pos V W Hp) as (r & E & F). rewrite E. cbn [bind].
  eexists. split; [reflexivity|]. rewrite negb_true_iff, Z.eqb_neq.
  destruct F as [(-> & N)|(i & -> & Q & _)].
  - split; [congruence|]. intros (i & Q). exfalso. apply (N i); auto.
  - split; eauto. intros _. destruct Q as (_ & O). apply occurs_length in O. pose proof (chars_length v V).
    pose proof (vsize_range v). unfold npos. lia.
Qed.
Lemma contains_all_ok v w : valid v -> valid w ->
  exists b, sv_contains v w = Ok b /\ (b = true <-> exists i, occurs (chars v) (chars w) i).
Proof.
  intros V W. pose proof (vsize_range v). destruct (contains_ok v w 0 V W ltac:(lia)) as (b & E & S). exists b. split; auto.
  rewrite S. split; intros (i & H'); exists i; [tauto|split; auto; lia].
Qed.
Lemma contains_char_ok dbg runtime lo v c : valid v -> (runtime = true -> bytes lo (c :: chars v)) ->
  exists b, sv_contains_char dbg runtime v c 0 = Ok b /\ (b = true <-> In c (chars v)).
Proof.
  intros V B. unfold sv_contains_char. destruct (find_char_zero dbg runtime lo v c V B) as (r & E & F). rewrite E. cbn [bind].
  eexists. split; [reflexivity|]. rewrite negb_true_iff, Z.eqb_neq.
  destruct F as [(-> & N)|(i & -> & (x & Ex & ->) & _)].
  - split; [congruence|]. intros I. exfalso. apply In_nth_error in I. destruct I as (i & Ei). apply (N i). exists c. auto.
  - split; [intros _; apply nth_error_In in Ex; auto|]. intros _. pose proof (nth_error_some_lt _ _ _ Ex).
    pose proof (chars_length v V). pose proof (vsize_range v). unfold npos. lia.
Qed.
(** contains( s, pos, count ) answers true when there is no occurrence, and false when
    the first one is at index 0. *)
Lemma contains_count_bad v w pos : valid v -> valid w -> 0 <= pos <= vsize v ->
  exists b, sv_contains_count v w pos = Ok b /\
    ((forall i, pos <= Z.of_nat i -> ~ occurs (chars v) (chars w) i) -> b = true) /\
    (pos = 0 -> occurs (chars v) (chars w) 0 -> b = false).
Proof.
  intros V W Hp. unfold sv_contains_count. destruct (sv_find_ok v w pos V W Hp) as (r & E & F). rewrite E. cbn [bind].
  eexists. split; [reflexivity|]. split.
  - intros N. destruct F as [(-> & _)|(i & -> & (A & O) & _)]; [reflexivity|]. exfalso. eapply N; eauto.
  - intros -> O. destruct F as [(-> & N)|(i & -> & Q & N)].
    + exfalso. apply (N 0%nat). split; auto; lia.
    + destruct i; auto. exfalso. apply (N 0%nat); [lia|]. split; auto; lia.
Qed.

(** * at, operator[] and copy *)
Lemma at_ok dbg v i : valid v -> 0 <= i ->
  sv_at dbg v i = match nth_error (chars v) (Z.to_nat i) with Some c => Ok c | None => Throw end.
Proof.
  intros V Hi. pose proof (chars_length v V). unfold sv_at, sv_index, chk.
  destruct (Z.ltb_spec i (vsize v)); cbn [negb].
  - destruct (nth_get (chars v) (Z.to_nat i)) as (c & E); [lia|]. rewrite E. rewrite andb_false_r. cbn [bind].
    pose proof (vget_ok v (Z.to_nat i) c V E) as G. rewrite Z2Nat.id in G by lia. exact G.
  - destruct (nth_error (chars v) (Z.to_nat i)) eqn:E; auto. pose proof (nth_error_some_lt _ _ _ E). lia.
Qed.

Lemma index_ok dbg v i c : valid v -> nth_error (chars v) i = Some c -> sv_index dbg v (Z.of_nat i) = Ok c.
Proof.
  intros V E. pose proof (nth_error_some_lt _ _ _ E). pose proof (chars_length v V). unfold sv_index, chk.
  destruct (Z.ltb_spec (Z.of_nat i) (vsize v)); [|lia]. cbn [negb]. rewrite andb_false_r. cbn [bind]. apply vget_ok; auto.
Qed.

Lemma upd_app_r {A} (a b : list A) x y : upd (a ++ x :: b) (length a) y = a ++ y :: b.
Proof. induction a as [|z a IH]; simpl; auto. f_equal. auto. Qed.

Lemma copy_loop_ok v s : valid v -> forall p done dest,
  hold (vmem v) (voff v + p) s -> (length s <= length dest)%nat ->
  sv_copy_loop (length s) v p (done ++ dest) (length done) = Ok (done ++ s ++ skipn (length s) dest).
Proof.
  intros V. induction s as [|c s IH]; intros p dn dest H L; cbn [sv_copy_loop length]; [reflexivity|].
  destruct dest as [|x dest]; [simpl in L; lia|]. apply hold_cons in H. destruct H as (E & H).
  unfold vget. rewrite E. cbn [bind].
  rewrite wr_ok by (rewrite app_length; simpl; lia). cbn [bind]. rewrite upd_app_r.
  replace (dn ++ c :: dest) with ((dn ++ [c]) ++ dest) by (rewrite <- app_assoc; auto).
  replace (S (length dn)) with (length (dn ++ [c])) by (rewrite app_length; simpl; lia).
  replace (voff v + p + 1) with (voff v + (p + 1)) in H by lia.
  rewrite IH; auto; [|simpl in L; lia]. rewrite <- app_assoc. auto.
Qed.

Lemma copy_ok dbg v dest count pos : valid v -> 0 <= pos <= vsize v -> 0 <= count ->
  let s := firstn (Z.to_nat count) (skipn (Z.to_nat pos) (chars v)) in
  (length s <= length dest)%nat ->
  sv_copy dbg v dest count pos = Ok (s ++ skipn (length s) dest, Z.of_nat (length s)).
Proof.
  intros V Hp Hc s L. pose proof (chars_length v V). pose proof (vsize_range v). unfold sv_copy, chk.
  destruct (Z.leb_spec pos (vsize v)); [|lia]. cbn [negb]. rewrite andb_false_r. cbn [bind]. cbv zeta.
  rewrite sz_small by lia.
  assert (Ls : length s = Z.to_nat (Z.min count (vsize v - pos))).
  { unfold s. rewrite firstn_length, skipn_length. lia. }
  rewrite <- Ls. pose proof (copy_loop_ok v s V pos [] dest) as K. simpl in K. rewrite K; auto.
  - cbn [bind]. do 2 f_equal. lia.
  - unfold s. apply hold_firstn, hold_at; auto.
Qed.
Lemma copy_throws v dest count pos : vsize v < pos -> sv_copy true v dest count pos = Throw.
Proof. intros H. unfold sv_copy, chk. destruct (Z.leb_spec pos (vsize v)); [lia|]. reflexivity. Qed.

(** * Stream output *)
Lemma read_n_ok m s : forall p, hold m p s -> read_n (length s) m p = Ok s.
Proof.
  induction s as [|c s IH]; intros p H; simpl; auto. apply hold_cons in H. destruct H as (E & H).
  rewrite E. cbn [bind]. rewrite IH by auto. auto.
Qed.
Lemma fill_ok fill : forall fuel n, 0 <= n < Z.of_nat fuel -> fill_chars fuel n fill = Ok (repeat fill (Z.to_nat n)).
Proof.
  induction fuel as [|fuel IH]; intros n Hn; [lia|]. cbn [fill_chars]. destruct (Z.leb_spec 8 n).
  - rewrite IH by lia. cbn [bind]. f_equal. rewrite <- repeat_app. f_equal. lia.
  - destruct (Z.ltb_spec 0 n); auto. replace (Z.to_nat n) with O by lia. auto.
Qed.
Lemma stream_out_ok v width fill (left : bool) : valid v -> 0 <= width < 2 ^ 63 ->
  stream_out v width fill left =
    Ok (let pad := repeat fill (Z.to_nat width - length (chars v)) in
        if left then chars v ++ pad else pad ++ chars v).
Proof.
  intros V Hw. pose proof (chars_length v V). pose proof (vsize_range v). unfold stream_out.
  rewrite (chars_len v V), read_n_ok by (apply chars_hold; auto). cbn [bind]. cbv zeta. rewrite sz_small by lia.
  destruct (Z.leb_spec width (vsize v)).
  - replace (Z.to_nat width - length (chars v))%nat with O by lia. simpl. rewrite app_nil_r. destruct left; auto.
  - rewrite fill_ok by lia. cbn [bind]. replace (Z.to_nat (width - vsize v)) with (Z.to_nat width - length (chars v))%nat by lia.
    auto.
Qed.
