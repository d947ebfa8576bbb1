From Verif Require Import Common CommonProofs Ints BitsModel SpecBits BitsProofs BitQueueProofs StringView SpecString.
From Coq Require Import ZifyNat.
Open Scope Z_scope.
Local Arguments Z.mul : simpl never.
Local Arguments Z.add : simpl never.
Local Arguments Z.sub : simpl never.
Local Arguments Z.pow : simpl never.
Local Arguments Z.of_nat : simpl never.
Ltac Zify.zify_post_hook ::= Z.div_mod_to_equations.

Lemma skipn_skipn {A} (l : list A) p q : skipn p (skipn q l) = skipn (q + p) l.
Proof.
  revert l. induction q as [|q IH]; intros l; auto. destruct l; simpl; auto. apply skipn_nil.
Qed.

(** * Memory holding a list from an offset on. *)
Definition hold (m : option (list Z)) (p : Z) (s : list Z) : Prop :=
  match m with
  | None => s = [] /\ p = 0
  | Some l => exists a b, l = a ++ s ++ b /\ Z.of_nat (length a) = p
  end.

Lemma hold_cons m p c s : hold m p (c :: s) -> rdp m p = Ok c /\ hold m (p + 1) s.
Proof.
  destruct m as [l|]; simpl; [|intros (H & _); discriminate].
  intros (a & b & -> & <-). split.
  - destruct (Z.ltb_spec (Z.of_nat (length a)) 0); [lia|]. rewrite Nat2Z.id.
    unfold rd. rewrite nth_error_app2, Nat.sub_diag by lia. reflexivity.
  - exists (a ++ [c]), b. rewrite <- app_assoc. split; auto. rewrite app_length. simpl. lia.
Qed.

Lemma hold_app m p s t : hold m p (s ++ t) -> hold m p s /\ hold m (p + Z.of_nat (length s)) t.
Proof.
  destruct m as [l|]; simpl.
  - intros (a & b & -> & <-). split.
    + exists a, (t ++ b). rewrite <- !app_assoc. auto.
    + exists (a ++ s), b. rewrite <- !app_assoc. split; auto. rewrite app_length. lia.
  - intros (H & ->). destruct s; simpl in *; [|discriminate]. subst. auto.
Qed.

Lemma hold_snoc m p s c : hold m p (s ++ [c]) -> rdp m (p + Z.of_nat (length s)) = Ok c /\ hold m p s.
Proof. intros H. apply hold_app in H. destruct H as (H1 & H2). apply hold_cons in H2. tauto. Qed.

Lemma hold_nth m p s i c : hold m p s -> nth_error s i = Some c -> rdp m (p + Z.of_nat i) = Ok c.
Proof.
  intros H E. apply nth_error_split in E. destruct E as (s1 & s2 & -> & <-).
  apply hold_app in H. destruct H as (_ & H). apply hold_cons in H. tauto.
Qed.

Lemma hold_padd m p s n : hold m p s -> 0 <= n <= Z.of_nat (length s) -> padd m p n = Ok (p + n).
Proof.
  destruct m as [l|]; simpl.
  - intros (a & b & -> & <-) Hn. rewrite !app_length.
    destruct (Z.leb_spec 0 (Z.of_nat (length a) + n)); [|lia].
    destruct (Z.leb_spec (Z.of_nat (length a) + n) (Z.of_nat (length a + (length s + length b)))); [auto|lia].
  - intros (-> & ->) Hn. simpl in Hn. destruct (Z.eqb_spec n 0); [|lia]. subst. auto.
Qed.

Lemma hold_firstn m p s n : hold m p s -> hold m p (firstn n s).
Proof. intros H. rewrite <- (firstn_skipn n s) in H. apply hold_app in H. tauto. Qed.
Lemma hold_skipn m p s n : (n <= length s)%nat -> hold m p s -> hold m (p + Z.of_nat n) (skipn n s).
Proof.
  intros L H. rewrite <- (firstn_skipn n s) in H. apply hold_app in H.
  rewrite firstn_length_le in H by lia. tauto.
Qed.

(** * Views *)
Lemma unset_mod l : unset_zt l = l mod 2 ^ 63.
Proof. unfold unset_zt, zt_offset. rewrite land_low by lia. auto. Qed.
Lemma vsize_mod v : vsize v = vlast v mod 2 ^ 63.
Proof. exact (unset_mod (vlast v)). Qed.

Lemma vsize_range v : 0 <= vsize v < 2 ^ 63.
Proof. rewrite vsize_mod. lia. Qed.

Lemma chars_length v : valid v -> Z.of_nat (length (chars v)) = vsize v.
Proof.
  pose proof (vsize_range v). unfold valid, chars. destruct (vmem v) as [l|].
  - intros (H1 & H2 & H3 & H4). rewrite firstn_length, skipn_length. lia.
  - intros (H1 & H2). rewrite vsize_mod, H2. reflexivity.
Qed.

Lemma chars_len v : valid v -> Z.to_nat (vsize v) = length (chars v).
Proof. intros V. pose proof (chars_length v V). lia. Qed.

Lemma chars_hold v : valid v -> hold (vmem v) (voff v) (chars v).
Proof.
  unfold valid, hold, chars. destruct (vmem v) as [l|].
  - intros (H1 & H2 & H3 & H4). exists (firstn (Z.to_nat (voff v)) l), (skipn (Z.to_nat (vsize v)) (skipn (Z.to_nat (voff v)) l)).
    rewrite !firstn_skipn. split; auto. pose proof (vsize_range v). rewrite firstn_length. lia.
  - tauto.
Qed.

Lemma vempty_nil v : valid v -> vempty v = true <-> chars v = [].
Proof.
  intros V. unfold vempty. rewrite <- (chars_length v V), Z.eqb_eq.
  destruct (chars v); simpl; split; auto; try discriminate; lia.
Qed.
Lemma vempty_spec v : valid v -> vempty v = match chars v with [] => true | _ => false end.
Proof.
  intros V. destruct (chars v) eqn:E.
  - apply vempty_nil; auto.
  - destruct (vempty v) eqn:D; auto. apply vempty_nil in D; auto. congruence.
Qed.

Lemma vend_ok v : valid v -> vend v = Ok (voff v + vsize v).
Proof.
  intros V. unfold vend. pose proof (chars_hold v V) as H. rewrite (hold_padd _ _ _ _ H); auto.
  rewrite (chars_length v V). pose proof (vsize_range v). lia.
Qed.

Lemma vget_ok v i c : valid v -> nth_error (chars v) i = Some c -> vget v (Z.of_nat i) = Ok c.
Proof. intros V E. unfold vget. eapply hold_nth; eauto. apply chars_hold; auto. Qed.

Lemma padd_ok v n : valid v -> 0 <= n <= vsize v -> padd (vmem v) (voff v) n = Ok (voff v + n).
Proof. intros V Hn. eapply hold_padd; [apply chars_hold; auto|]. rewrite (chars_length v V). auto. Qed.

Lemma swrap_id n : 0 <= n < 2 ^ 63 -> swrap 64 n = n.
Proof.
  intros H. unfold swrap. change (64 - 1) with 63. rewrite Z.mod_small by lia.
  destruct (Z.ltb_spec n (2 ^ 63)); lia.
Qed.

(** The view of a held range. *)
Lemma valid_off v l : valid v -> vmem v = Some l -> 0 <= voff v /\ voff v + vsize v <= Z.of_nat (length l) < 2 ^ 63.
Proof. unfold valid. intros V E. rewrite E in V. pose proof (vsize_range v). lia. Qed.

Lemma mk_view v p n : valid v -> 0 <= p -> 0 <= n -> p + n <= vsize v -> forall l,
  l mod 2 ^ 63 = n -> 0 <= l < 2 ^ 64 -> (vmem v = None -> l = 0) ->
  valid (View (vmem v) (voff v + p) l) /\
  chars (View (vmem v) (voff v + p) l) = firstn (Z.to_nat n) (skipn (Z.to_nat p) (chars v)).
Proof.
  intros V Hp Hn Hs l Hl R Hnull.
  assert (S : vsize (View (vmem v) (voff v + p) l) = n) by (rewrite vsize_mod; auto).
  unfold valid, chars. cbn [vmem voff vlast]. rewrite S.
  destruct (vmem v) as [m|] eqn:E.
  - pose proof (valid_off v m V E) as (H1 & H2). split; [lia|].
    rewrite skipn_firstn_comm, firstn_firstn. rewrite skipn_skipn.
    f_equal; [lia|]. f_equal. lia.
  - unfold valid in V. rewrite E in V. destruct V as (V1 & V2).
    rewrite (Hnull eq_refl) in *. rewrite vsize_mod, V2 in Hs. change (0 mod 2 ^ 63) with 0 in Hs.
    split; [lia|]. rewrite skipn_nil, firstn_nil. auto.
Qed.

Lemma null_size v : valid v -> vmem v = None -> vsize v = 0 /\ vlast v = 0 /\ voff v = 0.
Proof. unfold valid. intros V E. rewrite E in V. destruct V as (A & B). rewrite vsize_mod, B. auto. Qed.

(** * Prefix and suffix removal *)
Lemma last_range v : valid v -> 0 <= vlast v < 2 ^ 64.
Proof. unfold valid. destruct (vmem v); lia. Qed.

Lemma dec_front_ok v n : valid v -> 0 <= n <= vsize v ->
  exists v', dec_front v n = Ok v' /\ valid v' /\ chars v' = skipn (Z.to_nat n) (chars v) /\
    vmem v' = vmem v /\ voff v' = voff v + n /\ vzt v' = vzt v /\ vsize v' = vsize v - n.
Proof.
  intros V Hn. pose proof (vsize_range v) as R. pose proof (last_range v V) as LR.
  unfold dec_front. rewrite swrap_id by lia. rewrite padd_ok by auto. cbn [bind].
  assert (E : sz (vlast v - n) = vlast v - n) by (apply sz_small; rewrite vsize_mod in *; lia).
  rewrite E. eexists. split; [reflexivity|].
  destruct (mk_view v n (vsize v - n) V ltac:(lia) ltac:(lia) ltac:(lia) (vlast v - n)) as (A & B).
  - rewrite vsize_mod in *. lia.
  - rewrite vsize_mod in *. lia.
  - intros Hnull. pose proof (null_size v V Hnull). lia.
  - split; auto. cbn [vmem voff]. repeat split; auto.
    + rewrite B. apply firstn_all2. rewrite skipn_length. pose proof (chars_length v V). lia.
    + unfold vzt, zt_offset. cbn [vlast]. rewrite vsize_mod in *. f_equal.
      destruct (Z.ltb_spec (vlast v - n) (2 ^ 63)), (Z.ltb_spec (vlast v) (2 ^ 63)); auto; lia.
    + rewrite vsize_mod. cbn [vlast]. rewrite vsize_mod in *. lia.
Qed.

Lemma dec_back_ok v n : valid v -> 0 <= n <= vsize v ->
  valid (dec_back v n) /\ chars (dec_back v n) = firstn (Z.to_nat (vsize v - n)) (chars v) /\
    vmem (dec_back v n) = vmem v /\ voff (dec_back v n) = voff v /\ vzt (dec_back v n) = false /\
    vsize (dec_back v n) = vsize v - n.
Proof.
  intros V Hn. pose proof (vsize_range v) as R. pose proof (last_range v V) as LR.
  assert (E : sz (vlast v - n) = vlast v - n) by (apply sz_small; rewrite vsize_mod in *; lia).
  unfold dec_back. rewrite E, unset_mod.
  assert (E2 : (vlast v - n) mod 2 ^ 63 = vsize v - n) by (rewrite vsize_mod in *; lia).
  rewrite E2.
  destruct (mk_view v 0 (vsize v - n) V ltac:(lia) ltac:(lia) ltac:(lia) (vsize v - n)) as (A & B).
  - lia.
  - lia.
  - intros Hnull. pose proof (null_size v V Hnull). lia.
  - rewrite Z.add_0_r in *. split; [exact A|]. cbn [vmem voff]. repeat split; auto.
    + unfold vzt, zt_offset. cbn [vlast]. destruct (Z.ltb_spec (vsize v - n) (2 ^ 63)); auto; lia.
    + rewrite vsize_mod. cbn [vlast]. lia.
Qed.

Lemma remove_prefix_ok v n : valid v -> 0 <= n ->
  exists v', remove_prefix v n = Ok v' /\ valid v' /\ chars v' = skipn (Z.to_nat n) (chars v) /\
    vmem v' = vmem v /\ voff v' = voff v + Z.min n (vsize v) /\ vzt v' = vzt v /\
    vsize v' = vsize v - Z.min n (vsize v).
Proof.
  intros V Hn. pose proof (vsize_range v). unfold remove_prefix.
  destruct (dec_front_ok v (Z.min n (vsize v)) V ltac:(lia)) as (v' & E & W & C & M & O & T & S).
  exists v'. repeat split; auto. rewrite C. pose proof (chars_length v V).
  destruct (Z.le_gt_cases n (vsize v)).
  - rewrite Z.min_l by lia. auto.
  - rewrite Z.min_r by lia. rewrite !skipn_all2 by lia. auto.
Qed.

Lemma remove_suffix_ok v n : valid v -> 0 <= n ->
  valid (remove_suffix v n) /\ chars (remove_suffix v n) = firstn (length (chars v) - Z.to_nat n) (chars v) /\
    vmem (remove_suffix v n) = vmem v /\ voff (remove_suffix v n) = voff v /\
    vzt (remove_suffix v n) = false /\ vsize (remove_suffix v n) = vsize v - Z.min n (vsize v).
Proof.
  intros V Hn. pose proof (vsize_range v). unfold remove_suffix.
  destruct (dec_back_ok v (Z.min n (vsize v)) V ltac:(lia)) as (W & C & M & O & T & S).
  repeat split; auto. rewrite C. pose proof (chars_length v V). f_equal. lia.
Qed.

(** * Sub-ranges *)
Lemma hold_at v pos : valid v -> 0 <= pos <= vsize v ->
  hold (vmem v) (voff v + pos) (skipn (Z.to_nat pos) (chars v)).
Proof.
  intros V Hp. pose proof (chars_length v V).
  pose proof (hold_skipn (vmem v) (voff v) (chars v) (Z.to_nat pos)) as H'.
  rewrite Z2Nat.id in H' by lia. apply H'; [lia|]. apply chars_hold; auto.
Qed.
Lemma substr_ok dbg v pos count : valid v -> 0 <= pos <= vsize v -> 0 <= count < 2 ^ 64 ->
  exists r, substr dbg v pos count = Ok r /\ valid r /\
    chars r = firstn (Z.to_nat count) (skipn (Z.to_nat pos) (chars v)) /\
    vmem r = vmem v /\ voff r = voff v + pos /\ vzt r = false /\ vsize r = Z.min count (vsize v - pos).
Proof.
  intros V Hp Hc. pose proof (vsize_range v) as R. unfold substr, chk.
  destruct (Z.leb_spec pos (vsize v)); [|lia]. cbn [negb]. rewrite andb_false_r. cbn [bind]. cbv zeta.
  rewrite sz_small by lia. rewrite padd_ok by auto. cbn [bind].
  set (rc := Z.min count (vsize v - pos)).
  assert (Hrc : 0 <= rc <= vsize v - pos) by (unfold rc; lia).
  pose proof (hold_at v pos V ltac:(lia)) as H'.
  rewrite (hold_padd _ _ _ rc H') by (rewrite skipn_length; pose proof (chars_length v V); lia).
  cbn [bind]. eexists. split; [reflexivity|]. unfold v_between.
  replace (sz (voff v + pos + rc - (voff v + pos))) with rc by (rewrite sz_small by lia; lia).
  destruct (mk_view v pos rc V ltac:(lia) ltac:(lia) ltac:(lia) rc) as (A & B).
  - lia.
  - lia.
  - intros Hnull. pose proof (null_size v V Hnull). lia.
  - split; auto. cbn [vmem voff vlast]. repeat split; auto.
    + rewrite B. unfold rc. pose proof (chars_length v V).
      destruct (Z.le_gt_cases count (vsize v - pos)).
      * rewrite Z.min_l by lia. auto.
      * rewrite Z.min_r by lia. rewrite !firstn_all2; auto; rewrite skipn_length; lia.
    + unfold vzt, zt_offset. cbn [vlast]. destruct (Z.ltb_spec rc (2 ^ 63)); auto; lia.
    + rewrite vsize_mod. cbn [vlast]. lia.
Qed.

Lemma substr_throws v pos count : vsize v < pos -> substr true v pos count = Throw.
Proof. intros H. unfold substr, chk. destruct (Z.leb_spec pos (vsize v)); [lia|]. reflexivity. Qed.

(** * First index with a property *)
Fixpoint idx (f : Z -> bool) (s : list Z) : nat :=
  match s with
  | [] => O
  | c :: s => if f c then O else S (idx f s)
  end.

Lemma idx_le f s : (idx f s <= length s)%nat.
Proof. induction s as [|c s IH]; simpl; auto. destruct (f c); simpl; lia. Qed.
Lemma idx_before f s j c : (j < idx f s)%nat -> nth_error s j = Some c -> f c = false.
Proof.
  revert j. induction s as [|d s IH]; intros j Hj E; simpl in Hj; [lia|].
  destruct (f d) eqn:D; [lia|]. destruct j; simpl in E; [congruence|]. apply (IH j); auto. lia.
Qed.
Lemma idx_at f s : (idx f s < length s)%nat -> exists c, nth_error s (idx f s) = Some c /\ f c = true.
Proof.
  induction s as [|d s IH]; simpl; intros L; [lia|]. destruct (f d) eqn:D; simpl; eauto.
  apply IH. lia.
Qed.

Definition first_res (s : list Z) (lo : nat) (f : Z -> bool) : Z :=
  let j := (lo + idx f (skipn lo s))%nat in
  if (j =? length s)%nat then npos else Z.of_nat j.

Lemma nth_error_skipn {A} (s : list A) lo i : nth_error (skipn lo s) i = nth_error s (lo + i).
Proof. revert s. induction lo as [|lo IH]; intros s; auto. destruct s; simpl; auto. destruct i; auto. Qed.

Lemma first_res_spec s lo f (P : Z -> Prop) : (forall c, In c s -> f c = true <-> P c) ->
  (lo <= length s)%nat ->
  first_where (fun i => (lo <= i)%nat /\ char_is s P i) (first_res s lo f).
Proof.
  intros F L. unfold first_res. cbv zeta. pose proof (idx_le f (skipn lo s)) as IL. rewrite skipn_length in IL.
  assert (NB : forall j, (lo <= j)%nat -> (j < lo + idx f (skipn lo s))%nat -> ~ char_is s P j).
  { intros j Hj Hlt (c & E & Pc). replace j with (lo + (j - lo))%nat in E by lia.
    assert (I : In c s) by (apply nth_error_In in E; auto).
    rewrite <- nth_error_skipn in E. apply (idx_before f) in E; [|lia].
    apply F in Pc; auto. congruence. }
  destruct (Nat.eqb_spec (lo + idx f (skipn lo s)) (length s)) as [Eq|Ne].
  - left. split; auto. intros i (Hi & C). pose proof C as (c & E & _).
    pose proof (nth_error_some_lt _ _ _ E). apply (NB i); auto. lia.
  - right. eexists. split; [reflexivity|].
    destruct (idx_at f (skipn lo s)) as (c & E & Fc); [rewrite skipn_length; lia|].
    rewrite nth_error_skipn in E. split.
    + split; [lia|]. exists c. split; auto. apply F; auto. apply nth_error_In in E; auto.
    + intros j Hj (Hlo & C). apply (NB j); auto.
Qed.

Lemma first_where_ext Q Q' r : (forall i, Q i <-> Q' i) -> first_where Q r -> first_where Q' r.
Proof.
  intros E [(-> & H)|(i & -> & H & N)].
  - left. split; auto. intros i. rewrite <- E. auto.
  - right. exists i. split; auto. rewrite <- E. split; auto. intros j. rewrite <- E. auto.
Qed.
Lemma last_where_ext Q Q' r : (forall i, Q i <-> Q' i) -> last_where Q r -> last_where Q' r.
Proof.
  intros E [(-> & H)|(i & -> & H & N)].
  - left. split; auto. intros i. rewrite <- E. auto.
  - right. exists i. split; auto. rewrite <- E. split; auto. intros j. rewrite <- E. auto.
Qed.

(** Turning a pointer result into a position. *)
Lemma pos_result v lo k : valid v -> 0 <= lo -> 0 <= k -> lo + k <= vsize v ->
  (if voff v + vsize v =? voff v + lo + k then Ok npos else Ok (sz (voff v + lo + k - voff v))) =
  (if (Z.to_nat lo + Z.to_nat k =? length (chars v))%nat then Ok npos else Ok (Z.of_nat (Z.to_nat lo + Z.to_nat k))).
Proof.
  intros V Hl Hk H. pose proof (chars_length v V). pose proof (vsize_range v).
  destruct (Z.eqb_spec (voff v + vsize v) (voff v + lo + k)), (Nat.eqb_spec (Z.to_nat lo + Z.to_nat k) (length (chars v))); auto; try lia.
  rewrite sz_small by lia. f_equal. lia.
Qed.

Lemma first_if_loop_ok want pred m s : forall p, hold m p s ->
  first_if_loop want pred (length s) m p = Ok (p + Z.of_nat (idx (fun c => Bool.eqb (pred c) want) s)).
Proof.
  induction s as [|c s IH]; intros p H; simpl; [f_equal; lia|].
  apply hold_cons in H. destruct H as (E & H). rewrite E. cbn [bind].
  destruct (Bool.eqb (pred c) want); [f_equal; lia|]. rewrite IH by auto. f_equal. lia.
Qed.

Lemma find_first_if_ok want v pred pos : valid v -> 0 <= pos ->
  exists r, find_first_if want v pred pos = Ok r /\
    first_where (fun i => pos <= Z.of_nat i /\ char_is (chars v) (fun c => pred c = want) i) r /\
    (pos <= vsize v -> r = first_res (chars v) (Z.to_nat pos) (fun c => Bool.eqb (pred c) want)).
Proof.
  intros V Hp. unfold find_first_if. pose proof (chars_length v V) as CL.
  destruct (Z.leb_spec (vsize v) pos).
  - exists npos. split; auto. split.
    + left. split; auto. intros i (Hi & c & E & _). pose proof (nth_error_some_lt _ _ _ E). lia.
    + intros. unfold first_res. assert (pos = vsize v) by lia. subst.
      rewrite chars_len, skipn_all by auto. simpl. rewrite Nat.add_0_r, Nat.eqb_refl. auto.
  - rewrite padd_ok by (auto; lia). cbn [bind].
    pose proof (hold_at v pos V ltac:(lia)) as H'.
    replace (Z.to_nat (vsize v - pos)) with (length (skipn (Z.to_nat pos) (chars v)))
      by (rewrite skipn_length; lia).
    rewrite first_if_loop_ok by auto. cbn [bind]. rewrite vend_ok by auto. cbn [bind].
    pose proof (idx_le (fun c => Bool.eqb (pred c) want) (skipn (Z.to_nat pos) (chars v))) as IL.
    rewrite skipn_length in IL.
    rewrite pos_result by (auto; lia). rewrite Nat2Z.id.
    exists (first_res (chars v) (Z.to_nat pos) (fun c => Bool.eqb (pred c) want)). split; [|split; auto].
    + unfold first_res. cbv zeta. destruct (_ =? _)%nat; auto.
    + eapply first_where_ext; [|apply (first_res_spec (chars v) (Z.to_nat pos) (fun c => Bool.eqb (pred c) want) (fun c => pred c = want))].
      * intros i. split; intros (A & B); split; auto; lia.
      * intros c _. rewrite Bool.eqb_true_iff. tauto.
      * lia.
Qed.

(** * Substring search *)
Fixpoint pre (s t : list Z) {struct t} : hit :=
  match t with
  | [] => Found
  | d :: t => match s with
              | [] => AtEnd
              | c :: s => if c =? d then pre s t else Differ
              end
  end.
Fixpoint srch (s t : list Z) : option nat :=
  match pre s t with
  | Found => Some O
  | AtEnd => None
  | Differ => match s with
              | [] => None
              | _ :: s => option_map S (srch s t)
              end
  end.

Lemma search_inner_ok hm nm t : forall s h n hlast, hold hm h s -> hold nm n t ->
  hlast = h + Z.of_nat (length s) ->
  search_inner (length t) hm h hlast nm n = Ok (pre s t).
Proof.
  induction t as [|d t IH]; intros s h n hlast Hs Ht ->; simpl; auto.
  destruct s as [|c s].
  - simpl. destruct (Z.eqb_spec h (h + Z.of_nat 0)); [auto|lia].
  - destruct (Z.eqb_spec h (h + Z.of_nat (length (c :: s)))); [simpl in e; lia|].
    apply hold_cons in Hs. apply hold_cons in Ht. destruct Hs as (Es & Hs), Ht as (Et & Ht).
    rewrite Es, Et. cbn [bind]. destruct (Z.eqb_spec c d); cbn [negb]; auto.
    apply IH; auto. simpl. lia.
Qed.

Lemma search_outer_ok hm nm t n : hold nm n t -> forall s h hlast fuel, hold hm h s ->
  hlast = h + Z.of_nat (length s) -> (length s < fuel)%nat ->
  search_outer fuel hm h hlast nm n (length t) = Ok (option_map (fun k => h + Z.of_nat k) (srch s t)).
Proof.
  intros Ht. induction s as [|c s IH]; intros h hlast fuel Hs E F; (destruct fuel as [|fuel]; [simpl in F; lia|]);
    cbn [search_outer]; rewrite (search_inner_ok _ _ t _ _ _ _ Hs Ht E); cbn [bind]; simpl srch.
  - destruct t as [|d t]; simpl; auto. do 2 f_equal; lia.
  - destruct (pre (c :: s) t) eqn:P; simpl; auto.
    + do 2 f_equal; lia.
    + apply hold_cons in Hs. destruct Hs as (_ & Hs).
      rewrite IH by (auto; simpl in *; lia). destruct (srch s t); simpl; auto. do 2 f_equal; lia.
Qed.

Lemma pre_found s t : pre s t = Found <-> exists b, s = t ++ b.
Proof.
  revert s. induction t as [|d t IH]; intros s; simpl.
  - split; eauto.
  - destruct s as [|c s]; [split; [discriminate|intros (b & E); discriminate]|].
    destruct (Z.eqb_spec c d).
    + subst. rewrite IH. split; intros (b & E); exists b; congruence.
    + split; [discriminate|]. intros (b & E). congruence.
Qed.
Lemma pre_at_end s t : pre s t = AtEnd -> (length s < length t)%nat.
Proof.
  revert s. induction t as [|d t IH]; intros s; simpl; [discriminate|].
  destruct s as [|c s]; simpl; [lia|]. destruct (c =? d); [|discriminate]. intros H. apply IH in H. lia.
Qed.

Lemma occurs_zero s t : occurs s t 0 <-> exists b, s = t ++ b.
Proof.
  split.
  - intros (a & b & E & L). destruct a; [|discriminate]. eauto.
  - intros (b & E). exists [], b. auto.
Qed.
Lemma occurs_succ c s t i : occurs (c :: s) t (S i) <-> occurs s t i.
Proof.
  split.
  - intros (a & b & E & L). destruct a as [|x a]; [discriminate|]. inv E. exists a, b. auto.
  - intros (a & b & E & L). exists (c :: a), b. subst. auto.
Qed.
Lemma occurs_length s t i : occurs s t i -> (i + length t <= length s)%nat.
Proof. intros (a & b & -> & <-). rewrite !app_length. lia. Qed.

Lemma srch_spec s t : match srch s t with
                      | None => forall i, ~ occurs s t i
                      | Some k => occurs s t k /\ forall j, (j < k)%nat -> ~ occurs s t j
                      end.
Proof.
  induction s as [|c s IH]; cbn [srch].
  - destruct (pre [] t) eqn:P.
    + split; [|lia]. apply occurs_zero, pre_found; auto.
    + apply pre_at_end in P. intros i O. apply occurs_length in O. lia.
    + destruct t; discriminate.
  - destruct (pre (c :: s) t) eqn:P.
    + split; [|lia]. apply occurs_zero, pre_found; auto.
    + apply pre_at_end in P. intros i O. apply occurs_length in O. lia.
    + assert (N0 : ~ occurs (c :: s) t 0).
      { intros O. apply occurs_zero, pre_found in O. congruence. }
      destruct (srch s t) as [k|]; simpl.
      * destruct IH as (O & N). split; [apply occurs_succ; auto|].
        intros [|j] Hj; auto. rewrite occurs_succ. apply N. lia.
      * intros [|i]; auto. rewrite occurs_succ. auto.
Qed.

Lemma occurs_skipn s t lo i : (lo <= length s)%nat -> occurs (skipn lo s) t i <-> occurs s t (lo + i).
Proof.
  revert s. induction lo as [|lo IH]; intros s L; [simpl; tauto|].
  destruct s as [|c s]; simpl in L; [lia|]. simpl skipn. rewrite IH by lia.
  change (S lo + i)%nat with (S (lo + i)). rewrite occurs_succ. tauto.
Qed.

Definition srch_res (s t : list Z) (lo : nat) : Z :=
  match srch (skipn lo s) t with
  | None => npos
  | Some k => Z.of_nat (lo + k)
  end.

Lemma srch_res_spec s t lo : (lo <= length s)%nat ->
  first_where (fun i => (lo <= i)%nat /\ occurs s t i) (srch_res s t lo).
Proof.
  intros L. unfold srch_res. pose proof (srch_spec (skipn lo s) t) as H.
  destruct (srch (skipn lo s) t) as [k|].
  - destruct H as (O & N). right. exists (lo + k)%nat. split; auto. rewrite occurs_skipn in O by auto.
    split; [split; auto; lia|]. intros j Hj (Hl & Oj). apply (N (j - lo)%nat); [lia|].
    rewrite occurs_skipn by auto. replace (lo + (j - lo))%nat with j by lia. auto.
  - left. split; auto. intros i (Hl & O). apply (H (i - lo)%nat). rewrite occurs_skipn by auto.
    replace (lo + (i - lo))%nat with i by lia. auto.
Qed.

Lemma search_ptr_ok v w pos : valid v -> valid w -> 0 <= pos <= vsize v ->
  search_ptr (vmem v) (voff v + pos) (vsize v - pos) (vmem w) (voff w) (vsize w) =
    Ok (option_map (fun k => voff v + pos + Z.of_nat k) (srch (skipn (Z.to_nat pos) (chars v)) (chars w))).
Proof.
  intros V W Hp. pose proof (chars_length v V) as CL. pose proof (vsize_range v). pose proof (vsize_range w).
  pose proof (hold_at v pos V ltac:(lia)) as H'. unfold search_ptr.
  rewrite (hold_padd _ _ _ _ H') by (rewrite skipn_length; lia). cbn [bind].
  rewrite padd_ok by (auto; lia). cbn [bind]. rewrite (chars_len w W).
  apply search_outer_ok; auto.
  - apply chars_hold; auto.
  - rewrite skipn_length. lia.
  - rewrite skipn_length. lia.
Qed.

Lemma sv_find_ok v w pos : valid v -> valid w -> 0 <= pos <= vsize v ->
  exists r, sv_find v w pos = Ok r /\
    first_where (fun i => pos <= Z.of_nat i /\ occurs (chars v) (chars w) i) r.
Proof.
  intros V W Hp. pose proof (chars_length v V) as CL. pose proof (chars_length w W) as CW.
  pose proof (vsize_range v). unfold sv_find.
  destruct (Z.ltb_spec (vsize v) (vsize w)).
  - exists npos. split; auto. left. split; auto. intros i (_ & O). apply occurs_length in O. lia.
  - rewrite vempty_spec by auto. destruct (chars w) as [|d t] eqn:E.
    + exists pos. split; auto. right. exists (Z.to_nat pos). split; [lia|]. split.
      * split; [lia|]. exists (firstn (Z.to_nat pos) (chars v)), (skipn (Z.to_nat pos) (chars v)).
        simpl app. rewrite firstn_skipn. split; auto. rewrite firstn_length. lia.
      * intros j Hj (A & _). lia.
    + rewrite <- E. rewrite swrap_id by lia. rewrite padd_ok by (auto; lia). cbn [bind]. rewrite sz_small by lia.
      rewrite search_ptr_ok by auto. cbn [bind].
      exists (srch_res (chars v) (chars w) (Z.to_nat pos)). split.
      * unfold srch_res. pose proof (srch_spec (skipn (Z.to_nat pos) (chars v)) (chars w)) as SP.
        destruct (srch _ _) as [k|]; simpl; auto.
        destruct SP as (SP & _). apply occurs_length in SP. rewrite skipn_length in SP.
        rewrite sz_small by lia. f_equal. lia.
      * eapply first_where_ext; [|apply srch_res_spec; lia].
        intros i. split; intros (A & B); split; auto; lia.
Qed.
