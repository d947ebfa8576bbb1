From Verif Require Import Common CommonProofs Ints BitsModel SpecBits BitsProofs BitQueueProofs StringView SpecString StringViewProofs StringSearchProofs StringLastProofs StringOtherProofs StringPop StringPopProofs StringView1 SpecStringView1.
From Coq Require Import ZifyNat.
Open Scope Z_scope.
Local Arguments Z.mul : simpl never.
Local Arguments Z.add : simpl never.
Local Arguments Z.sub : simpl never.
Local Arguments Z.pow : simpl never.
Local Arguments Z.of_nat : simpl never.
Ltac Zify.zify_post_hook ::= Z.div_mod_to_equations.

(** * The working relation: the view shows [s] *)
Definition sh (v : view1) (s : list Z) : Prop :=
  hold (mem1 v) (first1 v) s /\ last1 v = first1 v + Z.of_nat (length s) /\
  match mem1 v with Some l => Z.of_nat (length l) < 2 ^ 63 | None => True end.

Lemma sh_iff v s : sh v s <-> valid1 v /\ chars1 v = s.
Proof.
  destruct v as [m f l]. unfold sh, valid1, chars1, hold. cbn [mem1 first1 last1]. destruct m as [a|].
  - split.
    + intros ((x & y & -> & <-) & -> & B). rewrite !app_length in *. split; [lia|].
      rewrite Nat2Z.id. replace (Z.to_nat _) with (length s) by lia.
      rewrite skipn_app, skipn_all, Nat.sub_diag. simpl. rewrite firstn_app, firstn_all, Nat.sub_diag. simpl. apply app_nil_r.
    + intros (V & <-). split; [|split; [rewrite firstn_length, skipn_length; lia | lia]].
      exists (firstn (Z.to_nat f) a), (skipn (Z.to_nat (l - f)) (skipn (Z.to_nat f) a)).
      rewrite firstn_skipn, firstn_skipn, firstn_length. split; auto. lia.
  - split.
    + intros ((-> & ->) & -> & _). simpl. auto.
    + intros ((-> & ->) & <-). simpl. auto.
Qed.
Lemma sh_of v : valid1 v -> sh v (chars1 v).
Proof. intros V. apply sh_iff. auto. Qed.

Lemma sh_bound v s : sh v s -> Z.of_nat (length s) < 2 ^ 63 /\ 0 <= first1 v.
Proof.
  intros (H & _ & B). unfold hold in H. destruct (mem1 v).
  - destruct H as (a & b & -> & F). rewrite !app_length in B. lia.
  - destruct H as (-> & F). simpl. lia.
Qed.
Lemma sh_size v s : sh v s -> size1 v = Z.of_nat (length s).
Proof.
  intros H. pose proof (sh_bound v s H). destruct H as (_ & E & _). unfold size1. rewrite E.
  rewrite sz_small; lia.
Qed.
Lemma sh_empty v s : sh v s -> empty1 v = match s with [] => true | _ => false end.
Proof. intros H. unfold empty1. rewrite (sh_size v s H). destruct s; [auto|]. simpl length. destruct (Z.eqb_spec (Z.of_nat (S (length s))) 0); auto; lia. Qed.
Lemma sh_padd v s n : sh v s -> 0 <= n <= Z.of_nat (length s) -> padd (mem1 v) (first1 v) n = Ok (first1 v + n).
Proof. intros (H & _) B. eapply hold_padd; eauto. Qed.
Lemma sh_padd_last v s n : sh v s -> 0 <= n <= Z.of_nat (length s) -> padd (mem1 v) (last1 v) (- n) = Ok (last1 v - n).
Proof.
  intros (H & E & _) B. unfold hold in H. unfold padd. destruct (mem1 v).
  - destruct H as (a & b & -> & F). rewrite E, <- F, !app_length.
    destruct (Z.leb_spec 0 (Z.of_nat (length a) + Z.of_nat (length s) + - n)); [|lia].
    destruct (Z.leb_spec (Z.of_nat (length a) + Z.of_nat (length s) + - n) (Z.of_nat (length a + (length s + length b)))); [|lia].
    simpl. f_equal; lia.
  - destruct H as (-> & _). simpl in B. assert (n = 0) by lia. subst. simpl. f_equal; lia.
Qed.
(** Any sub-range. *)
Lemma sh_sub v s p n : sh v s -> 0 <= p -> 0 <= n -> p + n <= Z.of_nat (length s) ->
  sh (V1 (mem1 v) (first1 v + p) (first1 v + p + n)) (firstn (Z.to_nat n) (skipn (Z.to_nat p) s)).
Proof.
  intros (H & E & B) P N L. unfold sh. cbn [mem1 first1 last1]. split; [|split; auto].
  - apply hold_firstn. replace p with (Z.of_nat (Z.to_nat p)) at 1 by lia. apply hold_skipn; auto; lia.
  - rewrite firstn_length, skipn_length. lia.
Qed.
Lemma sh_hold_at v s p : sh v s -> 0 <= p <= Z.of_nat (length s) ->
  hold (mem1 v) (first1 v + p) (skipn (Z.to_nat p) s).
Proof. intros (H & _) P. replace p with (Z.of_nat (Z.to_nat p)) at 1 by lia. apply hold_skipn; auto; lia. Qed.
Lemma yields_sh r s : (exists v, r = Ok v /\ sh v s) <-> yields r s.
Proof.
  unfold yields. split; intros (v & E & H); exists v; split; auto; apply sh_iff; auto.
Qed.

(** * Sub-views *)
Lemma remove_prefix1_ok v s n : sh v s -> 0 <= n ->
  exists v', remove_prefix1 v n = Ok v' /\ sh v' (skipn (Z.to_nat n) s) /\
    mem1 v' = mem1 v /\ last1 v' = last1 v /\ first1 v' = first1 v + Z.min n (Z.of_nat (length s)).
Proof.
  intros H N. pose proof (sh_bound v s H). unfold remove_prefix1, dec_front1. rewrite (sh_size v s H).
  rewrite swrap_id by lia. rewrite (sh_padd v s) by (auto; lia). cbn [bind]. eexists. split; [reflexivity|].
  cbn [mem1 first1 last1]. split; auto.
  pose proof (sh_sub v s (Z.min n (Z.of_nat (length s))) (Z.of_nat (length s) - Z.min n (Z.of_nat (length s))) H) as K.
  rewrite firstn_all2 in K by (rewrite skipn_length; lia).
  assert (E : last1 v = first1 v + Z.of_nat (length s)) by apply H.
  replace (last1 v) with (first1 v + Z.min n (Z.of_nat (length s)) + (Z.of_nat (length s) - Z.min n (Z.of_nat (length s)))) by lia.
  destruct (Z.le_gt_cases n (Z.of_nat (length s))).
  - rewrite Z.min_l in * by lia. apply K; lia.
  - rewrite Z.min_r in * by lia. rewrite skipn_all2 by lia. rewrite skipn_all2 in K by lia. apply K; lia.
Qed.
Lemma remove_suffix1_ok v s n : sh v s -> 0 <= n ->
  exists v', remove_suffix1 v n = Ok v' /\ sh v' (firstn (length s - Z.to_nat n) s) /\ mem1 v' = mem1 v /\ first1 v' = first1 v.
Proof.
  intros H N. pose proof (sh_bound v s H). unfold remove_suffix1, dec_back1. rewrite (sh_size v s H).
  rewrite swrap_id by lia. rewrite (sh_padd_last v s) by (auto; lia). cbn [bind]. eexists. split; [reflexivity|].
  cbn [mem1 first1 last1]. split; auto.
  pose proof (sh_sub v s 0 (Z.of_nat (length s) - Z.min n (Z.of_nat (length s))) H) as K.
  rewrite Z.add_0_r in K. simpl skipn in K.
  assert (E : last1 v = first1 v + Z.of_nat (length s)) by apply H.
  replace (last1 v - Z.min n (Z.of_nat (length s))) with (first1 v + (Z.of_nat (length s) - Z.min n (Z.of_nat (length s)))) by lia.
  replace (length s - Z.to_nat n)%nat with (Z.to_nat (Z.of_nat (length s) - Z.min n (Z.of_nat (length s)))) by lia.
  apply K; lia.
Qed.
Lemma substr1_ok v s pos count : sh v s -> 0 <= pos <= Z.of_nat (length s) -> 0 <= count ->
  exists v', substr1 v pos count = Ok v' /\ sh v' (firstn (Z.to_nat count) (skipn (Z.to_nat pos) s)).
Proof.
  intros H P C. pose proof (sh_bound v s H). unfold substr1. rewrite (sh_size v s H).
  destruct (Z.ltb_spec (Z.of_nat (length s)) pos); [lia|]. cbv zeta. rewrite sz_small by lia.
  rewrite (sh_padd v s) by (auto; lia). cbn [bind].
  rewrite (hold_padd _ _ (skipn (Z.to_nat pos) s)); [|apply (sh_hold_at v s); auto; lia|rewrite skipn_length; lia].
  cbn [bind]. eexists. split; [reflexivity|]. unfold between1.
  pose proof (sh_sub v s pos (Z.min count (Z.of_nat (length s) - pos)) H) as K.
  destruct (Z.le_gt_cases count (Z.of_nat (length s) - pos)).
  - rewrite Z.min_l in * by lia. apply K; lia.
  - rewrite Z.min_r in * by lia. rewrite (firstn_all2 (n := Z.to_nat count)) by (rewrite skipn_length; lia).
    rewrite firstn_all2 in K by (rewrite skipn_length; lia). apply K; lia.
Qed.
Lemma substr1_throws v s pos count : sh v s -> Z.of_nat (length s) < pos -> substr1 v pos count = Throw.
Proof. intros H P. unfold substr1. rewrite (sh_size v s H). destruct (Z.ltb_spec (Z.of_nat (length s)) pos); auto; lia. Qed.
Lemma resize1_ok v s n : sh v s -> 0 <= n < Z.of_nat (length s) ->
  exists v', resize1 v n = Ok v' /\ sh v' (firstn (Z.to_nat n) s).
Proof.
  intros H N. unfold resize1. rewrite (sh_size v s H). destruct (Z.ltb_spec n (Z.of_nat (length s))); [|lia].
  rewrite (sh_padd v s) by (auto; lia). cbn [bind]. eexists. split; [reflexivity|].
  pose proof (sh_sub v s 0 n H) as K. rewrite Z.add_0_r in K. apply K; lia.
Qed.
Lemma resize1_throws v s n : sh v s -> Z.of_nat (length s) <= n -> resize1 v n = Throw.
Proof. intros H P. unfold resize1. rewrite (sh_size v s H). destruct (Z.ltb_spec n (Z.of_nat (length s))); auto; lia. Qed.

Lemma index1_ok v s i c : sh v s -> nth_error s i = Some c -> index1 v (Z.of_nat i) = Ok c.
Proof. intros (H & _) E. eapply hold_nth; eauto. Qed.
Lemma at1_ok v s i : sh v s -> 0 <= i ->
  at1 v i = match nth_error s (Z.to_nat i) with Some c => Ok c | None => Throw end.
Proof.
  intros H P. unfold at1. rewrite (sh_size v s H). destruct (nth_error s (Z.to_nat i)) as [c|] eqn:E.
  - pose proof (nth_error_some_lt _ _ _ E). destruct (Z.ltb_spec i (Z.of_nat (length s))); [|lia].
    rewrite (sh_padd v s) by (auto; lia). cbn [bind]. replace i with (Z.of_nat (Z.to_nat i)) by lia.
    eapply hold_nth; [apply H|]. auto.
  - apply nth_error_None in E. destruct (Z.ltb_spec i (Z.of_nat (length s))); auto; lia.
Qed.
Lemma front1_ok v c t : sh v (c :: t) -> front1 v = Ok c.
Proof. intros (H & _). apply hold_cons in H. apply H. Qed.
Lemma back1_ok v c t : sh v (t ++ [c]) -> back1 v = Ok c.
Proof.
  intros H. unfold back1. change (-1) with (- (1)). rewrite (sh_padd_last v (t ++ [c])) by (auto; rewrite app_length; simpl; lia).
  cbn [bind]. destruct H as (H & -> & _). apply hold_snoc in H. destruct H as (H & _). rewrite <- H. f_equal.
  rewrite app_length; simpl length; lia.
Qed.
Lemma copy1_loop_ok m s : forall p done dest, hold m p s -> (length s <= length dest)%nat ->
  copy1_loop (length s) m p (done ++ dest) (length done) = Ok (done ++ s ++ skipn (length s) dest).
Proof.
  induction s as [|c s IH]; intros p done dest H L; simpl; auto.
  apply hold_cons in H. destruct H as (E & H). rewrite E. cbn [bind].
  destruct dest as [|x dest]; [simpl in L; lia|].
  rewrite wr_ok by (rewrite app_length; simpl; lia). cbn [bind]. rewrite upd_app_r.
  replace (done ++ c :: dest) with ((done ++ [c]) ++ dest) by (rewrite <- app_assoc; auto).
  replace (S (length done)) with (length (done ++ [c])) by (rewrite app_length; simpl; lia).
  rewrite IH by (auto; simpl in L; lia). rewrite <- app_assoc. auto.
Qed.
Lemma copy1_ok v s dest count pos : sh v s -> 0 <= pos <= Z.of_nat (length s) -> 0 <= count ->
  let t := firstn (Z.to_nat count) (skipn (Z.to_nat pos) s) in
  (length t <= length dest)%nat ->
  copy1 v dest count pos = Ok (t ++ skipn (length t) dest, Z.of_nat (length t)).
Proof.
  intros H P C t L. pose proof (sh_bound v s H). unfold copy1. rewrite (sh_size v s H).
  destruct (Z.ltb_spec (Z.of_nat (length s)) pos); [lia|]. cbv zeta. rewrite sz_small by lia.
  assert (LT : Z.min count (Z.of_nat (length s) - pos) = Z.of_nat (length t)).
  { unfold t. rewrite firstn_length, skipn_length. lia. }
  rewrite LT. assert (HT : hold (mem1 v) (first1 v + pos) t) by (apply hold_firstn, (sh_hold_at v s); auto; lia).
  destruct (Z.ltb_spec 0 (Z.of_nat (length t))).
  - rewrite (sh_padd v s) by (auto; lia). cbn [bind]. rewrite (hold_padd _ _ t) by (auto; lia). cbn [bind].
    rewrite Nat2Z.id. rewrite (copy1_loop_ok _ t _ [] dest) by auto. auto.
  - destruct t; [auto|simpl length in *; lia].
Qed.
Lemma copy1_throws v s dest count pos : sh v s -> Z.of_nat (length s) < pos -> copy1 v dest count pos = Throw.
Proof. intros H P. unfold copy1. rewrite (sh_size v s H). destruct (Z.ltb_spec (Z.of_nat (length s)) pos); auto; lia. Qed.

(** * Construction *)
Lemma null1_sh : sh null1 [].
Proof. unfold sh, null1. simpl. auto. Qed.
Lemma char1_sh c : sh (char1 c) [c].
Proof. unfold sh, char1, hold. simpl. split; [|split; [reflexivity|lia]]. exists [], []. auto. Qed.
Lemma range1_ok m a s b : m = Some (a ++ s ++ b) -> Z.of_nat (length (a ++ s ++ b)) < 2 ^ 63 ->
  exists v, range1 m (Z.of_nat (length a)) (Z.of_nat (length s)) = Ok v /\ sh v s.
Proof.
  intros -> L. unfold range1. rewrite (hold_padd _ _ s); [|exists a, b; auto|lia]. cbn [bind].
  eexists. split; [reflexivity|]. unfold sh. cbn [mem1 first1 last1]. split; [exists a, b; auto|auto].
Qed.
Lemma strlen_loop_ok m str s : forall fuel p, hold m p (s ++ [0]) -> Forall (fun c => c <> 0) s -> (length s < fuel)%nat ->
  strlen_loop fuel m str p = Ok (sz (p + Z.of_nat (length s) - str)).
Proof.
  induction s as [|c s IH]; intros fuel p H F L; (destruct fuel as [|fuel]; [simpl in L; lia|]); cbn [strlen_loop app] in *;
    apply hold_cons in H; destruct H as (E & H); rewrite E; cbn [bind].
  - change (negb (0 =? 0)) with false. cbv iota. do 2 f_equal; simpl; lia.
  - inversion F; subst. destruct (Z.eqb_spec c 0); [tauto|]. cbn [negb]. rewrite IH by (auto; simpl in L; lia).
    do 2 f_equal; simpl length; lia.
Qed.
Lemma cstr1_ok a s b : Forall (fun c => c <> 0) s -> Z.of_nat (length (a ++ s ++ 0 :: b)) < 2 ^ 63 ->
  exists v, cstr1 (Some (a ++ s ++ 0 :: b)) (Z.of_nat (length a)) = Ok v /\ sh v s.
Proof.
  intros F L. unfold cstr1, sv_strlen. rewrite (strlen_loop_ok _ _ s).
  - cbn [bind]. rewrite !app_length in L. rewrite sz_small by lia.
    replace (Z.of_nat (length a) + Z.of_nat (length s) - Z.of_nat (length a)) with (Z.of_nat (length s)) by lia.
    apply (range1_ok _ a s (0 :: b)); auto. rewrite !app_length. auto.
  - exists a, b. rewrite <- app_assoc. auto.
  - auto.
  - rewrite !app_length. lia.
Qed.
Lemma make_view1_ok arr : Z.of_nat (length arr) < 2 ^ 63 -> exists v, make_view1 arr = Ok v /\ sh v arr.
Proof. intros L. apply (range1_ok (Some arr) [] arr []); rewrite app_nil_r; auto. Qed.

(** * Comparison *)
Lemma str_compare1_eq n : forall m0 p0 m1 p1, str_compare1 n m0 p0 m1 p1 = str_compare Z.ltb n m0 p0 m1 p1.
Proof.
  induction n as [|n IH]; intros; simpl; auto. destruct (rdp m0 p0) as [x| | |]; auto. cbn [bind].
  destruct (rdp m1 p1) as [y| | |]; auto. cbn [bind].
  destruct (Z.eqb_spec x y), (Z.ltb_spec x y), (Z.ltb_spec y x); simpl; auto; lia.
Qed.
Lemma compare1_ok v w s t : sh v s -> sh w t -> compare1 v w = Ok (lexc s t).
Proof.
  intros V W. unfold compare1. rewrite (sh_size v s V), (sh_size w t W), str_compare1_eq.
  replace (Z.to_nat (Z.min (Z.of_nat (length s)) (Z.of_nat (length t)))) with (Nat.min (length s) (length t)) by lia.
  destruct (str_compare_ok (mem1 v) (mem1 w) s t _ _ (proj1 V) (proj1 W)) as (r & E & L). rewrite E. cbn [bind].
  rewrite L. destruct (Z.eqb_spec r 0) as [->|]; auto. destruct (_ <? _); auto. destruct (_ <? _); auto.
Qed.
Lemma compare1_spec v w s t : sh v s -> sh w t ->
  exists r, compare1 v w = Ok r /\ (r < 0 <-> lex_lt s t) /\ (r = 0 <-> s = t) /\ (0 < r <-> lex_lt t s).
Proof.
  intros V W. exists (lexc s t). split; [apply compare1_ok; auto|].
  destruct (lexc_spec s t) as [(-> & A)|[(-> & A)|(-> & A)]].
  - split; [split; auto; lia|]. split; [split; [lia|intros ->; destruct (lex_irrefl _ A)]|].
    split; [lia|]. intros B. destruct (lex_irrefl s (lex_trans _ _ _ A B)).
  - subst. split; [split; [lia|intros B; destruct (lex_irrefl _ B)]|]. split; [tauto|].
    split; [lia|]. intros B. destruct (lex_irrefl _ B).
  - split; [split; [lia|intros B; destruct (lex_irrefl _ (lex_trans _ _ _ A B))]|].
    split; [split; [lia|intros ->; destruct (lex_irrefl _ A)]|]. split; auto; lia.
Qed.
Lemma rel_ops1 v w s t : sh v s -> sh w t ->
  exists e n l le g ge, eq1 v w = Ok e /\ ne1 v w = Ok n /\ lt1 v w = Ok l /\ le1 v w = Ok le /\
    gt1 v w = Ok g /\ ge1 v w = Ok ge /\
    (e = true <-> s = t) /\ (n = true <-> s <> t) /\ (l = true <-> lex_lt s t) /\
    (le = true <-> lex_lt s t \/ s = t) /\ (g = true <-> lex_lt t s) /\ (ge = true <-> lex_lt t s \/ s = t).
Proof.
  intros V W. destruct (compare1_spec v w s t V W) as (r & E & A & B & C).
  unfold eq1, ne1, lt1, le1, gt1, ge1. rewrite E. cbn [bind]. do 6 eexists. do 6 (split; [reflexivity|]).
  rewrite negb_true_iff, Z.eqb_eq, Z.eqb_neq, Z.ltb_lt, Z.leb_le, Z.ltb_lt, Z.leb_le. rewrite <- A, <- B, <- C.
  repeat split; intros; lia.
Qed.
Lemma compare_subs1_ok v w s t p1 c1 p2 c2 : sh v s -> sh w t ->
  0 <= p1 <= Z.of_nat (length s) -> 0 <= c1 -> 0 <= p2 <= Z.of_nat (length t) -> 0 <= c2 ->
  compare_subs1 v p1 c1 w p2 c2 =
    Ok (lexc (firstn (Z.to_nat c1) (skipn (Z.to_nat p1) s)) (firstn (Z.to_nat c2) (skipn (Z.to_nat p2) t))).
Proof.
  intros V W A B C D. unfold compare_subs1.
  destruct (substr1_ok v s p1 c1 V A B) as (v' & -> & V'). cbn [bind].
  destruct (substr1_ok w t p2 c2 W C D) as (w' & -> & W'). cbn [bind]. apply compare1_ok; auto.
Qed.

(** * Searching forward *)
Lemma sh_rounds v s : sh v s -> (length s < rounds (mem1 v))%nat.
Proof.
  intros (H & _). unfold hold in H. unfold rounds. destruct (mem1 v); [|destruct H as (-> & _); simpl; lia].
  destruct H as (a & b & -> & _). rewrite !app_length. lia.
Qed.
Lemma search_it_ok v w s t pos : sh v s -> sh w t -> 0 <= pos <= Z.of_nat (length s) ->
  search_it (mem1 v) (first1 v + pos) (last1 v) w =
    Ok (match srch (skipn (Z.to_nat pos) s) t with Some k => first1 v + pos + Z.of_nat k | None => last1 v end).
Proof.
  intros V W P. unfold search_it.
  assert (EW : last1 w = first1 w + Z.of_nat (length t)) by apply W.
  assert (EV : last1 v = first1 v + Z.of_nat (length s)) by apply V.
  replace (Z.to_nat (last1 w - first1 w)) with (length t) by lia.
  rewrite (search_outer_ok _ _ t _ (proj1 W) (skipn (Z.to_nat pos) s)).
  - cbn [bind]. destruct (srch _ _); auto.
  - apply (sh_hold_at v s); auto.
  - rewrite skipn_length. lia.
  - pose proof (sh_rounds v s V). rewrite skipn_length. lia.
Qed.
Lemma srch_lt s t k : t <> [] -> srch s t = Some k -> (k < length s)%nat.
Proof.
  intros N E. pose proof (srch_spec s t) as H. rewrite E in H. destruct H as (H & _). apply occurs_length in H.
  destruct t; [tauto|]. simpl in H. lia.
Qed.
Lemma found_pos v s t pos : sh v s -> t <> [] -> 0 <= pos <= Z.of_nat (length s) ->
  (let r := match srch (skipn (Z.to_nat pos) s) t with Some k => first1 v + pos + Z.of_nat k | None => last1 v end in
   if last1 v =? r then Ok npos else Ok (sz (r - first1 v))) = Ok (srch_res s t (Z.to_nat pos)).
Proof.
  intros V N P. cbv zeta. pose proof (sh_bound v s V).
  assert (EV : last1 v = first1 v + Z.of_nat (length s)) by apply V.
  unfold srch_res. destruct (srch _ t) as [k|] eqn:E.
  - apply srch_lt in E; auto. rewrite skipn_length in E.
    destruct (Z.eqb_spec (last1 v) (first1 v + pos + Z.of_nat k)); [lia|]. rewrite sz_small by lia. f_equal; lia.
  - rewrite Z.eqb_refl. auto.
Qed.
Lemma find1_ok v w s t pos : sh v s -> sh w t -> 0 <= pos <= Z.of_nat (length s) ->
  exists r, find1 v w pos = Ok r /\ first_where (fun i => pos <= Z.of_nat i /\ occurs s t i) r.
Proof.
  intros V W P. unfold find1. rewrite (sh_size v s V), (sh_size w t W), (sh_empty w t W).
  destruct (Z.ltb_spec (Z.of_nat (length s)) (Z.of_nat (length t))).
  - eexists. split; [reflexivity|]. left. split; auto. intros i (_ & O). apply occurs_length in O. lia.
  - destruct t as [|d t].
    + eexists. split; [reflexivity|]. right. exists (Z.to_nat pos). split; [lia|]. split; [split; [lia|]|].
      * exists (firstn (Z.to_nat pos) s), (skipn (Z.to_nat pos) s). simpl app. rewrite firstn_skipn. split; auto.
        rewrite firstn_length. lia.
      * intros j L (A & _). lia.
    + rewrite (sh_padd v s) by (auto; lia). cbn [bind].
      rewrite (search_it_ok v w s (d :: t)) by auto. cbn [bind].
      pose proof (found_pos v s (d :: t) pos V ltac:(discriminate) P) as FP. cbv zeta in FP. rewrite FP.
      eexists. split; [reflexivity|]. eapply first_where_ext; [|apply srch_res_spec; lia].
      intros i. split; intros (A & B); split; auto; lia.
Qed.
(** Beyond the end. *)
Lemma find1_beyond_empty v w s pos : sh v s -> sh w [] -> find1 v w pos = Ok pos.
Proof.
  intros V W. unfold find1. rewrite (sh_size v s V), (sh_size w [] W), (sh_empty w [] W).
  destruct (Z.ltb_spec (Z.of_nat (length s)) (Z.of_nat (length (@nil Z)))); [simpl length in *; lia|auto].
Qed.
Lemma find1_beyond v w s t pos l : sh v s -> sh w t -> t <> [] -> (length t <= length s)%nat ->
  mem1 v = Some l -> Z.of_nat (length l) < first1 v + pos -> find1 v w pos = UB.
Proof.
  intros V W N L M B. unfold find1. rewrite (sh_size v s V), (sh_size w t W), (sh_empty w t W).
  destruct (Z.ltb_spec (Z.of_nat (length s)) (Z.of_nat (length t))); [lia|].
  destruct t as [|d t]; [tauto|]. rewrite M. unfold padd.
  destruct (Z.leb_spec (first1 v + pos) (Z.of_nat (length l))); [lia|]. rewrite andb_false_r. auto.
Qed.
Lemma search1_short v w s t pos : sh v s -> sh w t -> 0 <= pos < 2 ^ 63 -> Z.of_nat (length s) <= pos + Z.of_nat (length t) ->
  search1 v w pos = Ok npos /\ search_last1 v w pos = Ok npos.
Proof.
  intros V W P L. pose proof (sh_bound w t W). unfold search1, search_last1.
  rewrite (sh_size v s V), (sh_size w t W), sz_small by lia.
  destruct (Z.leb_spec (Z.of_nat (length s)) (pos + Z.of_nat (length t))); [auto|lia].
Qed.
Lemma search1_empty v w pos : sh w [] -> search1 v w pos = Ok npos /\ search_last1 v w pos = Ok npos.
Proof. intros W. unfold search1, search_last1. rewrite (sh_empty w [] W), orb_true_r. auto. Qed.
Lemma search1_inside v w s t pos : sh v s -> sh w t -> t <> [] -> 0 <= pos -> pos + Z.of_nat (length t) < Z.of_nat (length s) ->
  search1 v w pos = Ok (srch_res s t (Z.to_nat pos)).
Proof.
  intros V W N P L. pose proof (sh_bound v s V). unfold search1.
  rewrite (sh_size v s V), (sh_size w t W), (sh_empty w t W), sz_small by lia.
  destruct (Z.leb_spec (Z.of_nat (length s)) (pos + Z.of_nat (length t))); [lia|].
  replace (match t with [] => true | _ :: _ => false end) with false by (destruct t; tauto). cbn [orb].
  rewrite (sh_padd v s) by (auto; lia). cbn [bind]. rewrite (search_it_ok v w s t) by (auto; lia). cbn [bind].
  pose proof (found_pos v s t pos V N ltac:(lia)) as FP. cbv zeta in FP. exact FP.
Qed.
Lemma search1_ok v w s t pos : sh v s -> sh w t -> t <> [] -> 0 <= pos -> pos + Z.of_nat (length t) < Z.of_nat (length s) ->
  exists r, search1 v w pos = Ok r /\ first_where (fun i => pos <= Z.of_nat i /\ occurs s t i) r.
Proof.
  intros V W N P L. exists (srch_res s t (Z.to_nat pos)). split; [apply search1_inside; auto|].
  eapply first_where_ext; [|apply srch_res_spec; lia]. intros i. split; intros (A & B); split; auto; lia.
Qed.
Lemma find_first_of1_ok v w s t pos : sh v s -> sh w t -> 0 <= pos ->
  exists r, find_first_of1 v w pos = Ok r /\ first_where (fun i => pos <= Z.of_nat i /\ char_is s (fun c => In c t) i) r.
Proof.
  intros V W P. pose proof (sh_bound v s V). unfold find_first_of1. rewrite (sh_size v s V), (sh_size w t W), (sh_empty w t W).
  destruct (Z.leb_spec (Z.of_nat (length s)) pos).
  - eexists. split; [reflexivity|]. left. split; auto. intros i (A & c & E & _). pose proof (nth_error_some_lt _ _ _ E). lia.
  - cbn [orb]. destruct t as [|d t'] eqn:T.
    + eexists. split; [reflexivity|]. left. split; auto. intros i (A & c & E & []).
    + rewrite <- T in *. rewrite (sh_padd v s) by (auto; lia). cbn [bind].
      assert (EV : last1 v = first1 v + Z.of_nat (length s)) by apply V.
      replace (Z.to_nat (last1 v - (first1 v + pos))) with (length (skipn (Z.to_nat pos) s)) by (rewrite skipn_length; lia).
      rewrite Nat2Z.id, (first_eq_loop_ok _ _ _ t _ (proj1 W)) by (apply (sh_hold_at v s); auto; lia). cbn [bind].
      pose proof (idx_le (fun c => existsb (Z.eqb c) t) (skipn (Z.to_nat pos) s)) as IL. rewrite skipn_length in IL.
      exists (first_res s (Z.to_nat pos) (fun c => existsb (Z.eqb c) t)). split.
      * unfold first_res. cbv zeta. destruct (Nat.eqb_spec (Z.to_nat pos + idx (fun c => existsb (Z.eqb c) t) (skipn (Z.to_nat pos) s)) (length s)) as [Q|Q].
        -- match goal with |- context [?a =? ?b] => destruct (Z.eqb_spec a b); auto; lia end.
        -- match goal with |- context [?a =? ?b] => destruct (Z.eqb_spec a b); [lia|] end. rewrite sz_small by lia. f_equal; lia.
      * eapply first_where_ext; [|apply (first_res_spec s (Z.to_nat pos) _ (fun c => In c t))].
        -- intros i. split; intros (A & B); split; auto; lia.
        -- intros c _. apply existsb_in.
        -- lia.
Qed.
Lemma find_first_not_of1_ok v w s t pos : sh v s -> sh w t -> 0 <= pos ->
  exists r, find_first_not_of1 v w pos = Ok r /\ first_where (fun i => pos <= Z.of_nat i /\ char_is s (fun c => ~ In c t) i) r.
Proof.
  intros V W P. pose proof (sh_bound v s V). unfold find_first_not_of1. rewrite (sh_size v s V), (sh_size w t W), (sh_empty w t W).
  destruct (Z.leb_spec (Z.of_nat (length s)) pos).
  - eexists. split; [reflexivity|]. left. split; auto. intros i (A & c & E & _). pose proof (nth_error_some_lt _ _ _ E). lia.
  - destruct t as [|d t'] eqn:T.
    + eexists. split; [reflexivity|]. right. exists (Z.to_nat pos). split; [lia|]. split; [split; [lia|]|].
      * destruct (nth_error s (Z.to_nat pos)) as [c|] eqn:E; [|apply nth_error_None in E; lia]. exists c. split; auto.
      * intros j L (A & _). lia.
    + rewrite <- T in *. rewrite (sh_padd v s) by (auto; lia). cbn [bind].
      assert (EV : last1 v = first1 v + Z.of_nat (length s)) by apply V.
      replace (Z.to_nat (last1 v - (first1 v + pos))) with (length (skipn (Z.to_nat pos) s)) by (rewrite skipn_length; lia).
      rewrite Nat2Z.id, (first_not_loop_ok _ _ _ t _ (proj1 W)) by (apply (sh_hold_at v s); auto; lia). cbn [bind].
      pose proof (idx_le (fun c => negb (existsb (Z.eqb c) t)) (skipn (Z.to_nat pos) s)) as IL. rewrite skipn_length in IL.
      exists (first_res s (Z.to_nat pos) (fun c => negb (existsb (Z.eqb c) t))). split.
      * unfold first_res. cbv zeta. destruct (Nat.eqb_spec (Z.to_nat pos + idx (fun c => negb (existsb (Z.eqb c) t)) (skipn (Z.to_nat pos) s)) (length s)) as [Q|Q].
        -- match goal with |- context [?a =? ?b] => destruct (Z.eqb_spec a b); auto; lia end.
        -- match goal with |- context [?a =? ?b] => destruct (Z.eqb_spec a b); [lia|] end. rewrite sz_small by lia. f_equal; lia.
      * eapply first_where_ext; [|apply (first_res_spec s (Z.to_nat pos) _ (fun c => ~ In c t))].
        -- intros i. split; intros (A & B); split; auto; lia.
        -- intros c _. rewrite negb_true_iff, <- not_true_iff_false, existsb_in. tauto.
        -- lia.
Qed.
Lemma find_first_if1_res want v s pred pos : sh v s -> 0 <= pos <= Z.of_nat (length s) ->
  find_first_if1 want v pred pos = Ok (first_res s (Z.to_nat pos) (fun c => Bool.eqb (pred c) want)).
Proof.
  intros V P. pose proof (sh_bound v s V). unfold find_first_if1. rewrite (sh_size v s V).
  destruct (Z.leb_spec (Z.of_nat (length s)) pos).
  - assert (pos = Z.of_nat (length s)) by lia. subst. unfold first_res. rewrite Nat2Z.id, skipn_all. simpl.
    rewrite Nat.add_0_r, Nat.eqb_refl. auto.
  - rewrite (sh_padd v s) by (auto; lia). cbn [bind].
    assert (EV : last1 v = first1 v + Z.of_nat (length s)) by apply V.
    replace (Z.to_nat (last1 v - (first1 v + pos))) with (length (skipn (Z.to_nat pos) s)) by (rewrite skipn_length; lia).
    rewrite first_if_loop_ok by (apply (sh_hold_at v s); auto; lia). cbn [bind].
    pose proof (idx_le (fun c => Bool.eqb (pred c) want) (skipn (Z.to_nat pos) s)) as IL. rewrite skipn_length in IL.
    unfold first_res. cbv zeta. destruct (Nat.eqb_spec (Z.to_nat pos + idx (fun c => Bool.eqb (pred c) want) (skipn (Z.to_nat pos) s)) (length s)) as [Q|Q].
    + match goal with |- context [?a =? ?b] => destruct (Z.eqb_spec a b); auto; lia end.
    + match goal with |- context [?a =? ?b] => destruct (Z.eqb_spec a b); [lia|] end. rewrite sz_small by lia. f_equal; lia.
Qed.
Lemma find_first_if1_ok want v s pred pos : sh v s -> 0 <= pos ->
  exists r, find_first_if1 want v pred pos = Ok r /\
    first_where (fun i => pos <= Z.of_nat i /\ char_is s (fun c => pred c = want) i) r.
Proof.
  intros V P. destruct (Z.le_gt_cases pos (Z.of_nat (length s))).
  - exists (first_res s (Z.to_nat pos) (fun c => Bool.eqb (pred c) want)). split; [apply find_first_if1_res; auto|].
    eapply first_where_ext; [|apply (first_res_spec s (Z.to_nat pos) _ (fun c => pred c = want))].
    + intros i. split; intros (A & B); split; auto; lia.
    + intros c _. rewrite Bool.eqb_true_iff. tauto.
    + lia.
  - unfold find_first_if1. rewrite (sh_size v s V). destruct (Z.leb_spec (Z.of_nat (length s)) pos); [|lia].
    eexists. split; [reflexivity|]. left. split; auto. intros i (A & c & E & _). pose proof (nth_error_some_lt _ _ _ E). lia.
Qed.

Lemma search_last1_ok v w s t pos : sh v s -> sh w t -> t <> [] -> 0 <= pos -> pos + Z.of_nat (length t) < Z.of_nat (length s) ->
  exists r, search_last1 v w pos = Ok r /\
    ((r = pos /\ forall i, pos <= Z.of_nat i -> ~ occurs s t i) \/
     (exists i, r = Z.of_nat i /\ pos <= r /\ occurs s t i /\
        forall j, pos <= Z.of_nat j -> (j < i)%nat -> ~ occurs s t j)).
Proof.
  intros V W Ne Hp H. pose proof (sh_bound v s V). pose proof (sh_bound w t W).
  destruct (search1_ok v w s t pos V W Ne Hp H) as (r & E & F).
  unfold search_last1. rewrite (sh_size v s V), (sh_size w t W), (sh_empty w t W), sz_small by lia.
  destruct (Z.leb_spec (Z.of_nat (length s)) (pos + Z.of_nat (length t))); [lia|].
  replace (match t with [] => true | _ :: _ => false end) with false by (destruct t; tauto). cbn [orb]. rewrite E. cbn [bind].
  destruct F as [(-> & N)|(i & -> & (Hi & O) & N)].
  - cbn [search_last1_loop]. rewrite Z.eqb_refl. exists pos. split; auto. left. split; auto.
    intros i Hi O. apply (N i). auto.
  - exists (Z.of_nat i). split.
    2: { right. exists i. split; auto. split; auto. split; auto. intros j Hj Hlt O'. apply (N j); auto. }
    pose proof (occurs_length _ _ _ O) as OL.
    cbn [search_last1_loop]. destruct (Z.eqb_spec (Z.of_nat i) npos) as [Eq|_]; [unfold npos in Eq; lia|]. cbv zeta.
    destruct (Z.le_gt_cases (Z.of_nat (length s)) (Z.of_nat i + Z.of_nat (length t))) as [L|G].
    + destruct (search1_short v w s t (Z.of_nat i) V W) as (Es & _); [lia|lia|]. rewrite Es. cbn [bind].
      destruct (npos =? Z.of_nat i); auto.
    + destruct (search1_ok v w s t (Z.of_nat i) V W Ne ltac:(lia) ltac:(lia)) as (r & Er & F). rewrite Er. cbn [bind].
      assert (r = Z.of_nat i).
      { destruct F as [(-> & N')|(j & -> & (Hj & Oj) & N')].
        - exfalso. apply (N' i). split; auto; lia.
        - destruct (Nat.eq_dec i j); [congruence|]. exfalso. apply (N' i); [lia|]. split; auto; lia. }
      subst r. rewrite Z.eqb_refl. auto.
Qed.

(** * Searching backward *)
Lemma rfind1_loop_ok v w s t : sh v s -> sh w t -> forall pos, (pos + length t <= length s)%nat ->
  exists r, rfind1_loop pos v w = Ok r /\ last_where (fun i => (i <= pos)%nat /\ occurs s t i) r.
Proof.
  intros V W. pose proof (sh_bound v s V).
  assert (ST : forall pos, (pos + length t <= length s)%nat -> exists c,
     padd (mem1 v) (first1 v) (Z.of_nat pos) = Ok (first1 v + Z.of_nat pos) /\
     sv2_compare (Z.to_nat (size1 w)) (mem1 v) (first1 v + Z.of_nat pos) (mem1 w) (first1 w) = Ok c /\
     (c = 0 <-> occurs s t pos) /\ sz (first1 v + Z.of_nat pos - first1 v) = Z.of_nat pos).
  { intros pos Hp. pose proof (sh_hold_at v s (Z.of_nat pos) V ltac:(lia)) as H'. rewrite Nat2Z.id in H'.
    destruct (sv2_compare_ok _ _ t _ _ _ H' (proj1 W)) as (c & E & S).
    { rewrite skipn_length. lia. }
    exists c. split; [apply (sh_padd v s); auto; lia|]. rewrite (sh_size w t W), Nat2Z.id. split; auto.
    split; [|rewrite sz_small; lia].
    rewrite S. rewrite <- occurs_zero. rewrite occurs_skipn by lia. rewrite Nat.add_0_r. tauto. }
  induction pos as [|pos IH]; intros Hp; destruct (ST _ Hp) as (c & E1 & E2 & SS & Z1); cbn [rfind1_loop];
    rewrite E1; cbn [bind]; rewrite E2; cbn [bind]; destruct (Z.eqb_spec c 0) as [C|C]; rewrite ?Z1.
  - eexists. split; [reflexivity|]. right. exists O. split; auto. split; [split; auto; tauto|]. intros; lia.
  - eexists. split; [reflexivity|]. left. split; auto. intros i (Hi & Oc). assert (i = 0%nat) by lia. subst i. tauto.
  - eexists. split; [reflexivity|]. right. exists (S pos). split; auto. split; [split; auto; tauto|]. intros; lia.
  - destruct IH as (r & E & L); [lia|]. exists r. split; auto.
    eapply last_where_ext; [|exact L]. intros i. split; intros (A & B); split; auto.
    assert (i <> S pos) by (intros ->; tauto). lia.
Qed.
Lemma rfind1_ok v w s t pos : sh v s -> sh w t -> 0 <= pos ->
  exists r, rfind1 v w pos = Ok r /\ last_where (fun i => Z.of_nat i <= pos /\ occurs s t i) r.
Proof.
  intros V W Hp. unfold rfind1. rewrite (sh_size v s V), (sh_size w t W), (sh_empty w t W).
  destruct (Z.ltb_spec (Z.of_nat (length s)) (Z.of_nat (length t))).
  - eexists. split; [reflexivity|]. left. split; auto. intros i (_ & O). apply occurs_length in O. lia.
  - cbv zeta. destruct t as [|d t'] eqn:E.
    + eexists. split; [reflexivity|]. simpl length in *. right. exists (Z.to_nat (Z.min pos (Z.of_nat (length s) - Z.of_nat 0))).
      split; [lia|]. split.
      * split; [lia|]. exists (firstn (Z.to_nat (Z.min pos (Z.of_nat (length s) - Z.of_nat 0))) s),
          (skipn (Z.to_nat (Z.min pos (Z.of_nat (length s) - Z.of_nat 0))) s).
        simpl app. rewrite firstn_skipn. split; auto. rewrite firstn_length. lia.
      * intros j Hj (A & O). apply occurs_length in O. simpl in O. lia.
    + rewrite <- E in *. destruct (rfind1_loop_ok v w s t V W (Z.to_nat (Z.min pos (Z.of_nat (length s) - Z.of_nat (length t))))) as (r & Er & L); [lia|].
      exists r. split; auto. eapply last_where_ext; [|exact L]. intros i. split; intros (A & O); split; auto; [lia|].
      apply occurs_length in O. lia.
Qed.
Lemma rev_dist1 v s i : sh v s -> (i < length s)%nat -> reverse_distance1 v (first1 v + Z.of_nat i + 1) = Z.of_nat i.
Proof.
  intros V L. pose proof (sh_bound v s V). unfold reverse_distance1. rewrite (sh_size v s V).
  assert (EV : last1 v = first1 v + Z.of_nat (length s)) by apply V. rewrite (sz_small (Z.of_nat (length s) - 1)) by lia.
  rewrite sz_small; lia.
Qed.
(** The number of characters up to and including position [pos]. *)
Definition upto (s : list Z) (pos : Z) : nat := Nat.min (length s) (S (Z.to_nat pos)).
Lemma from_back_ok v s pos : sh v s -> 0 <= pos ->
  padd (mem1 v) (last1 v) (- from_back v pos) = Ok (first1 v + Z.of_nat (upto s pos)).
Proof.
  intros V P. pose proof (sh_bound v s V).
  assert (EV : last1 v = first1 v + Z.of_nat (length s)) by apply V.
  assert (FB : from_back v pos = Z.of_nat (length s) - Z.of_nat (upto s pos)).
  { unfold from_back, upto. rewrite (sh_size v s V). destruct (Z.leb_spec (Z.of_nat (length s)) pos); [lia|].
    rewrite sz_small; lia. }
  rewrite FB, (sh_padd_last v s) by (auto; unfold upto; lia). f_equal; lia.
Qed.
Lemma base_result v s f n : sh v s -> (n <= length s)%nat ->
  (let base := match lastn f s n with None => first1 v | Some i => first1 v + Z.of_nat i + 1 end in
   if base =? first1 v then Ok npos else Ok (reverse_distance1 v base)) = Ok (last_res (lastn f s n)).
Proof.
  intros V L. cbv zeta. destruct (lastn f s n) as [i|] eqn:E.
  - apply lastn_lt in E. destruct (Z.eqb_spec (first1 v + Z.of_nat i + 1) (first1 v)); [lia|].
    rewrite (rev_dist1 v s) by (auto; lia). auto.
  - rewrite Z.eqb_refl. auto.
Qed.
Lemma upto_where s (P : Z -> Prop) pos r : 0 <= pos ->
  last_where (fun i => (i < upto s pos)%nat /\ char_is s P i) r ->
  last_where (fun i => Z.of_nat i <= pos /\ char_is s P i) r.
Proof.
  intros Hp. apply last_where_ext. intros i. unfold upto. split; intros (A & B); split; auto; [lia|].
  destruct B as (c & E & _). pose proof (nth_error_some_lt _ _ _ E). lia.
Qed.
Lemma find_last_of1_ok v w s t pos : sh v s -> sh w t -> 0 <= pos ->
  exists r, find_last_of1 v w pos = Ok r /\ last_where (fun i => Z.of_nat i <= pos /\ char_is s (fun c => In c t) i) r.
Proof.
  intros V W P. unfold find_last_of1. rewrite (sh_size w t W). destruct (Z.eqb_spec (Z.of_nat (length t)) 0).
  - destruct t; [|simpl in *; lia]. eexists. split; [reflexivity|]. left. split; auto. intros i (_ & c & _ & []).
  - rewrite (from_back_ok v s) by auto. cbn [bind].
    replace (Z.to_nat (first1 v + Z.of_nat (upto s pos) - first1 v)) with (upto s pos) by lia.
    rewrite Nat2Z.id, (last_eq_loop_ok _ _ _ _ t s (proj1 V) (proj1 W)) by (unfold upto; lia). cbn [bind].
    pose proof (base_result v s (fun c => existsb (Z.eqb c) t) (upto s pos) V ltac:(unfold upto; lia)) as BR. cbv zeta in BR. rewrite BR.
    eexists. split; [reflexivity|]. apply upto_where; auto. apply lastn_spec. intros c _. apply existsb_in.
Qed.
Lemma find_last_if1_ok v s pred pos : sh v s -> 0 <= pos ->
  exists r, find_last_if1 v pred pos = Ok r /\ last_where (fun i => Z.of_nat i <= pos /\ char_is s (fun c => pred c = true) i) r.
Proof.
  intros V P. unfold find_last_if1. rewrite (from_back_ok v s) by auto. cbn [bind].
  replace (Z.to_nat (first1 v + Z.of_nat (upto s pos) - first1 v)) with (upto s pos) by lia.
  rewrite (last_if_loop_ok _ _ _ s (proj1 V)) by (unfold upto; lia). cbn [bind].
  pose proof (base_result v s pred (upto s pos) V ltac:(unfold upto; lia)) as BR. cbv zeta in BR. rewrite BR.
  eexists. split; [reflexivity|]. apply upto_where; auto. apply lastn_spec. intros c _. tauto.
Qed.
(** find_last_of( c, pos ): positions above [pos] only. *)
Lemma hold_prev m p s j : hold m p s -> (0 < j <= length s)%nat ->
  padd m (p + Z.of_nat j) (-1) = Ok (p + Z.of_nat (j - 1)).
Proof.
  intros H J. unfold hold in H. unfold padd. destruct m.
  - destruct H as (a & b & -> & <-). rewrite !app_length.
    destruct (Z.leb_spec 0 (Z.of_nat (length a) + Z.of_nat j + -1)); [|lia].
    destruct (Z.leb_spec (Z.of_nat (length a) + Z.of_nat j + -1) (Z.of_nat (length a + (length s + length b)))); [|lia].
    simpl. f_equal; lia.
  - destruct H as (-> & _). simpl in J. lia.
Qed.
Lemma last_char1_loop_ok v s c lo : sh v s -> forall fuel j, (lo <= j)%nat -> (j < length s)%nat -> (j - lo < fuel)%nat ->
  exists r, last_char1_loop fuel (mem1 v) (first1 v) (first1 v + Z.of_nat j) (first1 v + Z.of_nat lo) c = Ok r /\
    last_where (fun i => (lo < i <= j)%nat /\ char_is s (fun x => x = c) i) r.
Proof.
  intros V. pose proof (sh_bound v s V). induction fuel as [|fuel IH]; intros j A B C; [lia|]. cbn [last_char1_loop].
  destruct (Z.eqb_spec (first1 v + Z.of_nat j) (first1 v + Z.of_nat lo)).
  - eexists. split; [reflexivity|]. left. split; auto. intros i (I & _). lia.
  - destruct (nth_get s j B) as (x & E). rewrite (hold_nth _ _ s j x (proj1 V) E). cbn [bind].
    destruct (Z.eqb_spec x c).
    + eexists. split; [reflexivity|]. right. exists j. split; [rewrite sz_small; lia|].
      split; [split; [lia|exists x; auto]|]. intros k K (I & _). lia.
    + assert (EP : padd (mem1 v) (first1 v + Z.of_nat j) (-1) = Ok (first1 v + Z.of_nat (j - 1))).
      { apply (hold_prev _ _ s); [apply V|lia]. }
      rewrite EP. cbn [bind]. destruct (IH (j - 1)%nat) as (r & Er & L); [lia|lia|lia|]. exists r. split; auto.
      eapply last_where_ext; [|exact L]. intros i. split; intros (I & D); split; auto; [lia|].
      destruct (Nat.eq_dec i j) as [->|]; [|lia]. destruct D as (y & Ey & ->). congruence.
Qed.
Lemma find_last_char1_ok v s c pos : sh v s -> s <> [] -> 0 <= pos ->
  exists r, find_last_char1 v c pos = Ok r /\
    last_where (fun i => (if Z.of_nat (length s) <=? pos then 0 else pos) < Z.of_nat i /\ char_is s (fun x => x = c) i) r.
Proof.
  intros V N P. pose proof (sh_rounds v s V) as R. unfold find_last_char1. rewrite (sh_size v s V). cbv zeta.
  set (q := if Z.of_nat (length s) <=? pos then 0 else pos).
  assert (LS : (0 < length s)%nat) by (destruct s; [tauto|simpl; lia]).
  assert (Q : 0 <= q < Z.of_nat (length s)) by (unfold q; destruct (Z.leb_spec (Z.of_nat (length s)) pos); lia).
  clearbody q.
  assert (EV : last1 v = first1 v + Z.of_nat (length s)) by apply V.
  rewrite EV, (hold_prev _ _ s) by (try apply V; lia). cbn [bind]. rewrite (sh_padd v s) by (auto; lia). cbn [bind].
  destruct (last_char1_loop_ok v s c (Z.to_nat q) V (rounds (mem1 v)) (length s - 1)) as (r & E & L); [lia|lia|lia|].
  rewrite Z2Nat.id in E by lia.
  exists r. split; auto. eapply last_where_ext; [|exact L]. intros i. split; intros (A & D); split; auto; [lia|].
  destruct D as (x & Ex & _). pose proof (nth_error_some_lt _ _ _ Ex). lia.
Qed.
Lemma find_last_char1_empty v c pos : sh v [] -> first1 v = 0 -> find_last_char1 v c pos = UB.
Proof.
  intros V F. unfold find_last_char1. cbv zeta. assert (EV : last1 v = first1 v + Z.of_nat (length (@nil Z))) by apply V.
  rewrite EV, F. unfold padd. destruct (mem1 v); auto.
Qed.
(** find_last_not_of: the last character equal to the first one of the set. *)
Lemma inner_not_of1_ok k c w d t : sh w (d :: t) -> (0 < k)%nat -> inner_not_of1 k c w = Ok (c =? d).
Proof.
  intros W. induction k as [|k IH]; intros K; [lia|]. cbn [inner_not_of1].
  change 0 with (Z.of_nat 0). rewrite (index1_ok w (d :: t) 0 d) by auto. cbn [bind]. destruct (Z.eqb_spec c d) as [->|NE]; auto.
  destruct k; [auto|]. rewrite IH by lia. destruct (Z.eqb_spec c d); tauto.
Qed.
Lemma not_of1_loop_ok m f s w d t : hold m f s -> sh w (d :: t) -> forall n, (n <= length s)%nat ->
  not_of1_loop n m f w = Ok (match lastn (fun c => c =? d) s n with None => f | Some i => f + Z.of_nat i + 1 end).
Proof.
  intros H W. induction n as [|n IH]; intros L; cbn [not_of1_loop lastn]; auto.
  destruct (nth_get s n ltac:(lia)) as (c & E). rewrite (hold_nth _ _ s n c H E). cbn [bind].
  rewrite (sh_size w _ W), Nat2Z.id, (inner_not_of1_ok _ c w d t W) by (simpl; lia). cbn [bind]. rewrite E.
  destruct (c =? d); [f_equal; lia|]. apply IH; lia.
Qed.
Lemma find_last_not_of1_empty v w s pos : sh v s -> sh w [] -> 0 <= pos ->
  find_last_not_of1 v w pos = Ok (if Z.of_nat (length s) <=? pos then sz (Z.of_nat (length s) - 1) else pos).
Proof. intros V W P. unfold find_last_not_of1. rewrite (sh_size v s V), (sh_empty w [] W). auto. Qed.
Lemma find_last_not_of1_actual v w s d t pos : sh v s -> sh w (d :: t) -> 0 <= pos ->
  exists r, find_last_not_of1 v w pos = Ok r /\ last_where (fun i => Z.of_nat i <= pos /\ char_is s (fun c => c = d) i) r.
Proof.
  intros V W P. pose proof (sh_bound v s V). unfold find_last_not_of1. rewrite (sh_size v s V), (sh_empty w _ W). cbv zeta.
  assert (EQ : sz (Z.of_nat (length s) - sz ((if Z.of_nat (length s) <=? pos then sz (Z.of_nat (length s) - 1) else pos) + 1)) =
    Z.of_nat (length s) - Z.of_nat (upto s pos)).
  { unfold upto. destruct (Z.leb_spec (Z.of_nat (length s)) pos).
    - destruct s as [|c s]; [reflexivity|]. rewrite (sz_small (Z.of_nat (length (c :: s)) - 1)) by (simpl length in *; lia).
      replace (Z.of_nat (length (c :: s)) - 1 + 1) with (Z.of_nat (length (c :: s))) by lia.
      rewrite (sz_small (Z.of_nat (length (c :: s)))) by lia. rewrite sz_small by lia. lia.
    - rewrite (sz_small (pos + 1)) by lia. rewrite sz_small by lia. lia. }
  rewrite EQ, (sh_padd_last v s) by (auto; unfold upto; lia). cbn [bind].
  assert (EV : last1 v = first1 v + Z.of_nat (length s)) by apply V.
  replace (Z.to_nat (last1 v - (Z.of_nat (length s) - Z.of_nat (upto s pos)) - first1 v)) with (upto s pos) by lia.
  rewrite (not_of1_loop_ok _ _ s w d t (proj1 V) W) by (unfold upto; lia). cbn [bind].
  pose proof (base_result v s (fun c => c =? d) (upto s pos) V ltac:(unfold upto; lia)) as BR. cbv zeta in BR. rewrite BR.
  eexists. split; [reflexivity|]. apply upto_where; auto. apply lastn_spec. intros c _. apply Z.eqb_eq.
Qed.

(** * starts_with, ends_with *)
Lemma starts1_loop_ok m t : forall s p w, hold m p s -> sh w t -> (length t <= length s)%nat ->
  exists b, starts1_loop (length t) m p w = Ok b /\ (b = true <-> exists r, s = t ++ r).
Proof.
  induction t as [|d t IH]; intros s p w H W L; cbn [length starts1_loop]; rewrite (sh_empty w _ W).
  - exists true. split; [reflexivity|]. split; [intros _; exists s; reflexivity|auto].
  - destruct s as [|c s]; [simpl in L; lia|]. apply hold_cons in H. destruct H as (Rc & H). rewrite Rc. cbn [bind].
    rewrite (front1_ok w d t W). cbn [bind]. destruct (Z.eqb_spec c d); cbn [negb].
    + destruct (remove_prefix1_ok w (d :: t) 1 W ltac:(lia)) as (w' & Ew & W' & _). rewrite Ew. cbn [bind].
      change (Z.to_nat 1) with 1%nat in W'. cbn [skipn] in W'.
      destruct (IH s (p + 1) w' H W') as (b & Eb & S); [simpl in L; lia|].
      exists b. split; auto. rewrite S. subst. split; intros (r & K); exists r; simpl in *; congruence.
    + exists false. split; auto. split; [discriminate|]. intros (r & K). simpl in K. congruence.
Qed.
Lemma starts_with1_ok v w s t : sh v s -> sh w t ->
  exists b, starts_with1 v w = Ok b /\ (b = true <-> exists r, s = t ++ r).
Proof.
  intros V W. unfold starts_with1. rewrite (sh_size v s V), (sh_size w t W), Nat2Z.id.
  destruct (Z.ltb_spec (Z.of_nat (length s)) (Z.of_nat (length t))).
  - exists false. split; auto. split; [discriminate|]. intros (r & ->). rewrite app_length in *. lia.
  - apply starts1_loop_ok; auto; [apply V|lia].
Qed.
Lemma ends1_loop_ok m n : forall s t p w, hold m p s -> sh w t -> length t = n -> (n <= length s)%nat ->
  exists b, ends1_loop n m (p + Z.of_nat (length s)) w = Ok b /\ (b = true <-> exists r, s = r ++ t).
Proof.
  induction n as [|n IH]; intros s t p w H W E L; cbn [ends1_loop]; rewrite (sh_empty w _ W).
  - destruct t; [|discriminate]. exists true. split; [reflexivity|]. split; [intros _; exists s; rewrite app_nil_r; auto|auto].
  - destruct (snoc_inv t) as [->|(t' & d & ->)]; [discriminate|].
    destruct (snoc_inv s) as [->|(s' & c & ->)]; [simpl in L; lia|].
    assert ((match t' ++ [d] with [] => true | _ :: _ => false end) = false) as -> by (destruct t'; auto).
    rewrite app_length in *. simpl in L, E.
    apply hold_snoc in H. destruct H as (Rc & H).
    replace (p + Z.of_nat (length s' + length [c]) - 1) with (p + Z.of_nat (length s')) by (simpl; lia).
    rewrite Rc. cbn [bind]. rewrite (back1_ok w d t' W). cbn [bind]. destruct (Z.eqb_spec c d); cbn [negb].
    + destruct (remove_suffix1_ok w (t' ++ [d]) 1 W ltac:(lia)) as (w' & Ew & W' & _). rewrite Ew. cbn [bind].
      rewrite app_length in W'. change (Z.to_nat 1) with 1%nat in W'. simpl length in W'.
      replace (length t' + 1 - 1)%nat with (length t' + 0)%nat in W' by lia. rewrite firstn_app_2 in W'. simpl in W'. rewrite app_nil_r in W'.
      destruct (IH s' t' p w' H W') as (b & Eb & S); [lia|lia|].
      exists b. split; auto. rewrite S. subst. split; intros (r & K); exists r.
      * rewrite K, app_assoc. auto.
      * rewrite app_assoc in K. apply app_inj_tail in K. tauto.
    + exists false. split; auto. split; [discriminate|]. intros (r & K). rewrite app_assoc in K.
      apply app_inj_tail in K. tauto.
Qed.
Lemma ends_with1_ok v w s t : sh v s -> sh w t ->
  exists b, ends_with1 v w = Ok b /\ (b = true <-> exists r, s = r ++ t).
Proof.
  intros V W. unfold ends_with1. rewrite (sh_size v s V), (sh_size w t W), Nat2Z.id.
  destruct (Z.ltb_spec (Z.of_nat (length s)) (Z.of_nat (length t))).
  - exists false. split; auto. split; [discriminate|]. intros (r & ->). rewrite app_length in *. lia.
  - assert (EV : last1 v = first1 v + Z.of_nat (length s)) by apply V. rewrite EV.
    apply ends1_loop_ok; auto; [apply V|lia].
Qed.
Lemma starts_with_char1_ok v s c : sh v s ->
  exists b, starts_with_char1 v c = Ok b /\ (b = true <-> exists r, s = c :: r).
Proof.
  intros V. unfold starts_with_char1. rewrite (sh_empty v s V). destruct s as [|x s].
  - exists false. split; auto. split; [discriminate|]. intros (r & K). discriminate.
  - rewrite (front1_ok v x s V). cbn [bind]. eexists. split; [reflexivity|]. rewrite Z.eqb_eq.
    split; [intros ->; eauto|intros (r & K); congruence].
Qed.
Lemma ends_with_char1_ok v s c : sh v s ->
  exists b, ends_with_char1 v c = Ok b /\ (b = true <-> exists r, s = r ++ [c]).
Proof.
  intros V. unfold ends_with_char1. rewrite (sh_empty v s V). destruct (snoc_inv s) as [->|(t & x & ->)].
  - exists false. split; auto. split; [discriminate|]. intros (r & K). destruct r; discriminate.
  - assert ((match t ++ [x] with [] => true | _ :: _ => false end) = false) as -> by (destruct t; auto).
    rewrite (back1_ok v x t V). cbn [bind]. eexists. split; [reflexivity|]. rewrite Z.eqb_eq.
    split; [intros ->; eauto|intros (r & K); apply app_inj_tail in K; tauto].
Qed.

(** * Popping *)
Lemma pop_front1_ok v c t : sh v (c :: t) -> exists v', pop_front1 v = Ok (c, v') /\ sh v' t.
Proof.
  intros V. unfold pop_front1. rewrite (front1_ok v c t V). cbn [bind].
  destruct (remove_prefix1_ok v (c :: t) 1 V ltac:(lia)) as (v' & -> & V' & _). cbn [bind]. eauto.
Qed.
Lemma drop_last {A} (t : list A) c : firstn (length (t ++ [c]) - Z.to_nat 1) (t ++ [c]) = t.
Proof.
  rewrite app_length. change (Z.to_nat 1) with 1%nat. simpl.
  replace (length t + 1 - 1)%nat with (length t + 0)%nat by lia. rewrite firstn_app_2. simpl. apply app_nil_r.
Qed.
Lemma pop_back1_ok v c t : sh v (t ++ [c]) -> exists v', pop_back1 v = Ok (c, v') /\ sh v' t.
Proof.
  intros V. unfold pop_back1. rewrite (back1_ok v c t V). cbn [bind].
  destruct (remove_suffix1_ok v (t ++ [c]) 1 V ltac:(lia)) as (v' & -> & V' & _). cbn [bind]. rewrite drop_last in V'. eauto.
Qed.
Lemma pop_front_n1_ok v s n : sh v s -> 0 <= n ->
  exists p v', pop_front_n1 v n = Ok (p, v') /\ sh p (firstn (Z.to_nat n) s) /\ sh v' (skipn (Z.to_nat n) s).
Proof.
  intros V N. unfold pop_front_n1. destruct (substr1_ok v s 0 n V ltac:(lia) N) as (p & -> & P). cbn [bind].
  destruct (remove_prefix1_ok v s n V N) as (v' & -> & V' & _). cbn [bind]. simpl skipn in P. eauto 6.
Qed.
Lemma pop_back_n1_ok v s n : sh v s -> 0 <= n ->
  exists p v', pop_back_n1 v n = Ok (p, v') /\ sh p (skipn (length s - Z.to_nat n) s) /\ sh v' (firstn (length s - Z.to_nat n) s).
Proof.
  intros V N. pose proof (sh_bound v s V). unfold pop_back_n1. cbv zeta. rewrite (sh_size v s V), sz_small by lia.
  destruct (substr1_ok v s (Z.of_nat (length s) - Z.min n (Z.of_nat (length s))) npos V ltac:(lia)) as (p & -> & P); [rewrite npos_val; lia|].
  cbn [bind]. destruct (remove_suffix1_ok v s (Z.min n (Z.of_nat (length s))) V ltac:(lia)) as (v' & -> & V' & _). cbn [bind].
  exists p, v'. split; auto.
  replace (Z.to_nat (Z.of_nat (length s) - Z.min n (Z.of_nat (length s)))) with (length s - Z.to_nat n)%nat in P by lia.
  rewrite firstn_all2 in P by (rewrite skipn_length, npos_val; lia).
  replace (length s - Z.to_nat (Z.min n (Z.of_nat (length s))))%nat with (length s - Z.to_nat n)%nat in V' by lia. auto.
Qed.
Lemma pop_cut1 v s Q r len : sh v s -> first_where Q r -> (forall i, Q i -> (i + Z.to_nat len <= length s)%nat) -> 0 <= len ->
  exists p v1 v', pop_front_n1 v r = Ok (p, v1) /\ remove_prefix1 v1 len = Ok v' /\
    exists a b, sh p a /\ sh v' b /\ cut_first Q (Z.to_nat len) s a b.
Proof.
  intros V F B Hl. pose proof (sh_bound v s V) as (SB & _).
  assert (R : 0 <= r < 2 ^ 64) by (apply (first_range Q r (Z.of_nat (length s))); auto; intros i Hi; apply B in Hi; lia).
  destruct (pop_front_n1_ok v s r V ltac:(lia)) as (p & v1 & E & P & V1').
  destruct (remove_prefix1_ok v1 _ len V1' Hl) as (v' & E' & V' & _).
  exists p, v1, v'. split; auto. split; auto. do 2 eexists. split; [exact P|]. split; [exact V'|]. apply cut_first_intro; auto.
Qed.
Lemma find1_0 v w s t : sh v s -> sh w t -> exists r, find1 v w 0 = Ok r /\ first_where (occurs s t) r.
Proof.
  intros V W. destruct (find1_ok v w s t 0 V W ltac:(lia)) as (r & E & F). exists r. split; auto.
  eapply first_where_ext; [|exact F]. intros i. split; [tauto|]. intros; split; auto; lia.
Qed.
Lemma find_if1_0 v s pred : sh v s -> exists r, find_first_if1 true v pred 0 = Ok r /\ first_where (char_is s (fun c => pred c = true)) r.
Proof.
  intros V. destruct (find_first_if1_ok true v s pred 0 V ltac:(lia)) as (r & E & F). exists r. split; auto.
  eapply first_where_ext; [|exact F]. intros i. split; [tauto|]. intros; split; auto; lia.
Qed.
Lemma rfind1_0 v w s t : sh v s -> sh w t -> exists r, rfind1 v w npos = Ok r /\ last_where (occurs s t) r.
Proof.
  intros V W. pose proof (sh_bound v s V). destruct (rfind1_ok v w s t npos V W ltac:(rewrite npos_val; lia)) as (r & E & F). exists r. split; auto.
  eapply last_where_ext; [|exact F]. intros i. split; [tauto|]. intros O; split; auto. apply occurs_le in O. rewrite npos_val. lia.
Qed.
Lemma find_last_if1_0 v s pred : sh v s -> exists r, find_last_if1 v pred npos = Ok r /\ last_where (char_is s (fun c => pred c = true)) r.
Proof.
  intros V. pose proof (sh_bound v s V). destruct (find_last_if1_ok v s pred npos V ltac:(rewrite npos_val; lia)) as (r & E & F). exists r. split; auto.
  eapply last_where_ext; [|exact F]. intros i. split; [tauto|]. intros O; split; auto. apply char_is_lt in O. rewrite npos_val. lia.
Qed.
Definition two (r : res (view1 * view1)) (R : list Z -> list Z -> Prop) : Prop :=
  exists p v, r = Ok (p, v) /\ exists a b, sh p a /\ sh v b /\ R a b.
Lemma two_yields r R : two r R -> yields2 r R.
Proof.
  intros (p & v & E & a & b & P & V & H). apply sh_iff in P, V. destruct P as (P & <-), V as (V & <-).
  exists p, v. auto.
Qed.
Lemma pop_front_at1_ok v w s t : sh v s -> sh w t -> two (pop_front_at1 v w) (cut_first (occurs s t) (length t) s).
Proof.
  intros V W. unfold pop_front_at1. destruct (find1_0 v w s t V W) as (r & -> & F). cbn [bind].
  destruct (pop_cut1 v s (occurs s t) r (Z.of_nat (length t)) V F) as (p & v1 & v' & E1 & E2 & a & b & C); [|lia|].
  { intros i. rewrite Nat2Z.id. apply occurs_length. }
  rewrite E1. cbn [bind]. rewrite (sh_size w t W), E2. cbn [bind]. rewrite Nat2Z.id in C. exists p, v'. eauto.
Qed.
Lemma pop_front_if1_ok v s pred : sh v s -> two (pop_front_if1 v pred) (cut_first (char_is s (fun c => pred c = true)) 1 s).
Proof.
  intros V. unfold pop_front_if1. destruct (find_if1_0 v s pred V) as (r & -> & F). cbn [bind].
  destruct (pop_cut1 v s _ r 1 V F) as (p & v1 & v' & E1 & E2 & a & b & C); [|lia|].
  { intros i Hi. apply char_is_lt in Hi. change (Z.to_nat 1) with 1%nat. lia. }
  rewrite E1. cbn [bind]. rewrite E2. cbn [bind]. exists p, v'. eauto.
Qed.
Lemma try_pop_front1_ok v w s t : sh v s -> sh w t ->
  ((forall i, ~ occurs s t i) -> try_pop_front1 v w = Ok (null1, v)) /\
  (forall i, occurs s t i -> two (try_pop_front1 v w) (cut_first (occurs s t) (length t) s)).
Proof.
  intros V W. pose proof (sh_bound v s V). unfold try_pop_front1. destruct (find1_0 v w s t V W) as (r & -> & F). cbn [bind].
  destruct F as [(-> & N)|(i & -> & O & N)].
  - rewrite Z.eqb_refl. split; auto. intros i O. destruct (N i O).
  - split; [intros N'; destruct (N' i O)|]. intros _ _. pose proof (occurs_length _ _ _ O).
    destruct (Z.eqb_spec (Z.of_nat i) npos) as [B|_]; [rewrite npos_val in B; lia|].
    destruct (pop_cut1 v s (occurs s t) (Z.of_nat i) (Z.of_nat (length t)) V) as (p & v1 & v' & E1 & E2 & a & b & C); [right; eauto| |lia|].
    { intros j. rewrite Nat2Z.id. apply occurs_length. }
    rewrite E1. cbn [bind]. rewrite (sh_size w t W), E2. cbn [bind]. rewrite Nat2Z.id in C. exists p, v'. eauto.
Qed.
Lemma split_back1 v s i len : sh v s -> (i + len <= length s)%nat ->
  exists p v', substr1 v (sz (Z.of_nat i + Z.of_nat len)) npos = Ok p /\ remove_suffix1 v (sz (size1 v - Z.of_nat i)) = Ok v' /\
    sh p (skipn (i + len) s) /\ sh v' (firstn (i + 0) s).
Proof.
  intros V L. pose proof (sh_bound v s V). rewrite (sh_size v s V), !sz_small by lia.
  destruct (substr1_ok v s (Z.of_nat i + Z.of_nat len) npos V ltac:(lia)) as (p & -> & P); [rewrite npos_val; lia|].
  destruct (remove_suffix1_ok v s (Z.of_nat (length s) - Z.of_nat i) V ltac:(lia)) as (v' & -> & V' & _).
  exists p, v'. split; auto. split; auto.
  replace (Z.to_nat (Z.of_nat i + Z.of_nat len)) with (i + len)%nat in P by lia.
  rewrite firstn_all2 in P by (rewrite skipn_length, npos_val; lia). split; auto.
  replace (length s - Z.to_nat (Z.of_nat (length s) - Z.of_nat i))%nat with (i + 0)%nat in V' by lia. auto.
Qed.
Lemma back_cut1 v s Q r len : sh v s -> last_where Q r -> (forall i, Q i -> (i + len <= length s)%nat) ->
  two (if r =? npos then v' <- remove_prefix1 v npos ;; Ok (v, v')
       else result <- substr1 v (sz (r + Z.of_nat len)) npos ;; v' <- remove_suffix1 v (sz (size1 v - r)) ;; Ok (result, v'))
      (cut_last Q len s).
Proof.
  intros V F B. pose proof (sh_bound v s V). destruct F as [(-> & N)|(i & -> & O & N)].
  - rewrite Z.eqb_refl. destruct (remove_prefix1_ok v s npos V ltac:(rewrite npos_val; lia)) as (v' & -> & V' & _). cbn [bind].
    rewrite skipn_all2 in V' by (rewrite npos_val; lia). exists v, v'. split; auto. exists s, []. split; auto. split; auto. right. auto.
  - pose proof (B i O). destruct (Z.eqb_spec (Z.of_nat i) npos) as [K|_]; [rewrite npos_val in K; lia|].
    destruct (split_back1 v s i len V) as (p & v' & E1 & E2 & P & V'); [lia|]. rewrite E1. cbn [bind]. rewrite E2. cbn [bind].
    exists p, v'. split; auto. do 2 eexists. split; [exact P|]. split; [exact V'|]. apply cut_last_intro; auto.
Qed.
Lemma pop_back_at1_ok v w s t : sh v s -> sh w t -> two (pop_back_at1 v w) (cut_last (occurs s t) (length t) s).
Proof.
  intros V W. unfold pop_back_at1. destruct (rfind1_0 v w s t V W) as (r & -> & F). cbn [bind]. rewrite (sh_size w t W).
  apply back_cut1; auto. intros i. apply occurs_length.
Qed.
Lemma pop_back_if1_ok v s pred : sh v s -> two (pop_back_if1 v pred) (cut_last (char_is s (fun c => pred c = true)) 1 s).
Proof.
  intros V. unfold pop_back_if1. destruct (find_last_if1_0 v s pred V) as (r & -> & F). cbn [bind].
  apply (back_cut1 v s _ r 1 V F). intros i Hi. apply char_is_lt in Hi. lia.
Qed.
Lemma try_pop_back1_ok v w s t : sh v s -> sh w t ->
  ((forall i, ~ occurs s t i) -> try_pop_back1 v w = Ok (null1, v)) /\
  (forall i, occurs s t i -> two (try_pop_back1 v w) (cut_last (occurs s t) (length t) s)).
Proof.
  intros V W. pose proof (sh_bound v s V). unfold try_pop_back1. destruct (rfind1_0 v w s t V W) as (r & -> & F). cbn [bind].
  rewrite (sh_size w t W). destruct F as [(-> & N)|(i & -> & O & N)].
  - rewrite Z.eqb_refl. split; auto. intros i O. destruct (N i O).
  - split; [intros N'; destruct (N' i O)|]. intros _ _. pose proof (occurs_length _ _ _ O).
    destruct (Z.eqb_spec (Z.of_nat i) npos) as [B|_]; [rewrite npos_val in B; lia|].
    destruct (split_back1 v s i (length t) V) as (p & v' & E1 & E2 & P & V'); [lia|]. rewrite E1. cbn [bind]. rewrite E2. cbn [bind].
    exists p, v'. split; auto. do 2 eexists. split; [exact P|]. split; [exact V'|]. apply cut_last_intro; auto.
Qed.
Lemma consume_front1_ok v w s t : sh v s -> sh w t ->
  exists v', consume_front1 v w = Ok v' /\ exists a b, sh v' b /\ cut_first (occurs s t) (length t) s a b.
Proof.
  intros V W. pose proof (sh_bound v s V) as (SB & _). unfold consume_front1. destruct (find1_0 v w s t V W) as (r & -> & F). cbn [bind].
  assert (R : 0 <= r < 2 ^ 64) by (apply (first_range (occurs s t) r (Z.of_nat (length s))); auto; intros i Hi; apply occurs_le in Hi; lia).
  destruct (remove_prefix1_ok v s r V ltac:(lia)) as (v1 & -> & V1' & _). cbn [bind]. rewrite (sh_size w t W).
  destruct (remove_prefix1_ok v1 _ (Z.of_nat (length t)) V1' ltac:(lia)) as (v' & -> & V' & _).
  eexists. split; [reflexivity|]. rewrite Nat2Z.id in V'. do 2 eexists. split; [exact V'|].
  apply cut_first_intro; auto. intros i. apply occurs_length.
Qed.

(** * split and to_string *)
Lemma idx_forall f s n : (n <= idx f s)%nat -> Forall (fun c => ~ f c = true) (firstn n s).
Proof.
  revert n. induction s as [|c s IH]; intros n H; [rewrite firstn_nil; constructor|]. destruct n as [|n]; [constructor|].
  simpl in *. destruct (f c) eqn:E; [lia|]. constructor; [congruence|]. apply IH; lia.
Qed.
Lemma split1_loop_ok pred : forall fuel v s, sh v s -> (length s < fuel)%nat ->
  exists l, split1_loop fuel v pred (first1 v) = Ok l /\
    exists ps, Forall2 sh l ps /\ pieces (fun c => pred c = true) s ps.
Proof.
  induction fuel as [|fuel IH]; intros v s V L; [lia|]. pose proof (sh_bound v s V). cbn [split1_loop].
  rewrite (sh_empty v s V). destruct s as [|c0 s0] eqn:ES.
  - exists []. split; auto. exists []. split; constructor.
  - rewrite <- ES in *. rewrite (find_first_if1_res true v s pred 0 V) by lia. cbn [bind]. cbv zeta.
    rewrite (sh_size v s V). change (Z.to_nat 0) with 0%nat.
    set (f := fun c => Bool.eqb (pred c) true). pose proof (idx_le f s) as IL.
    assert (EN : Z.min (Z.of_nat (length s)) (first_res s 0 f) = Z.of_nat (idx f s)).
    { unfold first_res. cbv zeta. simpl skipn. simpl plus. destruct (Nat.eqb_spec (idx f s) (length s)); [rewrite npos_val; lia|lia]. }
    rewrite EN. unfold range1 at 1. rewrite (sh_padd v s) by (auto; lia). cbn [bind].
    destruct (Z.eqb_spec (Z.of_nat (idx f s)) npos) as [K|_]; [rewrite npos_val in K; lia|].
    rewrite sz_small by lia. destruct (remove_prefix1_ok v s (Z.of_nat (idx f s) + 1) V ltac:(lia)) as (v' & -> & V' & _). cbn [bind].
    replace (Z.to_nat (Z.of_nat (idx f s) + 1)) with (S (idx f s)) in V' by lia.
    destruct (IH v' _ V') as (l & -> & ps & F2 & PS).
    { rewrite skipn_length. rewrite ES in *. simpl length in *. lia. }
    cbn [bind]. eexists. split; [reflexivity|].
    pose proof (sh_sub v s 0 (Z.of_nat (idx f s)) V ltac:(lia) ltac:(lia) ltac:(lia)) as SS.
    rewrite Z.add_0_r, Nat2Z.id in SS. simpl skipn in SS.
    exists (firstn (idx f s) s :: ps). split; [constructor; auto|].
    assert (FA : Forall (fun c => ~ pred c = true) (firstn (idx f s) s)).
    { eapply Forall_impl; [|apply (idx_forall f s); lia]. intros c. unfold f. rewrite Bool.eqb_true_iff. auto. }
    destruct (Nat.eq_dec (idx f s) (length s)) as [E|NE].
    + rewrite E, firstn_all in *. rewrite skipn_all2 in PS by lia. inversion PS; subst; try tauto.
      * apply pieces_last; auto. discriminate.
      * destruct a; discriminate.
    + destruct (idx_at f s ltac:(lia)) as (d & Ed & Fd). unfold f in Fd. rewrite Bool.eqb_true_iff in Fd.
      rewrite <- (firstn_skipn (idx f s) s) at 1.
      assert (EK : skipn (idx f s) s = d :: skipn (S (idx f s)) s).
      { clear - Ed. revert Ed. generalize (idx f s). induction s as [|c s IH]; intros [|n] E; simpl in *; try discriminate; [congruence|].
        apply IH in E. auto. }
      rewrite EK. apply pieces_cut; auto.
Qed.
Lemma split1_ok v s pred : sh v s ->
  exists l, split1 v pred = Ok l /\ Forall valid1 l /\ pieces (fun c => pred c = true) s (map chars1 l).
Proof.
  intros V. unfold split1. rewrite (sh_size v s V), Nat2Z.id.
  destruct (split1_loop_ok pred (S (length s)) v s V) as (l & E & ps & F & P); [lia|]. exists l. split; auto.
  assert (K : Forall valid1 l /\ map chars1 l = ps).
  { clear - F. induction F as [|v p l ps H F IH]; simpl; auto. apply sh_iff in H. destruct H as (H & <-). destruct IH as (A & <-). auto. }
  destruct K as (K & ->). auto.
Qed.
Lemma to_string1_ok v s : sh v s -> to_string1 v = Ok s.
Proof. intros V. unfold to_string1. rewrite (sh_size v s V), Nat2Z.id. apply read_n_ok, V. Qed.

(** * Forms used by the properties *)
(** The pieces of a list are determined by the list. *)
Lemma cut_unique (D : Z -> Prop) a d s : forall a' d' s', Forall (fun c => ~ D c) a -> D d -> Forall (fun c => ~ D c) a' -> D d' ->
  a ++ d :: s = a' ++ d' :: s' -> a = a' /\ s = s'.
Proof.
  induction a as [|x a IH]; intros a' d' s' F1 D1 F2 D2 E; destruct a' as [|x' a']; simpl in E.
  - split; congruence.
  - inversion E; subst. inversion F2; subst. tauto.
  - inversion E; subst. inversion F1; subst. tauto.
  - inversion E; subst. inversion F1; inversion F2; subst. destruct (IH a' d' s') as (-> & ->); auto.
Qed.
Lemma pieces_unique D s l : pieces D s l -> forall l', pieces D s l' -> l = l'.
Proof.
  induction 1 as [|s N F|a d s l F Dd P IH]; intros l' Q.
  - inversion Q; subst; auto; [tauto|]. destruct a; discriminate.
  - inversion Q; subst; [tauto|auto|]. apply Forall_app in F. destruct F as (_ & F). inversion F; subst. tauto.
  - inversion Q; subst.
    + destruct a; discriminate.
    + match goal with H : Forall _ (a ++ d :: s) |- _ => apply Forall_app in H; destruct H as (_ & H); inversion H; subst; tauto end.
    + match goal with H : _ ++ _ :: _ = a ++ d :: s |- _ => symmetry in H; destruct (cut_unique D a d s _ _ _ F Dd ltac:(eassumption) ltac:(eassumption) H) as (<- & <-) end.
      f_equal. apply IH. auto.
Qed.

(** * The properties *)
Lemma c219_construction :
  (forall a s b, Z.of_nat (length (a ++ s ++ b)) < 2 ^ 63 ->
     yields (range1 (Some (a ++ s ++ b)) (Z.of_nat (length a)) (Z.of_nat (length s))) s) /\
  (forall a s b, Forall (fun c => c <> 0) s -> Z.of_nat (length (a ++ s ++ 0 :: b)) < 2 ^ 63 ->
     yields (cstr1 (Some (a ++ s ++ 0 :: b)) (Z.of_nat (length a))) s) /\
  (valid1 null1 /\ chars1 null1 = []) /\
  (forall v, valid1 (clear1 v) /\ chars1 (clear1 v) = []).
Proof.
  split; [|split; [|split]].
  - intros. apply yields_sh. eapply range1_ok; eauto.
  - intros. apply yields_sh. apply cstr1_ok; auto.
  - apply sh_iff, null1_sh.
  - intros. apply sh_iff, null1_sh.
Qed.
Lemma c219_access :
  forall v, valid1 v ->
  size1 v = Z.of_nat (length (chars1 v)) /\ (empty1 v = true <-> chars1 v = []) /\
  (forall i c, nth_error (chars1 v) i = Some c -> index1 v (Z.of_nat i) = Ok c) /\
  (forall i, 0 <= i -> at1 v i = match nth_error (chars1 v) (Z.to_nat i) with Some c => Ok c | None => Throw end) /\
  (forall c t, chars1 v = c :: t -> front1 v = Ok c) /\
  (forall c t, chars1 v = t ++ [c] -> back1 v = Ok c).
Proof.
  intros v V. apply sh_of in V. split; [apply sh_size; auto|]. split; [rewrite (sh_empty v _ V); destruct (chars1 v); split; auto; discriminate|].
  split; [intros; eapply index1_ok; eauto|]. split; [intros; apply at1_ok; auto|].
  split; intros c t E; rewrite E in V; [eapply front1_ok|eapply back1_ok]; eauto.
Qed.
Lemma c219_sub_views :
  forall v, valid1 v ->
  (forall n, 0 <= n -> yields (remove_prefix1 v n) (skipn (Z.to_nat n) (chars1 v))) /\
  (forall n, 0 <= n -> yields (remove_suffix1 v n) (firstn (length (chars1 v) - Z.to_nat n) (chars1 v))) /\
  (forall pos count, 0 <= pos -> 0 <= count ->
     (pos <= Z.of_nat (length (chars1 v)) -> yields (substr1 v pos count) (firstn (Z.to_nat count) (skipn (Z.to_nat pos) (chars1 v)))) /\
     (Z.of_nat (length (chars1 v)) < pos -> substr1 v pos count = Throw)).
Proof.
  intros v V. apply sh_of in V. split; [|split].
  - intros n N. apply yields_sh. destruct (remove_prefix1_ok v _ n V N) as (v' & E & S & _). eauto.
  - intros n N. apply yields_sh. destruct (remove_suffix1_ok v _ n V N) as (v' & E & S & _). eauto.
  - intros pos count P C. split; intros L; [apply yields_sh, substr1_ok; auto|eapply substr1_throws; eauto].
Qed.
Lemma c219_copy :
  forall v, valid1 v -> forall dest count pos, 0 <= pos -> 0 <= count ->
  let t := firstn (Z.to_nat count) (skipn (Z.to_nat pos) (chars1 v)) in
  (pos <= Z.of_nat (length (chars1 v)) -> (length t <= length dest)%nat ->
     copy1 v dest count pos = Ok (t ++ skipn (length t) dest, Z.of_nat (length t))) /\
  (Z.of_nat (length (chars1 v)) < pos -> copy1 v dest count pos = Throw).
Proof.
  intros v V dest count pos P C t. apply sh_of in V. split; intros; [apply copy1_ok; auto|eapply copy1_throws; eauto].
Qed.
Lemma c219_resize_partial :
  forall v, valid1 v -> forall n, 0 <= n < Z.of_nat (length (chars1 v)) ->
  yields (resize1 v n) (firstn (Z.to_nat n) (chars1 v)).
Proof.
  intros v V n N. apply sh_of in V. apply yields_sh, resize1_ok; auto.
Qed.
Lemma c219_resize_refuted :
  forall v, valid1 v -> resize1 v (Z.of_nat (length (chars1 v))) = Throw.
Proof.
  intros v V. apply sh_of in V. eapply resize1_throws; [exact V|lia].
Qed.
Lemma c220_pop_characters :
  forall v, valid1 v ->
  (forall c t, chars1 v = c :: t -> exists v', pop_front1 v = Ok (c, v') /\ valid1 v' /\ chars1 v' = t) /\
  (forall c t, chars1 v = t ++ [c] -> exists v', pop_back1 v = Ok (c, v') /\ valid1 v' /\ chars1 v' = t).
Proof.
  intros v V. apply sh_of in V. split; intros c t E; rewrite E in V.
  - destruct (pop_front1_ok v c t V) as (v' & E' & S). apply sh_iff in S. eauto.
  - destruct (pop_back1_ok v c t V) as (v' & E' & S). apply sh_iff in S. eauto.
Qed.
Lemma c220_pop_counts :
  forall v, valid1 v -> forall n, 0 <= n ->
  yields2 (pop_front_n1 v n) (fun p r => p = firstn (Z.to_nat n) (chars1 v) /\ r = skipn (Z.to_nat n) (chars1 v)) /\
  yields2 (pop_back_n1 v n) (fun p r => r = firstn (length (chars1 v) - Z.to_nat n) (chars1 v) /\ p = skipn (length (chars1 v) - Z.to_nat n) (chars1 v)).
Proof.
  intros v V n N. apply sh_of in V. split; apply two_yields.
  - destruct (pop_front_n1_ok v _ n V N) as (p & v' & E & P & V'). exists p, v'. split; auto. eauto 8.
  - destruct (pop_back_n1_ok v _ n V N) as (p & v' & E & P & V'). exists p, v'. split; auto. eauto 8.
Qed.
Lemma c220_pop_until :
  forall v w, valid1 v -> valid1 w ->
  yields2 (pop_front_at1 v w) (cut_first (occurs (chars1 v) (chars1 w)) (length (chars1 w)) (chars1 v)) /\
  yields2 (pop_back_at1 v w) (cut_last (occurs (chars1 v) (chars1 w)) (length (chars1 w)) (chars1 v)) /\
  (forall pred, yields2 (pop_front_if1 v pred) (cut_first (char_is (chars1 v) (fun c => pred c = true)) 1 (chars1 v))) /\
  (forall pred, yields2 (pop_back_if1 v pred) (cut_last (char_is (chars1 v) (fun c => pred c = true)) 1 (chars1 v))).
Proof.
  intros v w V W. apply sh_of in V, W. split; [|split; [|split]]; intros; apply two_yields.
  - apply pop_front_at1_ok; auto.
  - apply pop_back_at1_ok; auto.
  - apply pop_front_if1_ok; auto.
  - apply pop_back_if1_ok; auto.
Qed.
Lemma c220_try_pop :
  forall v w, valid1 v -> valid1 w ->
  ((forall i, ~ occurs (chars1 v) (chars1 w) i) -> try_pop_front1 v w = Ok (null1, v) /\ try_pop_back1 v w = Ok (null1, v)) /\
  (forall i, occurs (chars1 v) (chars1 w) i ->
     yields2 (try_pop_front1 v w) (cut_first (occurs (chars1 v) (chars1 w)) (length (chars1 w)) (chars1 v)) /\
     yields2 (try_pop_back1 v w) (cut_last (occurs (chars1 v) (chars1 w)) (length (chars1 w)) (chars1 v))).
Proof.
  intros v w V W. apply sh_of in V, W. destruct (try_pop_front1_ok v w _ _ V W) as (A & B). destruct (try_pop_back1_ok v w _ _ V W) as (C & D).
  split; [auto|]. intros i O. split; apply two_yields; eauto.
Qed.
Lemma c220_consume_front :
  forall v w, valid1 v -> valid1 w ->
  exists v' piece, consume_front1 v w = Ok v' /\ valid1 v' /\
    cut_first (occurs (chars1 v) (chars1 w)) (length (chars1 w)) (chars1 v) piece (chars1 v').
Proof.
  intros v w V W. apply sh_of in V, W. destruct (consume_front1_ok v w _ _ V W) as (v' & E & a & b & S & C).
  apply sh_iff in S. destruct S as (S & <-). eauto.
Qed.
Lemma c221_compare :
  forall v w, valid1 v -> valid1 w ->
  exists r, compare1 v w = Ok r /\ (r < 0 <-> lex_lt (chars1 v) (chars1 w)) /\ (r = 0 <-> chars1 v = chars1 w) /\
    (0 < r <-> lex_lt (chars1 w) (chars1 v)).
Proof.
  intros v w V W. apply compare1_spec; apply sh_of; auto.
Qed.
Lemma c221_operators :
  forall v w, valid1 v -> valid1 w ->
  exists e n l le g ge, eq1 v w = Ok e /\ ne1 v w = Ok n /\ lt1 v w = Ok l /\ le1 v w = Ok le /\
    gt1 v w = Ok g /\ ge1 v w = Ok ge /\
    (e = true <-> chars1 v = chars1 w) /\ (n = true <-> chars1 v <> chars1 w) /\
    (l = true <-> lex_lt (chars1 v) (chars1 w)) /\ (le = true <-> lex_lt (chars1 v) (chars1 w) \/ chars1 v = chars1 w) /\
    (g = true <-> lex_lt (chars1 w) (chars1 v)) /\ (ge = true <-> lex_lt (chars1 w) (chars1 v) \/ chars1 v = chars1 w).
Proof.
  intros v w V W. apply rel_ops1; apply sh_of; auto.
Qed.
Lemma c221_compare_substrings :
  forall v w p1 c1 p2 c2, valid1 v -> valid1 w -> 0 <= p1 -> 0 <= c1 -> 0 <= p2 -> 0 <= c2 ->
  let s := firstn (Z.to_nat c1) (skipn (Z.to_nat p1) (chars1 v)) in
  let t := firstn (Z.to_nat c2) (skipn (Z.to_nat p2) (chars1 w)) in
  (p1 <= Z.of_nat (length (chars1 v)) -> p2 <= Z.of_nat (length (chars1 w)) ->
     exists r, compare_subs1 v p1 c1 w p2 c2 = Ok r /\ (r < 0 <-> lex_lt s t) /\ (r = 0 <-> s = t) /\ (0 < r <-> lex_lt t s)) /\
  (Z.of_nat (length (chars1 v)) < p1 -> compare_subs1 v p1 c1 w p2 c2 = Throw).
Proof.
  intros v w p1 c1 p2 c2 V W A B C D s t. apply sh_of in V, W. split.
  - intros L1 L2. unfold compare_subs1.
    destruct (substr1_ok v _ p1 c1 V (conj A L1) B) as (v' & E & V'). rewrite E. cbn [bind].
    destruct (substr1_ok w _ p2 c2 W (conj C L2) D) as (w' & E' & W'). rewrite E'. cbn [bind]. apply compare1_spec; auto.
  - intros L. unfold compare_subs1. rewrite (substr1_throws v _ p1 c1 V L). auto.
Qed.
Lemma c222_find_partial :
  forall v w pos, valid1 v -> valid1 w -> 0 <= pos <= Z.of_nat (length (chars1 v)) ->
  exists r, find1 v w pos = Ok r /\ first_where (fun i => pos <= Z.of_nat i /\ occurs (chars1 v) (chars1 w) i) r.
Proof.
  intros v w pos V W. apply find1_ok; apply sh_of; auto.
Qed.
Lemma c222_find_refuted :
  (forall v w pos, valid1 v -> valid1 w -> chars1 w = [] -> find1 v w pos = Ok pos) /\
  (forall v w pos l, valid1 v -> valid1 w -> chars1 w <> [] -> (length (chars1 w) <= length (chars1 v))%nat ->
     mem1 v = Some l -> Z.of_nat (length l) < first1 v + pos -> find1 v w pos = UB).
Proof.
  split.
  - intros v w pos V W E. apply sh_of in V, W. rewrite E in W. eapply find1_beyond_empty; eauto.
  - intros v w pos l V W. intros. eapply find1_beyond; eauto; apply sh_of; auto.
Qed.
Lemma c222_rfind :
  forall v w pos, valid1 v -> valid1 w -> 0 <= pos ->
  exists r, rfind1 v w pos = Ok r /\ last_where (fun i => Z.of_nat i <= pos /\ occurs (chars1 v) (chars1 w) i) r.
Proof.
  intros v w pos V W. apply rfind1_ok; apply sh_of; auto.
Qed.
Lemma c222_find_sets :
  forall v w pos, valid1 v -> valid1 w -> 0 <= pos ->
  (exists r, find_first_of1 v w pos = Ok r /\
     first_where (fun i => pos <= Z.of_nat i /\ char_is (chars1 v) (fun c => In c (chars1 w)) i) r) /\
  (exists r, find_first_not_of1 v w pos = Ok r /\
     first_where (fun i => pos <= Z.of_nat i /\ char_is (chars1 v) (fun c => ~ In c (chars1 w)) i) r) /\
  (exists r, find_last_of1 v w pos = Ok r /\
     last_where (fun i => Z.of_nat i <= pos /\ char_is (chars1 v) (fun c => In c (chars1 w)) i) r).
Proof.
  intros v w pos V W P. apply sh_of in V, W. split; [|split].
  - apply find_first_of1_ok; auto.
  - apply find_first_not_of1_ok; auto.
  - apply find_last_of1_ok; auto.
Qed.
Lemma c222_find_predicates :
  forall v pred pos, valid1 v -> 0 <= pos ->
  (forall want, exists r, find_first_if1 want v pred pos = Ok r /\
     first_where (fun i => pos <= Z.of_nat i /\ char_is (chars1 v) (fun c => pred c = want) i) r) /\
  (exists r, find_last_if1 v pred pos = Ok r /\
     last_where (fun i => Z.of_nat i <= pos /\ char_is (chars1 v) (fun c => pred c = true) i) r).
Proof.
  intros v pred pos V P. apply sh_of in V. split; [intros; apply find_first_if1_ok; auto|apply find_last_if1_ok; auto].
Qed.
Lemma c223_search_partial :
  forall v w pos, valid1 v -> valid1 w -> chars1 w <> [] -> 0 <= pos ->
  pos + Z.of_nat (length (chars1 w)) < Z.of_nat (length (chars1 v)) ->
  exists r, search1 v w pos = Ok r /\ first_where (fun i => pos <= Z.of_nat i /\ occurs (chars1 v) (chars1 w) i) r.
Proof.
  intros v w pos V W. apply search1_ok; apply sh_of; auto.
Qed.
Lemma c223_search_refuted :
  forall v w a, valid1 v -> valid1 w -> chars1 v = a ++ chars1 w ->
  search1 v w (Z.of_nat (length a)) = Ok npos /\ search_last1 v w (Z.of_nat (length a)) = Ok npos.
Proof.
  intros v w a V W E. apply sh_of in V, W. pose proof (sh_bound v _ V) as (B & _). rewrite E, app_length in B.
  apply (search1_short v w _ _ _ V W); [lia|]. rewrite E, app_length. lia.
Qed.
Lemma c223_search_last_refuted :
  forall v w pos, valid1 v -> valid1 w -> chars1 w <> [] -> 0 <= pos ->
  pos + Z.of_nat (length (chars1 w)) < Z.of_nat (length (chars1 v)) ->
  exists r, search_last1 v w pos = Ok r /\
    ((r = pos /\ forall i, pos <= Z.of_nat i -> ~ occurs (chars1 v) (chars1 w) i) \/
     (exists i, r = Z.of_nat i /\ pos <= r /\ occurs (chars1 v) (chars1 w) i /\
        forall j, pos <= Z.of_nat j -> (j < i)%nat -> ~ occurs (chars1 v) (chars1 w) j)).
Proof.
  intros v w pos V W. apply search_last1_ok; apply sh_of; auto.
Qed.
Lemma c223_find_last_char_refuted :
  forall v c pos, valid1 v -> 0 <= pos ->
  (chars1 v <> [] -> exists r, find_last_char1 v c pos = Ok r /\
     last_where (fun i => (if Z.of_nat (length (chars1 v)) <=? pos then 0 else pos) < Z.of_nat i /\
                          char_is (chars1 v) (fun x => x = c) i) r) /\
  (chars1 v = [] -> first1 v = 0 -> find_last_char1 v c pos = UB).
Proof.
  intros v c pos V P. apply sh_of in V. split; [intros; apply find_last_char1_ok; auto|].
  intros E F. rewrite E in V. apply find_last_char1_empty; auto.
Qed.
Lemma c223_find_last_not_of_partial :
  forall v w pos, valid1 v -> valid1 w -> chars1 w = [] -> 0 <= pos ->
  exists r, find_last_not_of1 v w pos = Ok r /\
    last_where (fun i => Z.of_nat i <= pos /\ char_is (chars1 v) (fun c => ~ In c (chars1 w)) i) r.
Proof.
  intros v w pos V W E P. apply sh_of in V, W. rewrite E in *. pose proof (sh_bound v _ V) as (B & _).
  rewrite (find_last_not_of1_empty v w _ pos V W P). eexists. split; [reflexivity|].
  assert (K : forall i, (i < length (chars1 v))%nat -> char_is (chars1 v) (fun c => ~ In c []) i).
  { intros i L. destruct (nth_get _ _ L) as (c & Ec). exists c. split; auto. }
  destruct (Z.leb_spec (Z.of_nat (length (chars1 v))) pos).
  - destruct (chars1 v) as [|c s]; [left; split; [reflexivity|]; intros i (_ & c & Ec & _); destruct i; discriminate|].
    right. exists (length s). split; [rewrite sz_small by (simpl length in *; lia); simpl length; lia|].
    split; [split; [simpl length in *; lia|apply K; simpl; lia]|].
    intros j L (_ & d & Ed & _). pose proof (nth_error_some_lt _ _ _ Ed). simpl length in *. lia.
  - right. exists (Z.to_nat pos). split; [lia|]. split; [split; [lia|apply K; lia]|]. intros j L (A & _). lia.
Qed.
Lemma c223_find_last_not_of_refuted :
  forall v w d t pos, valid1 v -> valid1 w -> chars1 w = d :: t -> 0 <= pos ->
  exists r, find_last_not_of1 v w pos = Ok r /\
    last_where (fun i => Z.of_nat i <= pos /\ char_is (chars1 v) (fun c => c = d) i) r.
Proof.
  intros v w d t pos V W E P. apply sh_of in V, W. rewrite E in W. eapply find_last_not_of1_actual; eauto.
Qed.
Lemma c224_starts_ends :
  forall v w, valid1 v -> valid1 w ->
  (exists b, starts_with1 v w = Ok b /\ (b = true <-> exists r, chars1 v = chars1 w ++ r)) /\
  (exists b, ends_with1 v w = Ok b /\ (b = true <-> exists r, chars1 v = r ++ chars1 w)) /\
  (forall c, exists b, starts_with_char1 v c = Ok b /\ (b = true <-> exists r, chars1 v = c :: r)) /\
  (forall c, exists b, ends_with_char1 v c = Ok b /\ (b = true <-> exists r, chars1 v = r ++ [c])).
Proof.
  intros v w V W. apply sh_of in V, W. split; [|split; [|split]]; intros.
  - apply starts_with1_ok; auto.
  - apply ends_with1_ok; auto.
  - apply starts_with_char1_ok; auto.
  - apply ends_with_char1_ok; auto.
Qed.
Lemma c224_to_string :
  forall v s, valid1 v ->
  to_string1 v = Ok (chars1 v) /\ plus1 s v = Ok (s ++ chars1 v) /\ plus_right1 v s = Ok (chars1 v ++ s).
Proof.
  intros v s V. apply sh_of in V. unfold plus1, plus_right1. rewrite (to_string1_ok v _ V). auto.
Qed.
Lemma c225_split :
  forall v pred, valid1 v ->
  exists l, split1 v pred = Ok l /\ Forall valid1 l /\ pieces (fun c => pred c = true) (chars1 v) (map chars1 l).
Proof.
  intros v pred V. apply split1_ok, sh_of; auto.
Qed.
Lemma c225_pieces_unique :
  forall D s l l', pieces D s l -> pieces D s l' -> l = l'.
Proof.
  intros D s l l' P Q. eapply pieces_unique; eauto.
Qed.
Lemma c225_literal_refuted :
  forall text, Z.of_nat (length (text ++ [0])) < 2 ^ 63 -> yields (make_view1 (text ++ [0])) (text ++ [0]).
Proof.
  intros text L. apply yields_sh, make_view1_ok; auto.
Qed.
