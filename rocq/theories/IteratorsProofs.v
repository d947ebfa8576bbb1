(** Proofs about the iterators.  Statements are in IteratorsProps.v. *)
From Verif Require Import Common CommonProofs Ints Math MathProofs BitsProofs SpecBits AlgSearch Pipelines SpecPipes PipelinesProofs
  Iterators SpecIterators.
From Coq Require Import ZifyBool.
Open Scope Z_scope.
Local Arguments Z.mul : simpl never.
Local Arguments Z.add : simpl never.
Local Arguments Z.sub : simpl never.
Local Arguments Z.pow : simpl never.
Local Arguments Z.of_nat : simpl never.

Lemma zlen_pos {A} (l : list A) : l <> [] -> 0 < zlen l.
Proof. unfold zlen. destruct l; [congruence|]. cbn [length]. lia. Qed.
Lemma zlen_nonneg {A} (l : list A) : 0 <= zlen l.
Proof. unfold zlen. lia. Qed.
Lemma at_pos_ok {A} (l : list A) p x : 0 <= p -> nth_error l (Z.to_nat p) = Some x -> at_pos l p = Ok x.
Proof. intros H E. unfold at_pos, rd. rewrite E. destruct (Z.ltb_spec p 0); [lia|reflexivity]. Qed.
Lemma at_pos_some {A} (l : list A) p : 0 <= p < zlen l -> exists x, nth_error l (Z.to_nat p) = Some x /\ at_pos l p = Ok x.
Proof.
  intros H. destruct (nth_error l (Z.to_nat p)) as [x|] eqn:E.
  - exists x. split; [reflexivity|]. apply at_pos_ok; [lia|exact E].
  - apply nth_error_None in E. unfold zlen in H. lia.
Qed.
Lemma at_pos_out {A} (l : list A) p : p < 0 \/ zlen l <= p -> at_pos l p = UB.
Proof.
  intros H. unfold at_pos, rd. destruct (Z.ltb_spec p 0); [reflexivity|].
  destruct (nth_error l (Z.to_nat p)) eqn:E; [|reflexivity].
  assert (Z.to_nat p < length l)%nat by (apply nth_error_Some; congruence). unfold zlen in H. lia.
Qed.
Lemma move_ok len p n : 0 <= p + n <= len -> move len p n = Ok (p + n).
Proof. intros H. unfold move. replace ((0 <=? p + n) && (p + n <=? len)) with true by lia. reflexivity. Qed.
Lemma move_out len p n : p + n < 0 \/ len < p + n -> move len p n = UB.
Proof. intros H. unfold move. replace ((0 <=? p + n) && (p + n <=? len)) with false by lia. reflexivity. Qed.

(** ** circular_iterator *)
Lemma offset_mod s p n : 0 < s < 2 ^ 63 -> - 2 ^ 63 < p + n < 2 ^ 63 -> ~ (p + n < 0 /\ (p + n) mod s = 0) ->
  get_offset s p n = Ok ((p + n) mod s).
Proof.
  intros Hs Hr Hn. unfold get_offset. rewrite calc_i64 by lia. cbn [bind].
  replace (n + p) with (p + n) by lia. set (m := p + n) in *. clearbody m.
  destruct (Z.ltb_spec m 0).
  - rewrite calc_i64 by lia. cbn [bind]. destruct (Z.eqb_spec s 0); [lia|].
    rewrite Z.rem_mod_nonneg by lia.
    assert (m mod s <> 0) by lia.
    assert (E : (m * -1) mod s = s - m mod s).
    { replace (m * -1) with (- m) by lia. apply Z.mod_opp_l_nz; lia. }
    rewrite E. pose proof (Z.mod_pos_bound m s). rewrite calc_i64 by lia. f_equal. lia.
  - destruct (Z.leb_spec s m).
    + destruct (Z.eqb_spec s 0); [lia|]. rewrite Z.rem_mod_nonneg by lia. reflexivity.
    + rewrite Z.mod_small by lia. reflexivity.
Qed.
Lemma offset_wrong s p n : 0 < s < 2 ^ 63 -> - 2 ^ 63 < p + n < 0 -> (p + n) mod s = 0 ->
  get_offset s p n = Ok s.
Proof.
  intros Hs Hr Hn. unfold get_offset. rewrite calc_i64 by lia. cbn [bind].
  replace (n + p) with (p + n) by lia. set (m := p + n) in *. clearbody m.
  destruct (Z.ltb_spec m 0); [|lia]. rewrite calc_i64 by lia. cbn [bind].
  destruct (Z.eqb_spec s 0); [lia|]. rewrite Z.rem_mod_nonneg by lia.
  replace (m * -1) with (- m) by lia. rewrite Z.mod_opp_l_z by lia.
  rewrite calc_i64 by lia. f_equal. lia.
Qed.
Lemma circ_add_mod {A} (l : list A) p n :
  l <> [] -> zlen l < 2 ^ 63 -> - 2 ^ 63 < p + n < 2 ^ 63 -> ~ (p + n < 0 /\ (p + n) mod zlen l = 0) ->
  circ_add l p n = Ok ((p + n) mod zlen l).
Proof. intros H ? ? ?. pose proof (zlen_pos l H). apply offset_mod; auto. Qed.
Lemma circ_sub_mod {A} (l : list A) p n :
  l <> [] -> zlen l < 2 ^ 63 -> - 2 ^ 63 < n <= 2 ^ 63 -> - 2 ^ 63 < p - n < 2 ^ 63 -> ~ (p - n < 0 /\ (p - n) mod zlen l = 0) ->
  circ_sub l p n = Ok ((p - n) mod zlen l).
Proof.
  intros H ? ? ? ?. pose proof (zlen_pos l H). unfold circ_sub. rewrite calc_i64 by lia. cbn [bind].
  replace (p - n) with (p + - n) by lia. apply offset_mod; auto.
Qed.
Lemma circ_get_mod {A} (l : list A) p : l <> [] -> exists x, nth_error l (Z.to_nat (p mod zlen l)) = Some x /\
  circ_get l (p mod zlen l) = Ok x.
Proof.
  intros H. pose proof (zlen_pos l H). pose proof (Z.mod_pos_bound p (zlen l)). apply at_pos_some. lia.
Qed.
Lemma circ_sub_wrong {A} (l : list A) p n :
  l <> [] -> zlen l < 2 ^ 63 -> - 2 ^ 63 < n < 2 ^ 63 -> - 2 ^ 63 < p - n < 0 -> (p - n) mod zlen l = 0 ->
  circ_sub l p n = Ok (zlen l) /\ circ_get l (zlen l) = UB.
Proof.
  intros H ? ? ? ?. pose proof (zlen_pos l H). split.
  - unfold circ_sub. rewrite calc_i64 by lia. cbn [bind]. apply offset_wrong; replace (p + - n) with (p - n) by lia; auto.
  - apply at_pos_out. lia.
Qed.
Lemma circ_steps {A} (l : list A) : (2 <= length l)%nat -> zlen l < 2 ^ 63 -> forall ops p,
  0 <= p < zlen l -> steps (circ_inc l) (circ_dec l) ops p = Ok ((p + net ops) mod zlen l).
Proof.
  intros HL HM. assert (2 <= zlen l) by (unfold zlen; lia).
  induction ops as [|b ops IH]; intros p Hp; cbn [steps net].
  - rewrite Z.mod_small by lia. f_equal. lia.
  - assert (E : (if b then circ_inc l p else circ_dec l p) = Ok ((p + (if b then 1 else -1)) mod zlen l)).
    { destruct b; apply offset_mod; try lia. intros [H1 H2]. assert (p = 0) by lia. subst p.
      replace (0 + -1) with (-1) in H2 by lia. assert (-1 = zlen l * (-1 / zlen l)) by (apply Z.div_exact; lia).
      assert (-1 / zlen l = -1 \/ -1 / zlen l <= -2 \/ 0 <= -1 / zlen l) as [K | [K | K]] by lia; nia. }
    rewrite E. cbn [bind]. pose proof (Z.mod_pos_bound (p + (if b then 1 else -1)) (zlen l)). rewrite IH by lia.
    rewrite Zplus_mod_idemp_l. f_equal. f_equal. lia.
Qed.
Lemma circ_inc_times {A} (l : list A) : l <> [] -> zlen l < 2 ^ 63 -> forall k p, 0 <= p < zlen l ->
  times k (circ_inc l) p = Ok ((p + Z.of_nat k) mod zlen l).
Proof.
  intros HN HM. pose proof (zlen_pos l HN). induction k as [|k IH]; intros p Hp; cbn [times].
  - rewrite Z.mod_small by lia. f_equal. lia.
  - unfold circ_inc at 1. rewrite offset_mod by lia. cbn [bind].
    pose proof (Z.mod_pos_bound (p + 1) (zlen l)). rewrite IH by lia.
    rewrite Zplus_mod_idemp_l. f_equal. f_equal. lia.
Qed.
Lemma circ_never_ends {A} (l : list A) : l <> [] -> zlen l < 2 ^ 63 -> forall fuel p, 0 <= p < zlen l ->
  walk fuel (circ_range l) p = OutOfFuel.
Proof.
  intros HN HM. pose proof (zlen_pos l HN). induction fuel as [|fuel IH]; intros p Hp; [reflexivity|].
  cbn [walk circ_range forward at_end get inc]. replace (p =? zlen l) with false by lia.
  unfold circ_get. destruct (at_pos_some l p) as (x & _ & ->); [lia|]. cbn [bind].
  unfold circ_inc at 1. rewrite offset_mod by lia. cbn [bind].
  pose proof (Z.mod_pos_bound (p + 1) (zlen l)). unfold circ_range, forward in IH. rewrite IH by lia. reflexivity.
Qed.
Lemma circ_empty {A} : circ_inc ([] : list A) 0 = UB /\ circ_dec ([] : list A) 0 = UB.
Proof. split; reflexivity. Qed.

(** ** chunk_iterator *)
Lemma chunk_inc_times {A} (l : list A) c : 0 < c -> forall k p, 0 <= p -> p + Z.of_nat k * c <= zlen l ->
  times k (chunk_inc l c) p = Ok (p + Z.of_nat k * c).
Proof.
  intros Hc. induction k as [|k IH]; intros p Hp Hk; cbn [times].
  - f_equal. lia.
  - unfold chunk_inc at 1. rewrite move_ok by nia. cbn [bind]. rewrite IH by nia. f_equal. nia.
Qed.
Lemma chunk_add_ok {A} (l : list A) c p n : zlen l < 2 ^ 63 -> 0 <= p -> 0 <= p + n * c <= zlen l -> p <= zlen l ->
  chunk_add l c p n = Ok (p + n * c).
Proof.
  intros. unfold chunk_add. rewrite calc_i64 by lia. cbn [bind]. apply move_ok. lia.
Qed.
Lemma chunk_dec_inc {A} (l : list A) c p q : 0 <= p -> p <= zlen l -> chunk_inc l c p = Ok q -> chunk_dec l c q = Ok p.
Proof.
  unfold chunk_inc, chunk_dec. intros ? ? E. destruct (Z_le_dec 0 (p + c)); [destruct (Z_le_dec (p + c) (zlen l))|].
  - rewrite move_ok in E by lia. inversion E; subst. rewrite move_ok by lia. f_equal. lia.
  - rewrite move_out in E by lia. discriminate.
  - rewrite move_out in E by lia. discriminate.
Qed.
Lemma chunk_sub_wrong {A} (l : list A) c p n : chunk_sub l c p n = chunk_add l c p n.
Proof. reflexivity. Qed.
Lemma chunk_diff_wrong {A} (l : list A) c p n q : zlen l < 2 ^ 63 -> 0 <= p <= zlen l ->
  chunk_add l c p n = Ok q -> chunk_diff q p = Ok (n * c).
Proof.
  unfold chunk_add, chunk_diff. intros ? ? E. unfold calc in E. cbn [signed i64 lowest highest width] in E.
  destruct ((- 2 ^ (64 - 1) <=? n * c) && (n * c <=? 2 ^ (64 - 1) - 1)) eqn:B; cbn [bind] in E; [|discriminate].
  destruct (Z_le_dec 0 (p + n * c)); [destruct (Z_le_dec (p + n * c) (zlen l))|].
  - rewrite move_ok in E by lia. inversion E; subst. rewrite calc_i64 by lia. f_equal. lia.
  - rewrite move_out in E by lia. discriminate.
  - rewrite move_out in E by lia. discriminate.
Qed.
Lemma chunk_yields {A} (l : list A) c : 0 < c -> forall k p, 0 <= p -> p + Z.of_nat k * c = zlen l ->
  exists ys, yields false (chunk_range c l) p ys /\
    length ys = k /\ forall j, (j < k)%nat -> nth_error ys j = nth_error l (Z.to_nat (p + Z.of_nat j * c)).
Proof.
  intros Hc. induction k as [|k IH]; intros p Hp HL.
  - exists []. split; [|split; [reflexivity|intros; lia]]. apply yields_end; [cbn; lia|discriminate].
  - destruct (IH (p + c)) as (ys & H1 & H2 & H3); [lia|nia|].
    destruct (at_pos_some l p) as (x & X1 & X2); [nia|].
    exists (x :: ys). split; [|split].
    + eapply yields_step with (s' := p + c); [cbn; nia|exact X2| |discriminate|exact H1].
      cbn. apply move_ok. nia.
    + cbn [length]. lia.
    + intros [|j] Hj; cbn [nth_error].
      * rewrite <- X1. f_equal. lia.
      * rewrite H3 by lia. f_equal. lia.
Qed.

(** ** indexed_iterator *)
Lemma conv_u64_id q : 0 <= q < 2 ^ 64 -> conv u64 q = q.
Proof. intros. apply conv_u64. lia. Qed.
Lemma idx_make_ok {A} dbg (l : list A) q : zlen l < 2 ^ 63 -> 0 <= q <= zlen l -> idx_make dbg l q = Ok q.
Proof.
  intros. unfold idx_make, check. replace (q <=? zlen l) with true by lia. rewrite andb_false_r. cbn [bind].
  rewrite conv_i64 by lia. reflexivity.
Qed.
Lemma ibegin_ok {A} dbg (l : list A) : zlen l < 2 ^ 63 -> ibegin dbg l = Ok 0.
Proof. intros. pose proof (zlen_nonneg l). apply idx_make_ok; lia. Qed.
Lemma iend_ok {A} dbg (l : list A) : zlen l < 2 ^ 63 -> iend dbg l = Ok (zlen l).
Proof. intros. pose proof (zlen_nonneg l). apply idx_make_ok; lia. Qed.
Lemma check_true dbg b : b = true -> check dbg b = Ok tt.
Proof. intros ->. unfold check. rewrite andb_false_r. reflexivity. Qed.
Ltac chk := rewrite check_true by lia; cbn [bind].
Lemma idx_add_ok {A} dbg (l : list A) p n : zlen l < 2 ^ 63 -> 0 <= p + n < zlen l -> idx_add dbg l p n = Ok (p + n).
Proof.
  intros. unfold idx_add. rewrite calc_i64 by lia. cbn [bind]. chk. rewrite conv_u64_id by lia. apply idx_make_ok; lia.
Qed.
Lemma idx_sub_ok {A} dbg (l : list A) p n : zlen l < 2 ^ 63 -> 0 <= p - n < zlen l -> idx_sub dbg l p n = Ok (p - n).
Proof.
  intros. unfold idx_sub. rewrite calc_i64 by lia. cbn [bind]. chk. rewrite conv_u64_id by lia. apply idx_make_ok; lia.
Qed.
Lemma idx_add_assign_ok {A} dbg (l : list A) p n : zlen l < 2 ^ 63 -> 0 <= p + n <= zlen l ->
  idx_add_assign dbg l p n = Ok (p + n).
Proof.
  intros. unfold idx_add_assign. rewrite calc_i64 by lia. cbn [bind]. rewrite conv_u64_id by lia. chk. reflexivity.
Qed.
Lemma idx_sub_assign_ok dbg p n : 0 <= p - n < 2 ^ 63 -> idx_sub_assign dbg p n = Ok (p - n).
Proof. intros. unfold idx_sub_assign. rewrite calc_i64 by lia. cbn [bind]. chk. reflexivity. Qed.
Lemma idx_get_ok {A} dbg (l : list A) p x : zlen l < 2 ^ 63 -> 0 <= p -> nth_error l (Z.to_nat p) = Some x ->
  idx_get dbg l p = Ok x.
Proof.
  intros ? ? E. assert (Z.to_nat p < length l)%nat by (apply nth_error_Some; congruence).
  assert (p < zlen l) by (unfold zlen; lia).
  unfold idx_get. chk. rewrite conv_u64_id by lia. chk. apply at_pos_ok; auto.
Qed.
Lemma idx_compare_ok dbg p q : 0 <= p < 2 ^ 63 -> 0 <= q < 2 ^ 63 ->
  idx_compare dbg p q = Ok (Z.sgn (p - q)).
Proof.
  intros. unfold idx_compare. chk. chk. rewrite calc_i64 by lia. cbn [bind]. f_equal.
  destruct (Z.ltb_spec (p - q) 0); [|destruct (Z.ltb_spec 0 (p - q))]; destruct (p - q) eqn:E; cbn [Z.sgn]; try reflexivity; lia.
Qed.
Lemma idx_order dbg p q : 0 <= p < 2 ^ 63 -> 0 <= q < 2 ^ 63 ->
  idx_eq dbg p q = Ok (p =? q) /\ idx_ne dbg p q = Ok (negb (p =? q)) /\
  idx_lt dbg p q = Ok (p <? q) /\ idx_gt dbg p q = Ok (q <? p) /\
  idx_le dbg p q = Ok (p <=? q) /\ idx_ge dbg p q = Ok (q <=? p).
Proof.
  intros. unfold idx_eq, idx_ne, idx_lt, idx_gt, idx_le, idx_ge. rewrite idx_compare_ok by auto. cbn [bind].
  assert (Z.sgn (p - q) = 0 <-> p = q) by lia.
  repeat split; f_equal; lia.
Qed.
Lemma skipn_nth {A} (l : list A) i x : nth_error l i = Some x -> skipn i l = x :: skipn (S i) l.
Proof.
  revert i. induction l as [|y l IH]; intros [|i] E; cbn [nth_error] in E; try discriminate.
  - inversion E. reflexivity.
  - cbn [skipn]. rewrite (IH i E). reflexivity.
Qed.
Lemma idx_walk {A} dbg (l : list A) : zlen l < 2 ^ 63 -> forall n p, 0 <= p -> p + Z.of_nat n = zlen l ->
  yields false (idx_range dbg l) p (skipn (Z.to_nat p) l).
Proof.
  intros HM. induction n as [|n IH]; intros p Hp E.
  - rewrite skipn_all2 by (unfold zlen in E; lia). apply yields_end; [|discriminate].
    cbn. destruct (idx_order dbg p (zlen l)) as (-> & _); [lia|lia|]. lia.
  - destruct (at_pos_some l p) as (x & X1 & X2); [lia|].
    replace (skipn (Z.to_nat p) l) with (x :: skipn (Z.to_nat (p + 1)) l).
    2:{ replace (Z.to_nat (p + 1)) with (S (Z.to_nat p)) by lia. symmetry. apply skipn_nth. exact X1. }
    eapply yields_step with (s' := p + 1); [ | |  | discriminate | apply IH; lia]; cbn.
    + destruct (idx_order dbg p (zlen l)) as (-> & _); [lia|lia|]. lia.
    + apply idx_get_ok; auto.
    + unfold idx_inc. rewrite conv_u64_id by lia. chk. apply calc_i64. lia.
Qed.
Lemma idx_visits {A} dbg (l : list A) : zlen l < 2 ^ 63 -> visits (idx_range dbg l) l.
Proof. intros H. exact (idx_walk dbg l H (length l) 0 ltac:(lia) ltac:(unfold zlen; lia)). Qed.
Lemma idx_plus_end {A} (l : list A) : zlen l < 2 ^ 63 -> idx_add true l 0 (zlen l) = Throw.
Proof.
  intros. pose proof (zlen_nonneg l). unfold idx_add. rewrite calc_i64 by lia. cbn [bind].
  unfold check at 1. replace (0 + zlen l <? zlen l) with false by lia. rewrite andb_false_r. reflexivity.
Qed.
Lemma idx_get_end {A} (l : list A) : zlen l < 2 ^ 63 -> idx_get true l (zlen l) = UB.
Proof.
  intros. pose proof (zlen_nonneg l). unfold idx_get. chk. rewrite conv_u64_id by lia. chk. apply at_pos_out. lia.
Qed.
Lemma idx_inc_end {A} (l : list A) : zlen l < 2 ^ 63 - 1 -> idx_inc true l (zlen l) = Ok (zlen l + 1).
Proof.
  intros. pose proof (zlen_nonneg l). unfold idx_inc. rewrite conv_u64_id by lia. chk. apply calc_i64. lia.
Qed.
Lemma idx_diff_ok dbg p q : 0 <= q <= p -> p < 2 ^ 63 -> idx_diff dbg p q = Ok (p - q).
Proof. intros. unfold idx_diff. chk. chk. chk. apply calc_i64. lia. Qed.
Lemma idx_diff_back p q : 0 <= p < q -> idx_diff true p q = Throw.
Proof. intros. unfold idx_diff. chk. chk. unfold check. replace (q <=? p) with false by lia. reflexivity. Qed.

(** ** find_iterator *)
Lemma find_at_skip {A} (f : A -> bool) (l : list A) : forall n p, (p + n = length l)%nat ->
  (p <= find_at f l p <= length l)%nat /\
  (if (find_at f l p =? length l)%nat then filter f (skipn p l) = []
   else exists x, nth_error l (find_at f l p) = Some x /\
        filter f (skipn p l) = x :: filter f (skipn (S (find_at f l p)) l)).
Proof.
  unfold find_at. induction n as [|n IH]; intros p E.
  - rewrite skipn_all2 by lia. cbn [find_if]. rewrite Nat.add_0_r. split; [lia|].
    destruct (Nat.eqb_spec p (length l)); [reflexivity|lia].
  - destruct (nth_error l p) as [x|] eqn:X; [|apply nth_error_None in X; lia].
    rewrite (skipn_nth l p x X). cbn [find_if filter]. destruct (f x) eqn:F.
    + rewrite Nat.add_0_r. split; [lia|]. destruct (Nat.eqb_spec p (length l)); [lia|].
      exists x. split; [exact X|]. reflexivity.
    + destruct (IH (S p)) as (H1 & H2); [lia|].
      replace (p + S (find_if f (skipn (S p) l)))%nat with (S p + find_if f (skipn (S p) l))%nat by lia.
      split; [lia|]. exact H2.
Qed.
Lemma find_yields {A} (f : A -> bool) (l : list A) : forall n p, (length l - p <= n)%nat -> (p <= length l)%nat ->
  yields false (find_range f l) (find_at f l p) (filter f (skipn p l)).
Proof.
  induction n as [|n IH]; intros p H H';
    destruct (find_at_skip f l (length l - p) p) as (B & D); [lia| |lia|];
    destruct (Nat.eqb_spec (find_at f l p) (length l)) as [E|E].
  - rewrite D. apply yields_end; [cbn; lia|discriminate].
  - destruct D as (x & D1 & D2). lia.
  - rewrite D. apply yields_end; [cbn; lia|discriminate].
  - destruct D as (x & D1 & D2). rewrite D2.
    eapply yields_step with (s' := find_at f l (S (find_at f l p)));
      [cbn; lia|cbn; unfold rd; rewrite D1; reflexivity| |discriminate|apply IH; lia].
    cbn [inc find_range forward]. rewrite (proj2 (Nat.ltb_lt _ _)) by lia. reflexivity.
Qed.
Lemma find_visits {A} (f : A -> bool) (l : list A) : visits (find_range f l) (filter f l).
Proof. exact (find_yields f l (length l) 0%nat ltac:(lia) ltac:(lia)). Qed.

(** ** find_one_iterator *)
Lemma first_pred_which {A} (preds : list (A -> bool)) x : forall i, 0 <= i -> i + zlen preds < 2 ^ 64 ->
  first_pred preds i x = option_map (fun k => i + Z.of_nat k) (which preds x).
Proof.
  unfold zlen. induction preds as [|p preds IH]; intros i Hi HL; [reflexivity|]. cbn [first_pred which length] in *.
  destruct (p x); [cbn; f_equal; lia|].
  unfold sz. rewrite Z.mod_small by lia. rewrite IH by lia. destruct (which preds x); cbn; [f_equal; lia|reflexivity].
Qed.
Lemma sz0 : sz (2 ^ 64 - 1 + 1) = 0.
Proof. reflexivity. Qed.
Lemma find_one_of_spec {A} (preds : list (A -> bool)) : zlen preds < 2 ^ 64 -> forall l first,
  let r := find_one_of preds l first in
  (first <= fst r <= first + length l)%nat /\
  (if (fst r =? first + length l)%nat then matches preds l = []
   else exists x, nth_error l (fst r - first) = Some x /\
        matches preds l = (x, snd r) :: matches preds (skipn (S (fst r - first)) l)).
Proof.
  intros HP. induction l as [|x l IH]; intros first r; subst r; cbn [find_one_of matches length].
  - cbn [fst]. rewrite Nat.add_0_r, Nat.eqb_refl. split; [lia|reflexivity].
  - rewrite sz0, first_pred_which by (pose proof (zlen_nonneg preds); lia).
    destruct (which preds x) as [k|]; cbn [option_map].
    + cbn [fst snd]. split; [lia|]. rewrite (proj2 (Nat.eqb_neq _ _)) by lia.
      exists x. rewrite Nat.sub_diag. split; [reflexivity|]. cbn [skipn]. f_equal.
    + destruct (IH (S first)) as (B & D). split; [lia|].
      replace (first + S (length l))%nat with (S first + length l)%nat by lia.
      destruct (Nat.eqb_spec (fst (find_one_of preds l (S first))) (S first + length l)%nat); [exact D|].
      destruct D as (y & D1 & D2).
      replace (fst (find_one_of preds l (S first)) - first)%nat with (S (fst (find_one_of preds l (S first)) - S first)) by lia.
      exists y. split; [exact D1|]. exact D2.
Qed.
Lemma find_one_yields {A} (preds : list (A -> bool)) (l : list A) : zlen preds < 2 ^ 64 -> forall n p, (length l - p <= n)%nat -> (p <= length l)%nat ->
  yields false (find_one_range preds l) (find_one_of preds (skipn p l) p) (matches preds (skipn p l)).
Proof.
  intros HP. induction n as [|n IH]; intros p H H';
    destruct (find_one_of_spec preds HP (skipn p l) p) as (B & D); rewrite skipn_length in B, D;
    destruct (Nat.eqb_spec (fst (find_one_of preds (skipn p l) p)) (p + (length l - p))) as [E|E].
  - rewrite D. apply yields_end; [cbn; lia|discriminate].
  - destruct D as (x & D1 & D2). lia.
  - rewrite D. apply yields_end; [cbn; lia|discriminate].
  - destruct D as (x & D1 & D2). rewrite D2. set (r := find_one_of preds (skipn p l) p) in *.
    assert (N : nth_error l (fst r) = Some x).
    { rewrite <- D1, <- (firstn_skipn p l) at 1. rewrite nth_error_app2; rewrite firstn_length_le by lia; [reflexivity|lia]. }
    rewrite skipn_skipn'. replace (p + S (fst r - p))%nat with (S (fst r)) by lia.
    eapply yields_step with (s' := find_one_of preds (skipn (S (fst r)) l) (S (fst r)));
      [cbn; lia|cbn; unfold rd; rewrite N; reflexivity| |discriminate|apply IH; lia].
    cbn [inc find_one_range forward]. rewrite (proj2 (Nat.ltb_lt _ _)) by lia. reflexivity.
Qed.
Lemma find_one_visits {A} (preds : list (A -> bool)) (l : list A) : zlen preds < 2 ^ 64 ->
  visits (find_one_range preds l)
    (match l with [] => [] | x :: t => (x, 2 ^ 64 - 1) :: matches preds t end).
Proof.
  intros HP. destruct l as [|x t].
  - apply yields_end; [reflexivity|discriminate].
  - eapply yields_step with (s' := find_one_of preds (skipn 1 (x :: t)) 1);
      [reflexivity|reflexivity|reflexivity|discriminate|].
    apply (find_one_yields preds (x :: t) HP (length (x :: t)) 1); cbn [length]; lia.
Qed.
Lemma which_lt {A} (preds : list (A -> bool)) x k : which preds x = Some k -> (k < length preds)%nat.
Proof.
  revert k. induction preds as [|p preds IH]; cbn [which length]; intros k E; [discriminate|].
  destruct (p x); [inversion E; lia|]. destruct (which preds x); [|discriminate]. inversion E. specialize (IH n eq_refl). lia.
Qed.
Lemma matches_small {A} (preds : list (A -> bool)) (l : list A) x i : In (x, i) (matches preds l) -> 0 <= i < zlen preds.
Proof.
  induction l as [|y l IH]; cbn [matches]; [intros []|]. destruct (which preds y) as [k|] eqn:W; [|exact IH].
  intros [E | H]; [|auto]. inversion E; subst. apply which_lt in W. unfold zlen. lia.
Qed.
Lemma find_one_wrong {A} (preds : list (A -> bool)) (l : list A) : zlen preds < 2 ^ 64 - 1 -> l <> [] ->
  ~ visits (find_one_range preds l) (matches preds l).
Proof.
  intros HP HN V. assert (V' := find_one_visits preds l ltac:(lia)). unfold visits in *.
  pose proof (yields_fun _ _ _ _ _ V' _ V) as E. destruct l as [|x t]; [congruence|].
  assert (In (x, 2 ^ 64 - 1) (matches preds (x :: t))) as I1 by (rewrite <- E; left; reflexivity).
  apply matches_small in I1. lia.
Qed.

(** ** counting iterators *)
Lemma cnt_run_ok {A} (l : list A) : zlen l < 2 ^ 63 -> forall ops p d s', - zlen l <= d - p <= 0 -> 0 <= p <= zlen l ->
  cnt_run l ops (p, d) = Ok s' -> s' = (p + net ops, d + net ops) /\ 0 <= p + net ops <= zlen l.
Proof.
  intros HM. induction ops as [|b ops IH]; intros p d s' Hd Hp R; cbn [cnt_run net] in *.
  - inversion R; subst. split; [f_equal; lia|lia].
  - assert (exists e, (e = 1 \/ e = -1) /\ e = (if b then 1 else -1) /\
            (if b then cnt_inc l (p, d) else cnt_dec l (p, d)) = (q <- move (zlen l) p e ;; d' <- calc i64 (d + e) ;; Ok (q, d'))) as (e & He & Hb & E).
    { destruct b; [exists 1|exists (-1)]; (split; [lia|]); (split; [reflexivity|]); [reflexivity|].
      unfold cnt_dec. cbn [fst snd]. replace (d - 1) with (d + -1) by lia. reflexivity. }
    rewrite E, <- Hb in *. clear E Hb.
    destruct (Z_le_dec 0 (p + e)); [destruct (Z_le_dec (p + e) (zlen l))|].
    + rewrite move_ok in R by lia. cbn [bind] in R. rewrite calc_i64 in R by lia. cbn [bind] in R.
      apply IH in R; [|lia|lia]. destruct R as [-> R]. split; [f_equal; lia|lia].
    + rewrite move_out in R by lia. discriminate.
    + rewrite move_out in R by lia. discriminate.
Qed.

(** ** iota_iterator *)
Lemma conv_cong T a b : 0 < width T -> a mod 2 ^ width T = b mod 2 ^ width T -> conv T a = conv T b.
Proof. intros W E. rewrite <- (conv_wrap_arg T a W), <- (conv_wrap_arg T b W). unfold wrap. rewrite E. reflexivity. Qed.
Lemma conv_mod T a : 0 < width T -> conv T a mod 2 ^ width T = a mod 2 ^ width T.
Proof. intros W. exact (conv_wrap T a W). Qed.
Lemma conv_plus_l T a b : 0 < width T -> conv T (conv T a + b) = conv T (a + b).
Proof.
  intros W. apply conv_cong; [exact W|]. rewrite Zplus_mod, conv_mod, <- Zplus_mod by exact W. reflexivity.
Qed.
Lemma calc_uns T z : std_width (width T) -> - 2 ^ (width T + 1) < z < 2 ^ (width T + 1) ->
  exists r, calc (promote (unsigned_of T)) z = Ok r /\ r mod 2 ^ width T = z mod 2 ^ width T.
Proof.
  intros W Hz. unfold promote, unsigned_of. cbn [width].
  destruct W as [W | [W | [W | W]]]; rewrite W in *; cbn [Z.ltb Z.compare Pos.compare Pos.compare_cont].
  - exists z. split; [|reflexivity]. apply calc_fits; [reflexivity|]. unfold fits, lowest, highest. cbn [signed width i32]. lia.
  - exists z. split; [|reflexivity]. apply calc_fits; [reflexivity|]. unfold fits, lowest, highest. cbn [signed width i32]. lia.
  - eexists. split; [reflexivity|]. unfold wrap. cbn [width]. apply Z.mod_mod. lia.
  - eexists. split; [reflexivity|]. unfold wrap. cbn [width]. apply Z.mod_mod. lia.
Qed.
Lemma conv_unsigned_range T z : 0 < width T -> 0 <= conv (unsigned_of T) z < 2 ^ width T.
Proof. intros W. unfold conv, unsigned_of. cbn [signed width]. apply wrap_range. lia. Qed.
Lemma uns_add T a b : std_width (width T) ->
  (r <- calc (promote (unsigned_of T)) (conv (unsigned_of T) a + conv (unsigned_of T) b) ;; Ok (conv T r)) = Ok (conv T (a + b)).
Proof.
  intros W. pose proof (std_pos _ W) as P. pose proof (conv_unsigned_range T a P). pose proof (conv_unsigned_range T b P).
  assert (2 ^ (width T + 1) = 2 * 2 ^ width T) by (rewrite Z.pow_add_r; lia).
  destruct (calc_uns T (conv (unsigned_of T) a + conv (unsigned_of T) b) W) as (r & -> & E); [lia|]. cbn [bind]. f_equal.
  apply conv_cong; [exact P|]. rewrite E. rewrite Zplus_mod.
  change (width T) with (width (unsigned_of T)). rewrite !conv_mod by exact P. rewrite <- Zplus_mod. reflexivity.
Qed.
Lemma uns_sub T a b : std_width (width T) ->
  (r <- calc (promote (unsigned_of T)) (conv (unsigned_of T) a - conv (unsigned_of T) b) ;; Ok (conv T r)) = Ok (conv T (a - b)).
Proof.
  intros W. pose proof (std_pos _ W) as P. pose proof (conv_unsigned_range T a P). pose proof (conv_unsigned_range T b P).
  assert (2 ^ (width T + 1) = 2 * 2 ^ width T) by (rewrite Z.pow_add_r; lia).
  destruct (calc_uns T (conv (unsigned_of T) a - conv (unsigned_of T) b) W) as (r & -> & E); [lia|]. cbn [bind]. f_equal.
  apply conv_cong; [exact P|]. rewrite E. rewrite Zminus_mod.
  change (width T) with (width (unsigned_of T)). rewrite !conv_mod by exact P. rewrite <- Zminus_mod. reflexivity.
Qed.
Lemma iota_inc_ok T step v : std_width (width T) -> iota_inc T step v = Ok (conv T (v + step)).
Proof. apply uns_add. Qed.
Lemma iota_dec_ok T step v : std_width (width T) -> iota_dec T step v = Ok (conv T (v - step)).
Proof. apply uns_sub. Qed.
Lemma signed_of_pos T : std_width (width T) -> 0 < width (promote (signed_of T)).
Proof. intros W. apply promote_pos. Qed.
Lemma iota_add_ok T step v n : std_width (width T) -> fits (signed_of T) (step * n) ->
  iota_add T step v n = Ok (conv T (v + step * n)).
Proof.
  intros W F. unfold iota_add. rewrite calc_fits; [|apply promote_pos|].
  - cbn [bind]. apply uns_add; auto.
  - apply BitsProofs.fits_promote; [exact (std_pos _ W)|exact F].
Qed.
Lemma iota_sub_ok T step v n : std_width (width T) -> fits (signed_of T) (step * n) ->
  iota_sub T step v n = Ok (conv T (v - step * n)).
Proof.
  intros W F. unfold iota_sub. rewrite calc_fits; [|apply promote_pos|].
  - cbn [bind]. apply uns_sub; auto.
  - apply BitsProofs.fits_promote; [exact (std_pos _ W)|exact F].
Qed.
Lemma iota_times T step : std_width (width T) -> forall k v, fits T v ->
  times k (iota_inc T step) v = Ok (conv T (v + step * Z.of_nat k)).
Proof.
  intros W. pose proof (std_pos _ W) as P. induction k as [|k IH]; intros v F; cbn [times].
  - f_equal. rewrite Z.mul_0_r, Z.add_0_r. symmetry. apply conv_id; auto.
  - rewrite iota_inc_ok by auto. cbn [bind]. rewrite IH by (apply conv_fits; auto). rewrite conv_plus_l by auto.
    f_equal. f_equal. lia.
Qed.
Lemma iota_back T step v w : std_width (width T) -> fits T v -> iota_inc T step v = Ok w -> iota_dec T step w = Ok v.
Proof.
  intros W F E. pose proof (std_pos _ W) as P. rewrite iota_inc_ok in E by auto. inversion E; subst.
  rewrite iota_dec_ok by auto. f_equal. unfold Z.sub. rewrite conv_plus_l by auto.
  rewrite <- (conv_id T v P F) at 2. f_equal. lia.
Qed.
Lemma iota_add_assign_ok T v n : std_width (width T) -> fits (signed_of T) v -> fits T v -> fits (signed_of T) (v + n) -> fits T (v + n) ->
  iota_add_assign T v n = Ok (v + n).
Proof.
  intros W F1 F2 F3 F4. pose proof (std_pos _ W) as P. unfold iota_add_assign.
  rewrite (conv_id (signed_of T) v P F1). rewrite calc_fits; [|apply promote_pos|apply BitsProofs.fits_promote; [exact P|exact F3]].
  cbn [bind]. rewrite conv_id by auto. reflexivity.
Qed.
Lemma iota_diff_ok T step v n : std_width (width T) -> signed T = true -> fits T v -> fits T (v + step * n) -> fits T (step * n) -> fits T n ->
  step <> 0 -> iota_diff T step (v + step * n) v = Ok n.
Proof.
  intros W S F1 F2 F3 F4 N. pose proof (std_pos _ W) as P.
  assert (ET : signed_of T = T) by (destruct T; unfold signed_of; cbn in *; subst; reflexivity).
  unfold iota_diff. rewrite ET. replace (v + step * n - v) with (step * n) by lia.
  rewrite calc_fits; [|apply promote_pos|apply BitsProofs.fits_promote; auto]. cbn [bind].
  destruct (Z.eqb_spec step 0); [lia|]. rewrite (conv_id T _ P F3).
  rewrite Z.mul_comm, Z.quot_mul by auto. rewrite calc_fits; [|apply promote_pos|apply BitsProofs.fits_promote; auto]. cbn [bind].
  rewrite conv_id by auto. reflexivity.
Qed.
Lemma iota_compare_signed T v w : std_width (width T) -> signed T = true -> fits T (v - w) ->
  iota_compare T v w = Ok (if v <? w then -1 else 0).
Proof.
  intros W S F. pose proof (std_pos _ W) as P. unfold iota_compare. rewrite calc_fits; [|apply promote_pos|apply BitsProofs.fits_promote; auto].
  cbn [bind]. rewrite conv_id by auto. f_equal. change (0 <? 0) with false. cbv iota.
  destruct (Z.ltb_spec (v - w) 0), (Z.ltb_spec v w); try reflexivity; lia.
Qed.
Lemma iota_compare_unsigned T v w : std_width (width T) -> signed T = false -> fits T v -> fits T w ->
  iota_compare T v w = Ok 0.
Proof.
  intros W S F1 F2. pose proof (std_pos _ W) as P. unfold iota_compare.
  assert (exists r, calc (promote T) (v - w) = Ok r) as (r & ->).
  { assert (ET : unsigned_of T = T) by (destruct T; unfold unsigned_of; cbn in *; subst; reflexivity).
    destruct (calc_uns T (v - w) W) as (r & E & _); [|rewrite ET in E; eauto].
    unfold fits, lowest, highest in F1, F2. rewrite S in F1, F2. assert (2 ^ (width T + 1) = 2 * 2 ^ width T) by (rewrite Z.pow_add_r; lia). lia. }
  cbn [bind]. f_equal. pose proof (conv_fits T r P) as F. unfold fits, lowest in F. rewrite S in F.
  change (0 <? 0) with false. cbv iota. destruct (Z.ltb_spec (conv T r) 0); [lia|reflexivity].
Qed.
Lemma iota_order_signed T v w : std_width (width T) -> signed T = true -> fits T (v - w) ->
  iota_lt T v w = Ok (v <? w) /\ iota_ge T v w = Ok (w <=? v) /\
  iota_eq T v w = Ok (w <=? v) /\ iota_ne T v w = Ok (v <? w) /\ iota_le T v w = Ok (v <? w) /\ iota_gt T v w = Ok false.
Proof.
  intros W S F. unfold iota_lt, iota_ge, iota_eq, iota_ne, iota_le, iota_gt. rewrite iota_compare_signed by auto. cbn [bind].
  destruct (Z.ltb_spec v w); repeat split; f_equal; lia.
Qed.
Lemma iota_order_unsigned T v w : std_width (width T) -> signed T = false -> fits T v -> fits T w ->
  iota_eq T v w = Ok true /\ iota_lt T v w = Ok false /\ iota_gt T v w = Ok false.
Proof.
  intros W S F1 F2. unfold iota_lt, iota_eq, iota_gt. rewrite iota_compare_unsigned by auto. repeat split; reflexivity.
Qed.
Lemma iota_unsigned_empty T f l step : std_width (width T) -> signed T = false -> fits T f -> fits T l ->
  visits (iota_range T f l step) [].
Proof.
  intros W S F1 F2. apply yields_end; [|discriminate]. cbn. destruct (iota_order_unsigned T f l W S F1 F2) as (-> & _). reflexivity.
Qed.
Lemma map_seq_shift {B} (f : nat -> B) n k : map f (seq (S k) n) = map (fun i => f (S i)) (seq k n).
Proof. rewrite <- seq_shift, map_map. reflexivity. Qed.
Lemma iota_range_yields T l step : std_width (width T) -> signed T = true -> 0 < step -> fits T step -> fits T l -> fits T (l + step - 1) -> forall n v s0,
  fits T v -> fits T (v - l) -> (match n with O => l <= v | S m => v + step * Z.of_nat m < l <= v + step * Z.of_nat n end) ->
  yields false (iota_range T s0 l step) v (arith v step n).
Proof.
  intros W S HS FST FL FLS. pose proof (std_pos _ W) as P.
  induction n as [|n IH]; intros v s0 FV FD H.
  - apply yields_end; [|discriminate]. cbn. destruct (iota_order_signed T v l W S FD) as (_ & _ & -> & _). lia.
  - unfold arith. cbn [seq map]. rewrite map_seq_shift.
    assert (v < l) by nia.
    assert (FN : fits T (v + step)). { unfold fits in *. nia. }
    replace (v + step * Z.of_nat 0) with v by lia.
    eapply yields_step with (s' := v + step); [ |reflexivity| |discriminate|].
    + cbn. destruct (iota_order_signed T v l W S FD) as (_ & _ & -> & _). lia.
    + cbn. destruct (iota_order_signed T v l W S FD) as (_ & _ & -> & _). rewrite iota_inc_ok by auto. f_equal. apply conv_id; auto.
    + replace (map _ (seq 0 n)) with (arith (v + step) step n); [apply IH|].
      * exact FN.
      * unfold fits in *. unfold lowest, highest in *. rewrite S in *. pose proof (pow_pos (width T - 1)). lia.
      * destruct n as [|m]; lia.
      * unfold arith. apply map_ext. intros. lia.
Qed.
Lemma iota_range_visits T f l step : std_width (width T) -> signed T = true -> 0 < step -> fits T step -> fits T f -> fits T l -> fits T (l + step - 1) ->
  fits T (f - l) -> visits (iota_range T f l step) (arith f step (Z.to_nat ((l - f + step - 1) / step))).
Proof.
  intros W S HS FST F1 F2 F3 F4. apply iota_range_yields; auto.
  set (q := (l - f + step - 1) / step). assert (l - f + step - 1 = step * q + (l - f + step - 1) mod step) by (apply Z.div_mod; lia).
  pose proof (Z.mod_pos_bound (l - f + step - 1) step HS). 
  destruct (Z_le_dec q 0).
  - replace (Z.to_nat q) with 0%nat by lia. nia.
  - destruct (Z.to_nat q) as [|m] eqn:E; [lia|]. nia.
Qed.

(** ** integer_range *)
Lemma assign_conv T z : std_width (width T) ->
  (signed T = false /\ - 2 ^ (width T + 1) < z < 2 ^ (width T + 1) \/ width T < 32 /\ - 2 ^ 31 <= z < 2 ^ 31 \/ fits T z) ->
  assign_op T z = Ok (conv T z).
Proof.
  intros W H. pose proof (std_pos _ W) as P. destruct H as [[S H] | [[H1 H2] | F]].
  - unfold assign_op. assert (ET : unsigned_of T = T) by (destruct T; unfold unsigned_of; cbn in *; subst; reflexivity).
    destruct (calc_uns T z W H) as (r & E & M). rewrite ET in E. rewrite E. cbn [bind]. f_equal. apply conv_cong; auto.
  - unfold assign_op, promote. rewrite (proj2 (Z.ltb_lt _ _)) by auto. rewrite calc_fits; [reflexivity|reflexivity|].
    unfold fits, lowest, highest. cbn. lia.
  - rewrite assign_fits by auto. f_equal. symmetry. apply conv_id; auto.
Qed.
Lemma fits_close T a b : 0 < width T -> fits T a -> fits T b -> - 2 ^ width T < a - b < 2 ^ width T.
Proof.
  intros P F1 F2. unfold fits, lowest, highest in *. pose proof (pow_half (width T) P). destruct (signed T); lia.
Qed.
Lemma integer_yields T l s0 : std_width (width T) -> fits T l -> forall n v, fits T v ->
  signed T = false \/ width T < 32 \/ v <= l -> Z.of_nat n = (l - v) mod 2 ^ width T ->
  yields false (integer_range T s0 l) v (map (fun i => conv T (v + Z.of_nat i)) (seq 0 n)).
Proof.
  intros W FL. pose proof (std_pos _ W) as P. pose proof (pow_pos (width T) ltac:(lia)) as PP.
  induction n as [|n IH]; intros v FV HC E.
  - apply yields_end; [|discriminate]. cbn. pose proof (fits_close T l v P FL FV).
    assert (l - v = 2 ^ width T * ((l - v) / 2 ^ width T)) by (apply Z.div_exact; lia).
    assert ((l - v) / 2 ^ width T = 0) by nia. nia.
  - assert (NE : v <> l). { intros ->. rewrite Z.sub_diag, Z.mod_0_l in E by lia. lia. }
    assert (A : assign_op T (v + 1) = Ok (conv T (v + 1))).
    { apply assign_conv; [exact W|]. destruct HC as [S | [N | L]].
      - left. split; [exact S|]. unfold fits, lowest, highest in FV. rewrite S in FV.
        assert (2 ^ (width T + 1) = 2 * 2 ^ width T) by (rewrite Z.pow_add_r; lia). lia.
      - right. left. split; [exact N|]. unfold fits, lowest, highest in FV.
        destruct W as [W | [W | [W | W]]]; rewrite W in *; destruct (signed T); cbn in FV; lia.
      - right. right. unfold fits in *. lia. }
    cbn [seq map]. rewrite map_seq_shift. replace (conv T (v + Z.of_nat 0)) with v
      by (rewrite Z.add_0_r; symmetry; apply conv_id; auto).
    eapply yields_step with (s' := conv T (v + 1)); [cbn; lia|reflexivity|exact A|discriminate|].
    replace (map _ (seq 0 n)) with (map (fun i => conv T (conv T (v + 1) + Z.of_nat i)) (seq 0 n)).
    2:{ apply map_ext. intros i. rewrite conv_plus_l by auto. f_equal. lia. }
    apply IH.
    + apply conv_fits; auto.
    + destruct HC as [S | [N | L]]; auto. right. right. rewrite conv_id; auto; [lia|]. unfold fits in *. lia.
    + rewrite Zminus_mod, conv_mod, <- Zminus_mod by auto.
      replace (l - (v + 1)) with ((l - v) - 1) by lia. rewrite Zminus_mod, <- E.
      pose proof (Z.mod_pos_bound (l - v) (2 ^ width T)). rewrite (Z.mod_small 1).
      * rewrite Z.mod_small; lia.
      * assert (2 ^ 1 <= 2 ^ width T) by (apply Z.pow_le_mono_r; lia). lia.
Qed.

(** ** repeat_n_char_iterator *)
Lemma rep_yields {A} (v : A) c : forall n, Z.of_nat n < 2 ^ 63 -> yields false (rep_range c v) (Z.of_nat n) (repeat v n).
Proof.
  induction n as [|n IH]; intros H.
  - apply yields_end; [reflexivity|discriminate].
  - cbn [repeat]. eapply yields_step with (s' := Z.of_nat n); [cbn; lia|reflexivity| |discriminate|apply IH; lia].
    cbn [inc rep_range forward]. unfold rep_inc. replace (Z.of_nat (S n) - 1) with (Z.of_nat n) by lia. rewrite calc_i64 by lia. reflexivity.
Qed.
Lemma rep_visits {A} (v : A) n : Z.of_nat n < 2 ^ 63 -> visits (rep_range (Z.of_nat n) v) (repeat v n).
Proof.
  intros H. unfold visits. cbn [cur rep_range forward]. unfold rep_make. rewrite conv_i64 by lia. apply rep_yields; auto.
Qed.
Lemma rep_count n : 0 <= n < 2 ^ 63 -> rep_diff 0 (rep_make n) = Ok n.
Proof. intros. unfold rep_diff, rep_make. rewrite conv_i64 by lia. rewrite calc_i64 by lia. f_equal. lia. Qed.
Lemma rep_wrong p n : 0 <= p -> 0 <= n -> p + n < 2 ^ 63 ->
  times (Z.to_nat n) rep_dec p = rep_add p n /\ rep_add p n = Ok (p + n) /\ rep_diff (p + n) p = Ok (- n).
Proof.
  intros Hp Hn HM. assert (T : forall k q, 0 <= q -> q + Z.of_nat k < 2 ^ 63 -> times k rep_dec q = Ok (q + Z.of_nat k)).
  { induction k as [|k IH]; intros q Hq Hk; cbn [times]; [f_equal; lia|].
    unfold rep_dec at 1. rewrite calc_i64 by lia. cbn [bind]. rewrite IH by lia. f_equal. lia. }
  unfold rep_add, rep_diff. rewrite T by lia. rewrite !calc_i64 by lia. repeat split; f_equal; lia.
Qed.

(** ** zip_iterator *)
Lemma skipn_combine {A B} (l : list A) (m : list B) k : skipn k (combine l m) = combine (skipn k l) (skipn k m).
Proof.
  revert l m. induction k as [|k IH]; intros [|x l] [|y m]; cbn [skipn combine]; try reflexivity.
  - destruct (skipn k l); reflexivity.
  - apply IH.
Qed.
Lemma zip_yields {A B} (l : list A) (m : list B) : length l = length m -> forall n p, 0 <= p -> p + Z.of_nat n = zlen l ->
  yields false (zip_range l m) (p, p) (combine (skipn (Z.to_nat p) l) (skipn (Z.to_nat p) m)).
Proof.
  intros HL. assert (HZ : zlen l = zlen m) by (unfold zlen; lia).
  induction n as [|n IH]; intros p Hp E.
  - rewrite skipn_all2 by (unfold zlen in E; lia). apply yields_end; [|discriminate].
    cbn. unfold zip_eq. cbn [fst snd]. lia.
  - destruct (at_pos_some l p) as (x & X1 & X2); [lia|]. destruct (at_pos_some m p) as (y & Y1 & Y2); [lia|].
    rewrite (skipn_nth l _ x X1), (skipn_nth m _ y Y1). cbn [combine].
    replace (S (Z.to_nat p)) with (Z.to_nat (p + 1)) by lia.
    eapply yields_step with (s' := (p + 1, p + 1)); [ | | |discriminate|apply IH; lia]; cbn.
    + unfold zip_eq. cbn [fst snd]. lia.
    + unfold zip_get. cbn [fst snd]. rewrite X2, Y2. reflexivity.
    + unfold zip_inc, zip_advance. cbn [fst snd]. rewrite !move_ok by lia. reflexivity.
Qed.
Lemma zip_visits {A B} (l : list A) (m : list B) : length l = length m -> visits (zip_range l m) (combine l m).
Proof.
  intros H. exact (zip_yields l m H (length l) 0 ltac:(lia) ltac:(unfold zlen; lia)).
Qed.
Lemma zip_uneven {A B} (l : list A) (m : list B) : length l <> length m -> forall fuel p xs,
  walk fuel (zip_range l m) (p, p) <> Ok xs.
Proof.
  intros HL. induction fuel as [|fuel IH]; intros p xs; [discriminate|].
  cbn [walk zip_range forward at_end get inc]. unfold zip_eq. cbn [fst snd].
  destruct ((p =? zlen l) && (p =? zlen m)) eqn:E. { unfold zlen in E. lia. }
  destruct (zip_get l m (p, p)) as [xy| | |]; cbn [bind]; try discriminate.
  unfold zip_inc, zip_advance, move. cbn [fst snd].
  destruct ((0 <=? p + 1) && (p + 1 <=? zlen l)); cbn [bind]; [|discriminate].
  destruct ((0 <=? p + 1) && (p + 1 <=? zlen m)); cbn [bind]; [|discriminate].
  specialize (IH (p + 1)). unfold zip_range, forward in IH.
  match goal with |- bind ?w _ <> _ => destruct w as [ys| | |] eqn:EW end; cbn [bind]; try discriminate.
  exfalso. exact (IH ys EW).
Qed.
Lemma zip_get_ok {A B} (l : list A) (m : list B) i j x y : nth_error l i = Some x -> nth_error m j = Some y ->
  zip_get l m (Z.of_nat i, Z.of_nat j) = Ok (x, y).
Proof.
  intros X Y. unfold zip_get, at_pos. cbn [fst snd]. rewrite !Nat2Z.id.
  destruct (Z.ltb_spec (Z.of_nat i) 0); [lia|]. destruct (Z.ltb_spec (Z.of_nat j) 0); [lia|].
  rewrite (rd_some _ _ _ X), (rd_some _ _ _ Y). reflexivity.
Qed.
Lemma zip_advance_ok {A B} (l : list A) (m : list B) p q n : 0 <= p + n <= zlen l -> 0 <= q + n <= zlen m ->
  zip_advance l m (p, q) n = Ok (p + n, q + n).
Proof. intros. unfold zip_advance. cbn [fst snd]. rewrite !move_ok by lia. reflexivity. Qed.

(** ** Output iterators *)
Lemma output_back {A} (vs : list A) : forall c, output back_assign c vs = c ++ vs.
Proof.
  induction vs as [|v vs IH]; intros c; cbn [output]; [rewrite app_nil_r; reflexivity|].
  rewrite IH. unfold back_assign. rewrite <- app_assoc. reflexivity.
Qed.
Lemma output_end {A} (vs : list A) : forall c, output end_assign c vs = c ++ vs.
Proof. exact (output_back vs). Qed.
Lemma output_function {S A} (f : S -> A -> S) vs : forall s, output (function_assign f) s vs = fold_left f vs s.
Proof. induction vs as [|v vs IH]; intros s; cbn [output fold_left]; auto. Qed.
Section Sorted.
Context {A : Type} (comp : A -> A -> bool) (SW : strict_weak comp).
Lemma sorted_assign_cons x c v :
  sorted_assign comp (x :: c) v = if comp x v then x :: sorted_assign comp c v else v :: x :: c.
Proof. unfold sorted_assign. cbn [std_lower_bound]. destruct (comp x v); reflexivity. Qed.
Lemma sorted_assign_perm c v : Permutation (v :: c) (sorted_assign comp c v).
Proof.
  induction c as [|x c IH]; [reflexivity|]. rewrite sorted_assign_cons. destruct (comp x v); [|reflexivity].
  rewrite perm_swap. constructor. exact IH.
Qed.
Lemma comp_asym x y : comp x y = true -> comp y x = false.
Proof.
  intros H. destruct (comp y x) eqn:E; [|reflexivity]. pose proof (swo_trans _ SW x y x H E) as T.
  rewrite (swo_irrefl _ SW) in T. discriminate.
Qed.
(** Not less is transitive. *)
Lemma comp_neg x y z : comp y x = false -> comp z y = false -> comp z x = false.
Proof.
  intros H1 H2. destruct (comp z x) eqn:E; [|reflexivity].
  destruct (comp x y) eqn:F. { rewrite (swo_trans _ SW z x y E F) in H2. discriminate. }
  destruct (comp y z) eqn:G. { rewrite (swo_trans _ SW y z x G E) in H1. discriminate. }
  destruct (swo_incomp _ SW x y z F H1 G H2) as [_ K]. congruence.
Qed.
Lemma sorted_assign_sorted c v : sorted_by comp c -> sorted_by comp (sorted_assign comp c v).
Proof.
  unfold sorted_by. induction c as [|x c IH]; intros HS.
  - constructor; constructor.
  - inversion HS as [|? ? HS1 HF]; subst. rewrite sorted_assign_cons. destruct (comp x v) eqn:E.
    + constructor; [auto|]. rewrite <- (sorted_assign_perm c v). constructor; [|exact HF]. apply comp_asym. exact E.
    + constructor; [exact HS|]. constructor; [exact E|]. rewrite Forall_forall in *. intros y Hy.
      apply comp_neg with x; [exact E|]. apply HF. exact Hy.
Qed.
Lemma sorted_assign_eqv c v y : 
  filter (fun x => negb (comp x y) && negb (comp y x)) (sorted_assign comp c v) =
  (if negb (comp v y) && negb (comp y v) then [v] else []) ++ filter (fun x => negb (comp x y) && negb (comp y x)) c.
Proof.
  induction c as [|x c IH].
  - unfold sorted_assign. cbn [std_lower_bound firstn skipn app filter]. destruct (negb (comp v y) && negb (comp y v)); reflexivity.
  - rewrite sorted_assign_cons. destruct (comp x v) eqn:E.
    + cbn [filter]. rewrite IH. destruct (negb (comp v y) && negb (comp y v)) eqn:V; cbn [app].
      * assert (comp x y = true).
        { destruct (comp x y) eqn:F; [reflexivity|].
          destruct (comp v y) eqn:V1, (comp y v) eqn:V2; try discriminate.
          assert (comp x v = false) by (apply comp_neg with y; auto). congruence. }
        rewrite H. reflexivity.
      * reflexivity.
    + cbn [filter]. destruct (negb (comp v y) && negb (comp y v)); reflexivity.
Qed.
Lemma output_sorted vs : forall c, sorted_by comp c ->
  let r := output (sorted_assign comp) c vs in
  sorted_by comp r /\ Permutation (c ++ vs) r /\
  forall y, filter (fun x => negb (comp x y) && negb (comp y x)) r =
            rev (filter (fun x => negb (comp x y) && negb (comp y x)) vs) ++ filter (fun x => negb (comp x y) && negb (comp y x)) c.
Proof.
  induction vs as [|v vs IH]; intros c HS r; subst r; cbn [output].
  - rewrite app_nil_r. split; [exact HS|]. split; [reflexivity|]. intros y. reflexivity.
  - destruct (IH (sorted_assign comp c v)) as (H1 & H2 & H3); [apply sorted_assign_sorted; exact HS|].
    split; [exact H1|]. split.
    + rewrite <- H2, <- (sorted_assign_perm c v). cbn [app]. symmetry. apply Permutation_middle.
    + intros y. rewrite H3, sorted_assign_eqv. cbn [filter].
      destruct (negb (comp v y) && negb (comp y v)); cbn [rev app]; [|reflexivity]. rewrite <- app_assoc. reflexivity.
Qed.
End Sorted.

(** ** checked_iterator_proxy *)
Lemma flags_value i d r : get_flag_value i d r = if i || d || r then 4 else 0.
Proof. destruct i, d, r; reflexivity. Qed.
Lemma chk_get_ok {A} (l : list A) i d r last p : i || d || r = true ->
  chk_get l (get_flag_value i d r) last p = if p =? last then Throw else at_pos l p.
Proof. intros H. unfold chk_get. rewrite flags_value, H. reflexivity. Qed.
Lemma chk_get_off {A} (l : list A) last p : chk_get l (get_flag_value false false false) last p = at_pos l p.
Proof. reflexivity. Qed.
Lemma chk_inc_never {A} (l : list A) i d r last p : chk_inc l (get_flag_value i d r) last p = move (zlen l) p 1.
Proof. unfold chk_inc. rewrite flags_value. destruct (i || d || r); reflexivity. Qed.
Lemma chk_dec_never {A} (l : list A) i d r first p : chk_dec l (get_flag_value i d r) first p = move (zlen l) p (-1).
Proof. unfold chk_dec. rewrite flags_value. destruct (i || d || r); reflexivity. Qed.
Lemma chk_past_end {A} (l : list A) i d r : chk_inc l (get_flag_value i d r) (zlen l) (zlen l) = UB /\
  chk_dec l (get_flag_value i d r) 0 0 = UB.
Proof.
  pose proof (zlen_nonneg l). rewrite chk_inc_never, chk_dec_never. split; apply move_out; lia.
Qed.
Lemma chk_post {A} (l : list A) i d r first last p q : 
  (chk_post_inc l (get_flag_value i d r) last p = Ok q -> q = (p, p + 1)) /\
  (chk_post_dec l (get_flag_value i d r) first p = Ok q -> q = (p, p + -1)).
Proof.
  unfold chk_post_inc, chk_post_dec. rewrite chk_inc_never, chk_dec_never. unfold move.
  destruct ((0 <=? p + 1) && (p + 1 <=? zlen l)), ((0 <=? p + -1) && (p + -1 <=? zlen l)); cbn [bind];
    (split; intros E; [inversion E || discriminate|inversion E || discriminate]); auto; try discriminate.
Qed.

(** ** arg_iterator_t *)
Lemma arg_yields {A} (l : list A) : zlen l < 2 ^ 31 -> forall n p, 0 <= p -> p + Z.of_nat n = zlen l ->
  yields false (arg_range l) (Arg (zlen l) p (Some l)) (skipn (Z.to_nat p) l).
Proof.
  intros HM. induction n as [|n IH]; intros p Hp E.
  - rewrite skipn_all2 by (unfold zlen in E; lia). apply yields_end; [|discriminate].
    cbn. rewrite negb_involutive, andb_true_r. lia.
  - destruct (at_pos_some l p) as (x & X1 & X2); [lia|]. rewrite (skipn_nth l _ x X1).
    replace (S (Z.to_nat p)) with (Z.to_nat (p + 1)) by lia.
    eapply yields_step with (s' := Arg (zlen l) (p + 1) (Some l)); [ | | |discriminate|apply IH; lia].
    + cbn. rewrite negb_involutive, andb_true_r. lia.
    + cbn [get arg_range forward]. unfold arg_get, arg_index. cbn [m_argv m_pos]. rewrite calc_i64 by lia. cbn [bind].
      rewrite Z.add_0_r. exact X2.
    + cbn [inc arg_range forward]. unfold arg_inc. cbn [m_argv m_pos m_argc].
      rewrite calc_fits; [reflexivity|reflexivity|]. unfold fits, lowest, highest. cbn [signed width i32]. lia.
Qed.
Lemma arg_visits {A} (l : list A) : zlen l < 2 ^ 31 -> visits (arg_range l) l.
Proof. intros H. exact (arg_yields l H (length l) 0 ltac:(lia) ltac:(unfold zlen; lia)). Qed.
Lemma arg_at_ok {A} (l : list A) p n : zlen l < 2 ^ 31 -> 0 <= p <= zlen l -> - 2 ^ 62 <= n <= 2 ^ 62 ->
  arg_at (Arg (zlen l) p (Some l)) n =
  if (0 <? p + n) && (p + n <? zlen l) then at_pos l (p + n) else Throw.
Proof. intros. unfold arg_at. cbn [m_argv m_pos m_argc]. rewrite calc_i64 by lia. reflexivity. Qed.
Lemma arg_order_wrong {A} (l : list A) p q :
  arg_lt (Arg (zlen l) p (Some l)) (Arg (zlen l) q (Some l)) = false /\
  arg_gt (Arg (zlen l) p (Some l)) (Arg (zlen l) q (Some l)) = false /\
  arg_le (Arg (zlen l) p (Some l)) (Arg (zlen l) q (Some l)) = true /\
  arg_ge (Arg (zlen l) p (Some l)) (Arg (zlen l) q (Some l)) = true.
Proof.
  unfold arg_lt, arg_gt, arg_le, arg_ge. cbn [same_argv m_argv m_argc]. repeat split; lia.
Qed.
Lemma arg_eq_ok {A} (l : list A) p q :
  arg_eq (Arg (zlen l) p (Some l)) (Arg (zlen l) q (Some l)) = (p =? q) /\
  arg_ne (Arg (zlen l) p (Some l)) (Arg (zlen l) q (Some l)) = negb (p =? q) /\
  arg_eq (Arg (zlen l) p (Some l)) arg_end = (zlen l <=? p) /\
  arg_ne (Arg (zlen l) p (Some l)) arg_end = negb (zlen l <=? p).
Proof. unfold arg_eq, arg_ne. cbn. rewrite andb_true_r. repeat split. Qed.

(** ** InputIterator *)
Definition b2n (b : bool) : nat := if b then 1%nat else 0%nat.
Lemma count_upd {B} (f : B -> bool) (l : list B) : forall i x y, nth_error l i = Some y ->
  (length (filter f (upd l i x)) + b2n (f y) = length (filter f l) + b2n (f x))%nat.
Proof.
  induction l as [|z l IH]; intros [|i] x y E; cbn [nth_error] in E; try discriminate.
  - inversion E; subst. cbn [upd filter]. destruct (f x), (f y); cbn [length b2n]; lia.
  - cbn [upd filter]. specialize (IH i x y E). destruct (f z); cbn [length]; lia.
Qed.
Lemma count_app {B} (f : B -> bool) (l : list B) x : length (filter f (l ++ [x])) = (length (filter f l) + b2n (f x))%nat.
Proof. rewrite filter_app, app_length. cbn [filter]. destruct (f x); reflexivity. Qed.

Section InputProofs.
Context {V : Type} (nxt : nat -> V -> V).
Definition ptr (w : @istate V) (i : nat) : option nat :=
  match nth_error (objs w) i with Some (Some o) => m_iterator o | _ => None end.
Definition slot_ok (w : @istate V) (s : slot V) (o : option (option input_it)) : Prop :=
  match s, o with
  | Gone, Some None => True
  | Emptied, Some (Some (Input _ None)) => True
  | Holds t v, Some (Some (Input u (Some c))) => u = t /\ nth_error (cells w) c = Some (Some (t, v))
  | _, _ => False
  end.
Record sim (w : @istate V) (ss : list (slot V)) : Prop := {
  sim_len : length (objs w) = length ss;
  sim_ok : forall i, (i < length ss)%nat -> slot_ok w (slot_at ss i) (nth_error (objs w) i);
  sim_inj : forall i j c, ptr w i = Some c -> ptr w j = Some c -> i = j;
  sim_cnt : allocated (cells w) = held ss
}.
Lemma slot_at_lt (ss : list (slot V)) i : slot_at ss i <> Gone -> (i < length ss)%nat.
Proof.
  intros H. destruct (Nat.lt_ge_cases i (length ss)); [auto|]. exfalso. apply H. unfold slot_at. apply nth_overflow. auto.
Qed.
Lemma slot_at_nth (ss : list (slot V)) i : (i < length ss)%nat -> nth_error ss i = Some (slot_at ss i).
Proof. intros. apply nth_error_nth'. auto. Qed.
Lemma slot_at_upd (ss : list (slot V)) i j s : (i < length ss)%nat ->
  slot_at (upd ss i s) j = if (i =? j)%nat then s else slot_at ss j.
Proof.
  intros H. unfold slot_at. destruct (Nat.eqb_spec i j) as [E|E].
  - subst j. apply nth_error_nth. apply nth_error_upd_eq. auto.
  - destruct (nth_error ss j) as [y|] eqn:N.
    + rewrite (nth_error_nth ss j Gone N). apply nth_error_nth. rewrite nth_error_upd_ne by auto. exact N.
    + apply nth_error_None in N. rewrite !nth_overflow; auto. rewrite upd_length. auto.
Qed.
Lemma slot_at_app (ss : list (slot V)) i s : slot_at (ss ++ [s]) i =
  if (i =? length ss)%nat then s else slot_at ss i.
Proof.
  unfold slot_at. destruct (Nat.eqb_spec i (length ss)) as [E|E].
  - subst i. rewrite app_nth2, Nat.sub_diag by lia. reflexivity.
  - destruct (Nat.lt_ge_cases i (length ss)); [apply app_nth1; auto|].
    rewrite !nth_overflow; auto. rewrite app_length. cbn. lia.
Qed.
(** A live object and its slot. *)
Lemma sim_obj w ss i : sim w ss -> slot_at ss i <> Gone -> exists o, obj w i = Ok o /\ nth_error (objs w) i = Some (Some o) /\
  match slot_at ss i with
  | Holds t v => exists c, o = Input t (Some c) /\ nth_error (cells w) c = Some (Some (t, v)) /\ cell_of w t c = Ok v
  | _ => m_iterator o = None
  end.
Proof.
  intros SM H. pose proof (slot_at_lt ss i H) as L. pose proof (sim_ok w ss SM i L) as K. unfold obj.
  destruct (slot_at ss i) as [| |t v]; [congruence| |]; cbn [slot_ok] in K;
    destruct (nth_error (objs w) i) as [[[u [c|]]|]|]; try contradiction.
  - eexists. split; [reflexivity|]. split; reflexivity.
  - destruct K as [-> K]. eexists. split; [reflexivity|]. split; [reflexivity|]. exists c. split; [reflexivity|]. split; [exact K|].
    unfold cell_of. rewrite K, Nat.eqb_refl. reflexivity.
Qed.
Lemma cell_lt w c (x : option (nat * V)) : nth_error (cells w) c = Some x -> (c < length (cells w))%nat.
Proof. intros H. apply nth_error_Some. congruence. Qed.
Lemma ptr_lt w ss i c : sim w ss -> ptr w i = Some c -> (c < length (cells w))%nat.
Proof.
  intros SM H. unfold ptr in H. destruct (nth_error (objs w) i) as [[o|]|] eqn:N; try discriminate.
  assert (L : (i < length ss)%nat) by (rewrite <- (sim_len w ss SM); apply nth_error_Some; congruence).
  pose proof (sim_ok w ss SM i L) as K. rewrite N in K. destruct o as [u p]. cbn [m_iterator] in H. subst p.
  destruct (slot_at ss i); try contradiction. destruct K as [_ K]. eapply cell_lt; exact K.
Qed.
Lemma slot_ok_app w s o cs' os' : slot_ok w s o -> slot_ok (IState (cells w ++ cs') os') s o.
Proof.
  destruct s as [| |t v], o as [[[u [c|]]|]|]; cbn; auto. intros [-> K]. split; [reflexivity|].
  rewrite nth_error_app1; [exact K|]. eapply cell_lt; exact K.
Qed.
Lemma objs_app (os : list (option input_it)) o i :
  nth_error (os ++ [o]) i = if (i =? length os)%nat then Some o else nth_error os i.
Proof.
  destruct (Nat.eqb_spec i (length os)) as [E|E].
  - subst i. rewrite nth_error_app2, Nat.sub_diag by lia. reflexivity.
  - destruct (Nat.lt_ge_cases i (length os)); [apply nth_error_app1; auto|].
    rewrite !(proj2 (nth_error_None _ _)); auto. rewrite app_length. cbn. lia.
Qed.
Lemma objs_upd (os : list (option input_it)) o i j : (i < length os)%nat ->
  nth_error (upd os i o) j = if (i =? j)%nat then Some o else nth_error os j.
Proof.
  intros L. destruct (Nat.eqb_spec i j) as [E|E].
  - subst j. apply nth_error_upd_eq. auto.
  - apply nth_error_upd_ne. auto.
Qed.
(** A new object with a new cell. *)
Lemma sim_new w ss t v : sim w ss ->
  sim (IState (cells w ++ [Some (t, v)]) (objs w ++ [Some (Input t (Some (length (cells w))))])) (ss ++ [Holds t v]).
Proof.
  intros SM. pose proof (sim_len w ss SM) as L. constructor; cbn [cells objs].
  - rewrite !app_length. cbn. lia.
  - intros i Hi. rewrite app_length in Hi. cbn [length] in Hi. rewrite objs_app, slot_at_app, L.
    destruct (Nat.eqb_spec i (length ss)) as [E|E].
    + cbn. split; [reflexivity|]. rewrite nth_error_app2, Nat.sub_diag by lia. reflexivity.
    + apply slot_ok_app. apply (sim_ok w ss SM). lia.
  - intros i j c. unfold ptr. cbn [objs]. rewrite !objs_app.
    pose proof (fun i c => ptr_lt w ss i c SM) as PL. unfold ptr in PL.
    destruct (Nat.eqb_spec i (length (objs w))), (Nat.eqb_spec j (length (objs w))); cbn [m_iterator]; intros H1 H2.
    + lia.
    + inversion H1; subst c. apply PL in H2. lia.
    + inversion H2; subst c. apply PL in H1. lia.
    + exact (sim_inj w ss SM i j c H1 H2).
  - unfold allocated, held. rewrite !count_app. cbn [b2n]. f_equal. exact (sim_cnt w ss SM).
Qed.
(** A live object becomes [o] with slot [s], the heap unchanged; the pointer it had (if any)
    is given up or kept by it alone. *)
Lemma sim_clone w ss j t v : sim w ss -> slot_at ss j = Holds t v ->
  exists o c, obj w j = Ok o /\ o = Input t (Some c) /\ op_clone w (m_vtable o) (m_iterator o) = Ok (IState (cells w ++ [Some (t, v)]) (objs w), length (cells w)).
Proof.
  intros SM H. destruct (sim_obj w ss j SM) as (o & O1 & O2 & O3); [congruence|]. rewrite H in O3. destruct O3 as (c & -> & C1 & C2).
  exists (Input t (Some c)), c. split; [exact O1|]. split; [reflexivity|]. cbn [op_clone m_vtable m_iterator]. rewrite C2. reflexivity.
Qed.
Lemma ptr_upd w i j o cs : (i < length (objs w))%nat -> ptr (IState cs (upd (objs w) i o)) j =
  if (i =? j)%nat then match o with Some x => m_iterator x | None => None end else ptr w j.
Proof.
  intros L. unfold ptr. cbn [objs]. rewrite objs_upd by auto. destruct (Nat.eqb_spec i j); reflexivity.
Qed.
Lemma ptr_holds w ss i c : sim w ss -> ptr w i = Some c -> exists t v, slot_at ss i = Holds t v /\ nth_error (cells w) c = Some (Some (t, v)) /\ (i < length ss)%nat.
Proof.
  intros SM H. unfold ptr in H. destruct (nth_error (objs w) i) as [[[u p]|]|] eqn:N; try discriminate. cbn [m_iterator] in H. subst p.
  assert (L : (i < length ss)%nat) by (rewrite <- (sim_len w ss SM); apply nth_error_Some; congruence).
  pose proof (sim_ok w ss SM i L) as K. rewrite N in K. destruct (slot_at ss i) as [| |t v]; try contradiction.
  destruct K as [-> K]. exists t, v. auto.
Qed.
Lemma slot_ok_cells w w' s o : slot_ok w s o ->
  (forall u c, o = Some (Some (Input u (Some c))) -> nth_error (cells w') c = nth_error (cells w) c) -> slot_ok w' s o.
Proof.
  destruct s as [| |t v], o as [[[u [c|]]|]|]; cbn [slot_ok]; auto. intros [-> K] H. split; [reflexivity|]. rewrite (H t c) by reflexivity. exact K.
Qed.

(** Giving up the cell of object [i]. *)
Lemma sim_drop w ss i o' s' : sim w ss -> slot_at ss i <> Gone ->
  (s' = Gone /\ o' = None \/ exists u, s' = Emptied /\ o' = Some (Input u None)) ->
  exists x w', obj w i = Ok x /\ op_del w (m_vtable x) (m_iterator x) = Ok w' /\ objs w' = objs w /\ length (cells w') = length (cells w) /\
    sim (set_obj w' i o') (upd ss i s').
Proof.
  intros SM HG HO. destruct (sim_obj w ss i SM HG) as (o & O1 & O2 & O3). pose proof (slot_at_lt ss i HG) as L.
  pose proof (sim_len w ss SM) as LL.
  assert (B : (match s' with Holds _ _ => true | _ => false end) = false) by (destruct HO as [[-> _] | (u & -> & _)]; reflexivity).
  assert (SO : forall w, slot_ok w s' (Some o')) by (intros w0; destruct HO as [[-> ->] | (u & -> & ->)]; exact I).
  assert (PO : match o' with Some x => m_iterator x | None => None end = None) by (destruct HO as [[_ ->] | (u & _ & ->)]; reflexivity).
  exists o. destruct (m_iterator o) as [c|] eqn:MI.
  - destruct (slot_at ss i) as [| |t v] eqn:SL; [congruence|congruence|].
    destruct O3 as (c' & -> & C1 & C2). cbn [m_iterator] in MI. inversion MI; subst c'. cbn [m_vtable] in *.
    exists (IState (upd (cells w) c None) (objs w)). split; [exact O1|]. split; [cbn [op_del]; rewrite C2; reflexivity|].
    split; [reflexivity|]. split; [cbn [cells]; apply upd_length|]. unfold set_obj. cbn [cells objs].
    constructor; cbn [cells objs].
    + rewrite !upd_length. exact LL.
    + intros j Hj. rewrite upd_length in Hj. rewrite objs_upd, slot_at_upd by lia. destruct (Nat.eqb_spec i j) as [E|E]; [apply SO|].
      eapply slot_ok_cells; [apply (sim_ok w ss SM j Hj)|]. intros u d N. cbn [cells]. apply nth_error_upd_ne. intros ED. subst d.
      apply E. apply (sim_inj w ss SM i j c); unfold ptr; [rewrite O2; reflexivity|rewrite N; reflexivity].
    + intros a b d. rewrite !ptr_upd by lia. rewrite PO.
      destruct (Nat.eqb_spec i a), (Nat.eqb_spec i b); try discriminate. apply (sim_inj w ss SM).
    + unfold allocated, held.
      pose proof (count_upd (fun c => match c with Some _ => true | None => false end) (cells w) c None _ C1) as K1.
      pose proof (count_upd (fun s : slot V => match s with Holds _ _ => true | _ => false end) ss i s' _ (slot_at_nth ss i L)) as K2.
      rewrite SL, B in K2. cbn [b2n] in K1, K2. pose proof (sim_cnt w ss SM) as K3. unfold allocated, held in K3. lia.
  - exists w. split; [exact O1|]. split; [reflexivity|]. split; [reflexivity|]. split; [reflexivity|]. unfold set_obj.
    assert (NH : (match slot_at ss i with Holds _ _ => true | _ => false end) = false).
    { destruct (slot_at ss i) as [| |t v]; try reflexivity. destruct O3 as (c & -> & _). discriminate. }
    constructor; cbn [cells objs].
    + rewrite !upd_length. exact LL.
    + intros j Hj. rewrite upd_length in Hj. rewrite objs_upd, slot_at_upd by lia. destruct (Nat.eqb_spec i j) as [E|E]; [apply SO|].
      eapply slot_ok_cells; [apply (sim_ok w ss SM j Hj)|]. reflexivity.
    + intros a b d. rewrite !ptr_upd by lia. rewrite PO.
      destruct (Nat.eqb_spec i a), (Nat.eqb_spec i b); try discriminate. apply (sim_inj w ss SM).
    + unfold held.
      pose proof (count_upd (fun s : slot V => match s with Holds _ _ => true | _ => false end) ss i s' _ (slot_at_nth ss i L)) as K2.
      cbn beta in K2. rewrite NH, B in K2. cbn [b2n] in K2. pose proof (sim_cnt w ss SM) as K3. unfold held in K3. lia.
Qed.

Lemma sim_fill w ss i t v : sim w ss -> slot_at ss i = Emptied ->
  sim (IState (cells w ++ [Some (t, v)]) (upd (objs w) i (Some (Input t (Some (length (cells w))))))) (upd ss i (Holds t v)).
Proof.
  intros SM SL. pose proof (sim_len w ss SM) as LL. assert (L : (i < length ss)%nat) by (apply slot_at_lt; congruence).
  constructor; cbn [cells objs].
  - rewrite !upd_length. exact LL.
  - intros j Hj. rewrite upd_length in Hj. rewrite objs_upd, slot_at_upd by lia. destruct (Nat.eqb_spec i j) as [E|E].
    + cbn. split; [reflexivity|]. rewrite nth_error_app2, Nat.sub_diag by lia. reflexivity.
    + apply slot_ok_app. apply (sim_ok w ss SM j Hj).
  - intros a b d. rewrite !ptr_upd by lia. cbn [m_iterator].
    destruct (Nat.eqb_spec i a), (Nat.eqb_spec i b); intros H1 H2.
    + congruence.
    + inversion H1; subst d. apply (ptr_lt w ss _ _ SM) in H2. lia.
    + inversion H2; subst d. apply (ptr_lt w ss _ _ SM) in H1. lia.
    + exact (sim_inj w ss SM a b d H1 H2).
  - unfold allocated, held. rewrite count_app. cbn [b2n].
    pose proof (count_upd (fun s : slot V => match s with Holds _ _ => true | _ => false end) ss i (Holds t v) _ (slot_at_nth ss i L)) as K2.
    rewrite SL in K2. cbn [b2n] in K2. pose proof (sim_cnt w ss SM) as K3. unfold allocated, held in K3. lia.
Qed.
Lemma upd_upd {B} (l : list B) : forall i x y, upd (upd l i x) i y = upd l i y.
Proof. induction l as [|z l IH]; intros [|i] x y; cbn [upd]; try reflexivity. f_equal. apply IH. Qed.
Lemma upd_app_l {B} (l m : list B) : forall i x, (i < length l)%nat -> upd (l ++ m) i x = upd l i x ++ m.
Proof. induction l as [|z l IH]; intros [|i] x H; cbn [length] in H; [lia|lia|reflexivity|]. cbn [app upd]. f_equal. apply IH. lia. Qed.

Lemma sim_copy_assign w ss i j t v : sim w ss -> i <> j -> slot_at ss i <> Gone -> slot_at ss j = Holds t v ->
  same_kind (ICopyAssign i j) ss = true ->
  exists w', istep nxt (ICopyAssign i j) w = Ok w' /\ sim w' (upd ss i (Holds t v)).
Proof.
  intros SM NE HI HJ SK. destruct (sim_clone w ss j t v SM HJ) as (y & c & Y1 & -> & Y2). cbn [m_vtable m_iterator] in Y2.
  destruct (sim_drop w ss i (Some (Input t None)) Emptied SM HI) as (x & w' & X1 & X2 & X3 & X4 & X5); [right; eauto|].
  pose proof (slot_at_lt ss i HI) as LI. pose proof (sim_len w ss SM) as LL.
  cbn [istep]. rewrite X1. cbn [bind]. rewrite (proj2 (Nat.eqb_neq i j) NE). rewrite Y1. cbn [bind m_vtable m_iterator].
  rewrite Y2. cbn [bind]. unfold set_obj at 1. cbn [cells objs].
  assert (F := sim_fill _ _ i t v X5). rewrite slot_at_upd, Nat.eqb_refl in F by auto. specialize (F eq_refl).
  unfold set_obj in F. cbn [cells objs] in F. rewrite !upd_upd, X3, X4 in F.
  destruct (m_iterator x) as [d|] eqn:MX.
  - destruct (sim_obj w ss i SM HI) as (o & O1 & O2 & O3). rewrite X1 in O1. inversion O1; subst o.
    cbn [same_kind] in SK. rewrite HJ in SK.
    destruct (slot_at ss i) as [| |u z] eqn:SI; [congruence|congruence|]. apply Nat.eqb_eq in SK. subst u.
    destruct O3 as (d' & -> & C1 & C2). cbn [m_iterator m_vtable] in *. inversion MX; subst d'.
    cbn [op_del] in *. rewrite C2 in X2. cbn [bind] in X2. inversion X2; subst w'. cbn [cells objs] in F.
    pose proof (cell_lt w d _ C1) as LD.
    unfold cell_of. cbn [cells]. rewrite nth_error_app1, C1, Nat.eqb_refl by exact LD. cbn [bind].
    eexists. split; [reflexivity|]. cbn [objs]. rewrite upd_app_l by exact LD. exact F.
  - cbn [op_del] in *. inversion X2; subst w'. eexists. split; [reflexivity|]. exact F.
Qed.
(** Moving the pointer of object [j] to a moved-from object [i]. *)
Lemma sim_transfer w ss i j u : sim w ss -> i <> j -> slot_at ss i = Emptied -> slot_at ss j <> Gone ->
  exists y, obj w j = Ok y /\ sim (IState (cells w) (upd (upd (objs w) j (Some (Input u None))) i (Some y))) (upd (upd ss j Emptied) i (slot_at ss j)).
Proof.
  intros SM NE HI HJ. pose proof (slot_at_lt ss j HJ) as LJ. assert (LI : (i < length ss)%nat) by (apply slot_at_lt; congruence).
  pose proof (sim_len w ss SM) as LL. destruct (sim_obj w ss j SM HJ) as (y & Y1 & Y2 & Y3). exists y. split; [exact Y1|].
  assert (PJ : ptr w j = m_iterator y) by (unfold ptr; rewrite Y2; reflexivity).
  constructor; cbn [cells objs].
  - rewrite !upd_length. exact LL.
  - intros k Hk. rewrite !upd_length in Hk. rewrite !objs_upd, !slot_at_upd by (rewrite ?upd_length; lia).
    destruct (Nat.eqb_spec i k) as [E|E].
    + rewrite <- Y2. eapply slot_ok_cells; [apply (sim_ok w ss SM j LJ)|reflexivity].
    + destruct (Nat.eqb_spec j k) as [E'|E']; [exact I|]. eapply slot_ok_cells; [apply (sim_ok w ss SM k Hk)|reflexivity].
  - intros a b d. unfold ptr. cbn [objs]. rewrite !objs_upd by (rewrite ?upd_length; lia).
    pose proof (fun a b d => sim_inj w ss SM a b d) as IN.
    destruct (Nat.eqb_spec i a), (Nat.eqb_spec i b), (Nat.eqb_spec j a), (Nat.eqb_spec j b); subst; try congruence; try discriminate; intros H1 H2.
    + exfalso. rewrite <- PJ in H1. specialize (IN j b d H1 H2). congruence.
    + exfalso. rewrite <- PJ in H2. specialize (IN a j d H1 H2). congruence.
    + exact (IN a b d H1 H2).
  - unfold held.
    assert (LE : nth_error (upd ss j Emptied) i = Some Emptied).
    { rewrite nth_error_upd_ne by auto. rewrite (slot_at_nth ss i LI), HI. reflexivity. }
    pose proof (count_upd (fun s : slot V => match s with Holds _ _ => true | _ => false end) ss j Emptied _ (slot_at_nth ss j LJ)) as K2.
    pose proof (count_upd (fun s : slot V => match s with Holds _ _ => true | _ => false end) (upd ss j Emptied) i (slot_at ss j) _ LE) as K1.
    cbn [b2n] in K1, K2. pose proof (sim_cnt w ss SM) as K3. unfold held in K3. lia.
Qed.
(** A new moved-from object. *)
Lemma sim_new_empty w ss u : sim w ss -> sim (IState (cells w) (objs w ++ [Some (Input u None)])) (ss ++ [Emptied]).
Proof.
  intros SM. pose proof (sim_len w ss SM) as L. constructor; cbn [cells objs].
  - rewrite !app_length. cbn. lia.
  - intros i Hi. rewrite app_length in Hi. cbn [length] in Hi. rewrite objs_app, slot_at_app, L.
    destruct (Nat.eqb_spec i (length ss)) as [E|E]; [exact I|]. eapply slot_ok_cells; [apply (sim_ok w ss SM); lia|reflexivity].
  - intros i j c. unfold ptr. cbn [objs]. rewrite !objs_app.
    destruct (Nat.eqb_spec i (length (objs w))), (Nat.eqb_spec j (length (objs w))); cbn [m_iterator]; try discriminate.
    apply (sim_inj w ss SM i j c).
  - unfold held. rewrite count_app. cbn [b2n]. rewrite Nat.add_0_r. exact (sim_cnt w ss SM).
Qed.
Lemma upd_app_at {B} (l : list B) a x : upd (l ++ [a]) (length l) x = l ++ [x].
Proof. induction l as [|y l IH]; cbn [app length upd]; [reflexivity|]. f_equal. exact IH. Qed.

Lemma sim_step o w ss ss' : sim w ss -> same_kind o ss = true -> ispec nxt o ss = Some ss' ->
  exists w', istep nxt o w = Ok w' /\ sim w' ss'.
Proof.
  intros SM SK E. pose proof (sim_len w ss SM) as LL. destruct o as [t v|j|j|i j|i j|i|i]; cbn [ispec] in E.
  - inversion E; subst. eexists. split; [reflexivity|]. cbn [cells objs]. exact (sim_new w ss _ _ SM).
  - destruct (slot_at ss j) as [| |t v] eqn:SJ; try discriminate. inversion E; subst.
    destruct (sim_clone w ss j t v SM SJ) as (y & c & Y1 & -> & Y2). cbn [istep]. rewrite Y1. cbn [bind]. rewrite Y2.
    cbn [bind m_vtable]. eexists. split; [reflexivity|]. cbn [cells objs]. exact (sim_new w ss _ _ SM).
  - assert (HG : slot_at ss j <> Gone) by (destruct (slot_at ss j); congruence).
    assert (E' : ss' = upd ss j Emptied ++ [slot_at ss j]) by (destruct (slot_at ss j); congruence). clear E. subst ss'.
    pose proof (slot_at_lt ss j HG) as LJ.
    destruct (sim_obj w ss j SM HG) as (y & Y1 & Y2 & _). cbn [istep]. rewrite Y1. cbn [bind]. eexists. split; [reflexivity|].
    assert (N := sim_new_empty w ss (m_vtable y) SM).
    destruct (sim_transfer _ _ (length ss) j (m_vtable y) N) as (y' & Y1' & T).
    + lia.
    + rewrite slot_at_app, Nat.eqb_refl. reflexivity.
    + rewrite slot_at_app, (proj2 (Nat.eqb_neq _ _)) by lia. exact HG.
    + assert (y' = y). { unfold obj in Y1, Y1'. cbn [objs] in Y1'. rewrite objs_app, (proj2 (Nat.eqb_neq _ _)) in Y1' by lia. congruence. }
      subst y'. rewrite slot_at_app, (proj2 (Nat.eqb_neq j _)) in T by lia. cbn [cells objs] in T. unfold set_obj. cbn [cells objs].
      rewrite (upd_app_l (objs w)), (upd_app_l ss) in T by lia.
      assert (A1 : forall x, upd (upd ss j Emptied ++ [Emptied]) (length ss) x = upd ss j Emptied ++ [x]).
      { intros x. rewrite <- (upd_length ss j Emptied). apply upd_app_at. }
      assert (A2 : forall e a x, upd (upd (objs w) j e ++ [a]) (length ss) x = upd (objs w) j e ++ [x]).
      { intros e a x. rewrite <- LL, <- (upd_length (objs w) j e). apply upd_app_at. }
      rewrite A1, A2 in T. exact T.
  - assert (HI : slot_at ss i <> Gone) by (destruct (slot_at ss i); congruence).
    destruct (Nat.eqb_spec i j) as [EQ|NE].
    + assert (ss' = ss) by (destruct (slot_at ss i); congruence). subst.
      destruct (sim_obj w ss j SM HI) as (x & X1 & _). cbn [istep]. rewrite X1, Nat.eqb_refl. cbn [bind]. eauto.
    + destruct (slot_at ss j) as [| |t v] eqn:SJ; [destruct (slot_at ss i); discriminate|destruct (slot_at ss i); discriminate|].
      assert (ss' = upd ss i (Holds t v)) by (destruct (slot_at ss i); congruence). subst ss'.
      apply (sim_copy_assign w ss i j t v); auto.
  - assert (HI : slot_at ss i <> Gone) by (destruct (slot_at ss i); congruence).
    destruct (sim_obj w ss i SM HI) as (x & X1 & _). cbn [istep]. rewrite X1. cbn [bind].
    destruct (Nat.eqb_spec i j) as [EQ|NE].
    + assert (ss' = ss) by (destruct (slot_at ss i); congruence). subst. eauto.
    + assert (HJ : slot_at ss j <> Gone) by (destruct (slot_at ss i), (slot_at ss j); congruence).
      assert (ss' = upd (upd ss j Emptied) i (slot_at ss j)) by (destruct (slot_at ss i), (slot_at ss j); congruence). subst ss'.
      cbn [same_kind] in SK. rewrite (proj2 (Nat.eqb_neq _ _) NE) in SK. cbn [orb] in SK.
      assert (SI : slot_at ss i = Emptied) by (destruct (slot_at ss i); congruence).
      destruct (sim_obj w ss j SM HJ) as (y & Y1 & _).
      destruct (sim_transfer w ss i j (m_vtable y) SM NE SI HJ) as (y' & Y1' & T). rewrite Y1 in Y1'. inversion Y1'; subst y'.
      rewrite Y1. cbn [bind]. eexists. split; [reflexivity|]. exact T.
  - destruct (slot_at ss i) as [| |t v] eqn:SI; try discriminate. inversion E; subst. clear E.
    destruct (sim_obj w ss i SM) as (o & O1 & O2 & O3); [congruence|]. rewrite SI in O3. destruct O3 as (c & -> & C1 & C2).
    cbn [istep]. rewrite O1. cbn [bind m_iterator m_vtable]. rewrite C2. cbn [bind]. eexists. split; [reflexivity|].
    assert (LI : (i < length ss)%nat) by (apply slot_at_lt; congruence). pose proof (cell_lt w c _ C1) as LC.
    constructor; cbn [cells objs].
    + rewrite upd_length. exact LL.
    + intros k Hk. rewrite upd_length in Hk. rewrite slot_at_upd by auto. destruct (Nat.eqb_spec i k) as [EQ|NE].
      * subst k. rewrite O2. cbn. split; [reflexivity|]. apply nth_error_upd_eq. exact LC.
      * eapply slot_ok_cells; [apply (sim_ok w ss SM k Hk)|]. intros u d N. cbn [cells]. apply nth_error_upd_ne. intros ED. subst d.
        apply NE. apply (sim_inj w ss SM i k c); unfold ptr; [rewrite O2; reflexivity|rewrite N; reflexivity].
    + intros a b d H1 H2. exact (sim_inj w ss SM a b d H1 H2).
    + unfold allocated, held.
      pose proof (count_upd (fun c => match c with Some _ => true | None => false end) (cells w) c (Some (t, nxt t v)) _ C1) as K1.
      pose proof (count_upd (fun s : slot V => match s with Holds _ _ => true | _ => false end) ss i (Holds t (nxt t v)) _ (slot_at_nth ss i LI)) as K2.
      rewrite SI in K2. cbn [b2n] in K1, K2. pose proof (sim_cnt w ss SM) as K3. unfold allocated, held in K3. lia.
  - assert (HI : slot_at ss i <> Gone) by (destruct (slot_at ss i); congruence).
    assert (ss' = upd ss i Gone) by (destruct (slot_at ss i); congruence). subst ss'.
    destruct (sim_drop w ss i None Gone SM HI) as (x & w' & X1 & X2 & _ & _ & X5); [left; auto|].
    cbn [istep]. rewrite X1. cbn [bind]. rewrite X2. cbn [bind]. eauto.
Qed.
Lemma sim_reads w ss i : sim w ss -> reads w i = slot_at ss i.
Proof.
  intros SM. pose proof (sim_len w ss SM) as LL. destruct (Nat.lt_ge_cases i (length ss)) as [L|L].
  - pose proof (sim_ok w ss SM i L) as K. unfold reads.
    destruct (slot_at ss i) as [| |t v], (nth_error (objs w) i) as [[[u [c|]]|]|]; try contradiction; try reflexivity.
    destruct K as [-> K]. cbn [m_iterator m_vtable]. unfold cell_of. rewrite K, Nat.eqb_refl. reflexivity.
  - unfold reads, slot_at. rewrite (proj2 (nth_error_None _ _)) by lia. rewrite nth_overflow by auto. reflexivity.
Qed.
Lemma sim_run os : forall w ss ss', sim w ss -> same_kind_run nxt os ss = Some ss' ->
  exists w', irun nxt os w = Ok w' /\ sim w' ss'.
Proof.
  induction os as [|o os IH]; intros w ss ss' SM E; cbn [same_kind_run irun] in *.
  - inversion E; subst. eauto.
  - destruct (same_kind o ss) eqn:SK; [|discriminate]. destruct (ispec nxt o ss) as [s1|] eqn:SP; [|discriminate].
    destruct (sim_step o w ss s1 SM SK SP) as (w1 & -> & SM1). cbn [bind]. eauto.
Qed.
Lemma sim_start : sim (IState [] []) [].
Proof. constructor; cbn; [reflexivity|lia| |reflexivity]. intros [|i] j c H; discriminate. Qed.
Lemma input_run os ss : same_kind_run nxt os [] = Some ss ->
  exists w, irun nxt os (IState [] []) = Ok w /\ (forall i, reads w i = slot_at ss i) /\ allocated (cells w) = held ss.
Proof.
  intros E. destruct (sim_run os _ _ _ sim_start E) as (w & R & SM). exists w. split; [exact R|].
  split; [intros i; apply sim_reads; exact SM|]. exact (sim_cnt w ss SM).
Qed.
Lemma input_mixed t u v x : t <> u -> irun nxt [IMake t v; IMake u x; ICopyAssign 0 1] (IState [] []) = UB.
Proof.
  intros NE. cbn. rewrite Nat.eqb_refl. cbn. rewrite (proj2 (Nat.eqb_neq u t)) by auto. reflexivity.
Qed.
Lemma input_leak t v x : exists w,
  irun nxt [IMake t v; IMake t x; IMoveAssign 0 1; IDestroy 0; IDestroy 1] (IState [] []) = Ok w /\
  (forall i, reads w i = Gone) /\ allocated (cells w) = 1%nat.
Proof.
  cbn. rewrite Nat.eqb_refl. cbn. eexists. split; [reflexivity|]. split; [|reflexivity].
  intros [|[|i]]; try reflexivity. unfold reads. cbn. destruct i; reflexivity.
Qed.
End InputProofs.

Lemma counting {A} (l : list A) ops p s : zlen l < 2 ^ 63 -> 0 <= p <= zlen l ->
  cnt_run l ops (cnt_make p) = Ok s -> s = (p + net ops, net ops) /\ 0 <= p + net ops <= zlen l.
Proof.
  intros L P R. unfold cnt_make in R. destruct (cnt_run_ok l L ops p 0 s) as [E F]; [lia|lia|exact R|].
  split; [|exact F]. rewrite E. reflexivity.
Qed.
Lemma cnt_defined {A} (l : list A) : zlen l < 2 ^ 63 -> forall ops p d, - zlen l <= d - p <= 0 ->
  (forall k, 0 <= p + net (firstn k ops) <= zlen l) -> cnt_run l ops (p, d) = Ok (p + net ops, d + net ops).
Proof.
  intros L. induction ops as [|b ops IH]; intros p d D H; cbn [cnt_run net].
  - rewrite !Z.add_0_r. reflexivity.
  - pose proof (H 0%nat) as H0. pose proof (H 1%nat) as H1. cbn [firstn net] in H0, H1. rewrite Z.add_0_r in H0, H1.
    assert (E : (if b then cnt_inc l (p, d) else cnt_dec l (p, d)) = Ok (p + (if b then 1 else -1), d + (if b then 1 else -1))).
    { destruct b; unfold cnt_inc, cnt_dec; cbn [fst snd]; rewrite move_ok by lia; cbn [bind]; rewrite calc_i64 by lia; reflexivity. }
    rewrite E. cbn [bind]. rewrite IH.
    + f_equal. f_equal; lia.
    + destruct b; lia.
    + intros k. specialize (H (S k)). cbn [firstn net] in H. destruct b; lia.
Qed.
Lemma counting_defined {A} (l : list A) ops p : zlen l < 2 ^ 63 ->
  (forall k, 0 <= p + net (firstn k ops) <= zlen l) -> cnt_run l ops (cnt_make p) = Ok (p + net ops, net ops).
Proof.
  intros L H. unfold cnt_make. pose proof (H 0%nat) as H0. cbn [firstn net] in H0. rewrite (cnt_defined l L) by (auto; lia). reflexivity.
Qed.
Lemma integer_wraps T f l : std_width (width T) -> fits T f -> fits T l -> signed T = false \/ width T < 32 ->
  visits (integer_range T f l) (map (fun i => conv T (f + Z.of_nat i)) (seq 0 (Z.to_nat ((l - f) mod 2 ^ width T)))).
Proof.
  intros W F1 F2 D. pose proof (std_pos _ W) as PW. pose proof (pow_pos (width T) ltac:(lia)) as PP.
  apply integer_yields; auto; [tauto|]. apply Z2Nat.id. apply Z.mod_pos_bound. exact PP.
Qed.
Lemma integer_up T f l : std_width (width T) -> fits T f -> fits T l -> f <= l ->
  visits (integer_range T f l) (arith f 1 (Z.to_nat (l - f))).
Proof.
  intros W F1 F2 LE. pose proof (std_pos _ W) as PW. pose proof (fits_close T l f PW F2 F1) as FC.
  assert (E : (l - f) mod 2 ^ width T = l - f) by (apply Z.mod_small; lia).
  replace (arith f 1 (Z.to_nat (l - f))) with (map (fun i => conv T (f + Z.of_nat i)) (seq 0 (Z.to_nat (l - f)))).
  - apply integer_yields; auto. rewrite E. lia.
  - unfold arith. apply map_ext_in. intros i Hi. apply in_seq in Hi.
    rewrite conv_id; [lia|exact PW|]. unfold fits in *. lia.
Qed.
Lemma arg_at_first {A} (l : list A) p : zlen l < 2 ^ 31 -> 0 <= p <= zlen l ->
  arg_at (Arg (zlen l) p (Some l)) (- p) = Throw.
Proof. intros L P. rewrite arg_at_ok by lia. replace (p + - p) with 0 by lia. reflexivity. Qed.

Lemma c147_order_l :
  forall (A : Type) (l : list A) c p n q, 0 < c -> zlen l < 2 ^ 63 -> 0 <= p <= zlen l ->
  chunk_add l c p n = Ok q -> chunk_lt p q = (0 <? n) /\ chunk_lt q p = (n <? 0).
Proof.
  intros A l c p n q C L P E. pose proof (chunk_diff_wrong l c p n q L P E) as D. unfold chunk_diff in D.
  assert (q = p + n * c).
  { unfold chunk_add in E. destruct (calc i64 (n * c)) as [d| | |] eqn:K; cbn [bind] in E; try discriminate.
    unfold calc in K. cbn [signed i64 lowest highest width] in K. destruct (_ && _) in K; [|discriminate]. injection K as <-.
    unfold move in E. destruct (_ && _) in E; [|discriminate]. now injection E as <-. }
  subst q. unfold chunk_lt. split; [destruct (Z.ltb_spec 0 n), (Z.ltb_spec p (p + n * c)); try reflexivity; nia|].
  destruct (Z.ltb_spec n 0), (Z.ltb_spec (p + n * c) p); try reflexivity; nia.
Qed.

Lemma c148_back_l :
  forall (A : Type) dbg (l : list A) p, zlen l < 2 ^ 63 - 1 -> 0 <= p <= zlen l ->
  idx_inc dbg l p = Ok (p + 1) /\ idx_dec dbg (p + 1) = Ok p.
Proof.
  intros A dbg l p L P. unfold idx_inc, idx_dec. rewrite conv_u64_id by lia. chk. split; [apply calc_i64; lia|]. chk.
  replace p with (p + 1 - 1) at 2 by lia. apply calc_i64. lia.
Qed.

Lemma c152_sub_assign_refuted_l :
  forall T v n, std_width (width T) -> fits (signed_of T) v -> fits T v -> fits (signed_of T) (v - n) -> fits T (v - n) ->
  iota_sub_assign T v n = Ok (v - n).
Proof.
  intros T v n W F1 F2 F3 F4. pose proof (std_pos _ W) as P. unfold iota_sub_assign.
  rewrite (conv_id (signed_of T) v P F1). rewrite calc_fits; [|apply promote_pos|apply BitsProofs.fits_promote; [exact P|exact F3]].
  cbn [bind]. rewrite conv_id by auto. reflexivity.
Qed.

Lemma c154_sub_refuted_l :
  forall p n, 0 <= n -> - 2 ^ 63 <= p - n -> p < 2 ^ 63 ->
  times (Z.to_nat n) rep_inc p = rep_sub p n /\ rep_sub p n = Ok (p - n).
Proof.
  intros p n Hn HM HP. assert (T : forall k q, q < 2 ^ 63 -> - 2 ^ 63 <= q - Z.of_nat k -> times k rep_inc q = Ok (q - Z.of_nat k)).
  { induction k as [|k IH]; intros q Hq Hk; cbn [times]; [f_equal; lia|].
    unfold rep_inc at 1. rewrite calc_i64 by lia. cbn [bind]. rewrite IH by lia. f_equal. lia. }
  unfold rep_sub. rewrite T by lia. rewrite !calc_i64 by lia. split; f_equal; lia.
Qed.

Lemma c154_huge_refuted_l :
  forall (A : Type) (v : A) count fuel xs, 2 ^ 63 <= count < 2 ^ 64 ->
  walk fuel (rep_range count v) (rep_make count) <> Ok xs.
Proof.
  intros A v count fuel xs C.
  assert (N : rep_make count < 0).
  { unfold rep_make, conv, swrap. cbn [signed i64 width]. cbv zeta. rewrite (Z.mod_small count) by lia.
    destruct (Z.ltb_spec count (2 ^ (64 - 1))); lia. }
  revert N. generalize (rep_make count) as p. revert xs. induction fuel as [|fuel IH]; intros xs p N; [discriminate|].
  cbn [walk rep_range forward at_end get inc]. destruct (Z.eqb_spec p 0); [lia|]. cbn [bind].
  unfold rep_inc at 1, calc. cbn [signed i64]. destruct (_ && _); cbn [bind]; [|discriminate].
  unfold rep_range, forward in IH. match goal with |- bind ?w _ <> _ => destruct w as [ys| | |] eqn:EW end; cbn [bind]; try discriminate.
  exfalso. refine (IH ys (p - 1) _ EW). lia.
Qed.

Lemma c155_step_l :
  forall (A B : Type) (l : list A) (m : list B) p q, 0 <= p < zlen l -> 0 <= q < zlen m ->
  zip_inc l m (p, q) = Ok (p + 1, q + 1) /\ zip_dec l m (p + 1, q + 1) = Ok (p, q).
Proof.
  intros A B l m p q P Q. unfold zip_inc, zip_dec. rewrite !zip_advance_ok by lia. split; [reflexivity|]. do 2 f_equal; lia.
Qed.

Lemma c158_add_l :
  forall (A : Type) (a : arg_it A) n, 0 <= m_pos a -> 0 <= n -> m_pos a + n < 2 ^ 31 ->
  times (Z.to_nat n) arg_inc a = arg_add a n /\ arg_add a n = Ok (Arg (m_argc a) (m_pos a + n) (m_argv a)).
Proof.
  intros A a n P N L. assert (C : forall z, - 2 ^ 31 <= z < 2 ^ 31 -> calc i32 z = Ok z).
  { intros z Hz. unfold calc. cbn [signed i32]. change (lowest i32) with (- 2 ^ 31). change (highest i32) with (2 ^ 31 - 1).
    replace (_ && _) with true by lia. reflexivity. }
  assert (T : forall k (b : arg_it A), 0 <= m_pos b -> m_pos b + Z.of_nat k < 2 ^ 31 ->
    times k arg_inc b = Ok (Arg (m_argc b) (m_pos b + Z.of_nat k) (m_argv b))).
  { induction k as [|k IH]; intros b Pb Lb; cbn [times]; [destruct b as [c0 p0 v0]; cbn [m_argc m_pos m_argv Z.of_nat]; rewrite Z.add_0_r; reflexivity|].
    unfold arg_inc at 1. rewrite C by lia. cbn [bind]. rewrite IH by (cbn [m_pos]; lia). cbn [m_argc m_pos m_argv]. do 2 f_equal. lia. }
  rewrite T by lia. unfold arg_add. assert (K : conv i32 n = n).
  { unfold conv, swrap. cbn [signed i32 width]. cbv zeta. rewrite Z.mod_small by lia. destruct (Z.ltb_spec n (2 ^ (32 - 1))); lia. }
  rewrite K, C by lia. cbn [bind]. rewrite Z2Nat.id by lia. split; reflexivity.
Qed.

Lemma c158_add_refuted_l :
  forall (A : Type) (a : arg_it A), 0 <= m_pos a < 2 ^ 31 -> arg_add a (2 ^ 32) = Ok a.
Proof.
  intros A a H. unfold arg_add. change (conv i32 (2 ^ 32)) with 0. rewrite Z.add_0_r. unfold calc. cbn [signed i32]. change (lowest i32) with (- 2 ^ 31). change (highest i32) with (2 ^ 31 - 1). replace (_ && _) with true by lia. cbn [bind]. destruct a; reflexivity.
Qed.
