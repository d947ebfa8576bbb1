(** Proofs about Atomics.v. *)
From Verif Require Import Common Ints Math SpecBits BitsProofs MathProofs Atomics SpecAtomics.
From Coq Require Import ZifyBool.
Open Scope Z_scope.
Local Arguments Z.mul : simpl never.
Local Arguments Z.add : simpl never.
Local Arguments Z.sub : simpl never.
Local Arguments Z.pow : simpl never.
Local Arguments Z.of_nat : simpl never.

(** ** Waiting *)
Section World.
Variable val : nat -> Z.
Variable clk : nat -> Z.
Variable ok : Z -> bool.

Lemma spin_value n : forall t, exists s, spin val ok n (val t) (S t) = (val s, S s) /\ (t <= s)%nat.
Proof.
  induction n as [|n IH]; intros t; cbn [spin].
  - exists t. auto.
  - destruct (ok (val t)); [exists t; auto|]. destruct (IH (S (S t))) as (s & E & L). exists s. split; [exact E | lia].
Qed.

Lemma calc_i64 z r : calc i64 z = Ok r -> r = z.
Proof.
  unfold calc. cbn [signed i64]. destruct (_ && _); intros H; inversion H; reflexivity.
Qed.

(** How the loop ends: the last load is at [s]. *)
Lemma poll_ends fuel start mx final : forall count t c n, poll_loop val clk ok fuel start mx final count t = Ok (c, n) ->
  exists s, c = val s /\ (t <= s < n)%nat /\ (n <= s + 3)%nat /\
    (ok c = true \/ (ok c = false /\ (final <= clk (S s) \/ (mx <= clk (S (S s)) - start /\ n = S (S (S s)))) /\ (S s < n)%nat)).
Proof.
  induction fuel as [|fuel IH]; intros count t c n H; cbn [poll_loop] in H; [discriminate|].
  unfold poll_fn in H. destruct (ok (val t)) eqn:K.
  - inversion H; subst. exists t. split; [auto|]. split; [lia|]. split; [lia|]. left. exact K.
  - destruct (Z.geb_spec (clk (S t)) final) as [G | G]; cbn iota in H.
    + inversion H; subst. exists t. split; [auto|]. split; [lia|]. split; [lia|]. right. split; [exact K|]. split; [left; lia | lia].
    + destruct (count <? 64)%nat.
      * destruct (IH _ _ _ _ H) as (s & E & L & B & R). exists s. split; [exact E|]. split; [lia|]. split; [lia | exact R].
      * destruct (calc i64 (clk (S (S t)) - start)) as [e| | |] eqn:C; cbn [bind] in H; try discriminate.
        apply calc_i64 in C. subst e. destruct (Z.geb_spec (clk (S (S t)) - start) mx) as [M | M].
        -- inversion H; subst. exists t. split; [auto|]. split; [lia|]. split; [lia|]. right. split; [exact K|].
           split; [right; split; [lia | reflexivity] | lia].
        -- destruct (IH _ _ _ _ H) as (s & E & L & B & R). exists s. split; [exact E|]. split; [lia|]. split; [lia | exact R].
Qed.

Lemma wait_parts fuel rel st n : wait_for val clk ok fuel rel = Ok (st, n) ->
  exists t0 s, (1 <= t0)%nat /\ (t0 < s < n)%nat /\ (n <= s + 3)%nat /\ st = (if ok (val s) then found else timeout) /\
    (ok (val s) = false -> (S s < n)%nat /\
       (clk 0 + rel <= clk (S s) \/ (rel <= clk (S (S s)) - clk t0 /\ n = S (S (S s))))).
Proof.
  unfold wait_for. intros H. destruct (calc i64 (clk 0 + rel)) as [f| | |] eqn:C; cbn [bind] in H; try discriminate.
  apply calc_i64 in C. subst f. destruct (spin_value 16 1) as (s0 & E & L). rewrite E in H.
  destruct (poll_loop _ _ _ _ _ _ _ _ _) as [[c m]| | |] eqn:P; cbn [bind] in H; try discriminate.
  inversion H; subst. destruct (poll_ends _ _ _ _ _ _ _ _ P) as (s & -> & L1 & B & R).
  exists (S s0), s. split; [lia|]. split; [lia|]. split; [lia|]. split; [reflexivity|].
  intros K. destruct R as [R | (_ & R & Q)]; [congruence|]. split; [exact Q | exact R].
Qed.

Lemma wait_found fuel rel n : wait_for val clk ok fuel rel = Ok (found, n) ->
  exists t, (t < n)%nat /\ ok (val t) = true.
Proof.
  intros H. destruct (wait_parts _ _ _ _ H) as (t0 & s & _ & L & _ & E & _). exists s. split; [lia|].
  destruct (ok (val s)); [reflexivity | discriminate].
Qed.

Lemma wait_timeout fuel rel n : (forall s t, (s <= t)%nat -> clk s <= clk t) ->
  wait_for val clk ok fuel rel = Ok (timeout, n) ->
  (exists t, (t < n)%nat /\ clk 0 + rel <= clk t) /\ exists t, (t < n <= t + 3)%nat /\ ok (val t) = false.
Proof.
  intros M H. destruct (wait_parts _ _ _ _ H) as (t0 & s & L0 & L & B & E & R).
  assert (K : ok (val s) = false) by (destruct (ok (val s)); [discriminate | reflexivity]). destruct (R K) as [Q X].
  split.
  - destruct X as [X | [X N]].
    + exists (S s). split; [exact Q | exact X].
    + exists (S (S s)). split; [lia|]. pose proof (M O t0 ltac:(lia)). lia.
  - exists s. split; [lia | exact K].
Qed.

Lemma poll_terminates start mx final t0 : (forall t, 0 <= clk t <= highest i64) -> 0 <= start <= highest i64 ->
  (forall t, (t0 <= t)%nat -> final <= clk t) \/ (forall t, (t0 <= t)%nat -> ok (val t) = true) ->
  forall fuel count t, (t0 < t + fuel)%nat -> (0 < fuel)%nat ->
  exists r, poll_loop val clk ok fuel start mx final count t = Ok r.
Proof.
  intros R RS A. induction fuel as [|fuel IH]; intros count t L P; [lia|]. cbn [poll_loop]. unfold poll_fn.
  destruct (ok (val t)) eqn:K; [eexists; reflexivity|].
  destruct (Z.geb_spec (clk (S t)) final) as [G | G]; [eexists; reflexivity|]. cbn iota.
  assert (TL : (t < t0)%nat).
  { destruct (Nat.lt_ge_cases t t0) as [X | X]; [exact X|]. exfalso. destruct A as [A | A].
    - specialize (A (S t) ltac:(lia)). lia.
    - specialize (A t X). congruence. }
  assert (TS : (S t < t0)%nat \/ (0 < fuel)%nat) by lia.
  destruct (Nat.eq_dec fuel 0) as [-> | NZ].
  { exfalso. lia. }
  destruct (count <? 64)%nat; [apply IH; lia|].
  assert (C : calc i64 (clk (S (S t)) - start) = Ok (clk (S (S t)) - start)).
  { apply calc_fits; [reflexivity|]. pose proof (R (S (S t))). unfold fits. change (lowest i64) with (- highest i64 - 1). lia. }
  rewrite C. cbn [bind]. destruct (_ >=? mx); [eexists; reflexivity|]. apply IH; lia.
Qed.

Lemma wait_terminates rel t0 : (forall t, 0 <= clk t <= highest i64) -> fits i64 (clk 0 + rel) ->
  (forall t, (t0 <= t)%nat -> clk 0 + rel <= clk t) \/ (forall t, (t0 <= t)%nat -> ok (val t) = true) ->
  exists r, wait_for val clk ok (S t0) rel = Ok r.
Proof.
  intros R F A. unfold wait_for. rewrite (calc_fits i64) by (reflexivity || exact F). cbn [bind].
  destruct (spin_value 16 1) as (s & E & L). rewrite E.
  destruct (poll_terminates (clk (S s)) rel (clk 0 + rel) t0 R (R _) A (S t0) 0 (S (S s)) ltac:(lia) ltac:(lia)) as ([c m] & P).
  rewrite P. cbn [bind]. eexists. reflexivity.
Qed.

Lemma wait_not_missed fuel rel st n t0 : (forall s t, (s <= t)%nat -> clk s <= clk t) ->
  (forall t, (t0 <= t)%nat -> ok (val t) = true) -> (forall t, (t <= t0 + 1)%nat -> clk t < clk 0 + rel) ->
  wait_for val clk ok fuel rel = Ok (st, n) -> st = found.
Proof.
  intros M A B H. destruct (wait_parts _ _ _ _ H) as (u & s & L0 & L & _ & E & R). rewrite E.
  destruct (ok (val s)) eqn:K; [reflexivity|]. exfalso.
  assert (s < t0)%nat. { destruct (Nat.lt_ge_cases s t0) as [X | X]; [exact X|]. rewrite (A s X) in K. discriminate. }
  destruct (R eq_refl) as [_ [X | [X _]]].
  - specialize (B (S s) ltac:(lia)). lia.
  - specialize (B (S (S s)) ltac:(lia)). pose proof (M O u ltac:(lia)). lia.
Qed.

Lemma wait_overflow fuel rel : ~ fits i64 (clk 0 + rel) -> wait_for val clk ok fuel rel = UB.
Proof.
  intros F. unfold wait_for. destruct (calc i64 (clk 0 + rel)) as [f| | |] eqn:C; [|reflexivity| |].
  - exfalso. apply F. unfold calc in C. cbn [signed i64] in C. unfold fits. destruct (_ && _) eqn:K in C; [|discriminate]. lia.
  - unfold calc in C. cbn [signed i64] in C. destruct (_ && _) in C; discriminate.
  - unfold calc in C. cbn [signed i64] in C. destruct (_ && _) in C; discriminate.
Qed.
End World.

Lemma std_wait_ok val fuel c : forall t n, std_wait val fuel c t = Ok n -> (t < n)%nat.
Proof.
  induction fuel as [|fuel IH]; intros t n H; cbn [std_wait] in H; [discriminate|].
  destruct (_ =? _); [apply IH in H; lia | inversion H; lia].
Qed.

Lemma wait_if_ok val fuel p : forall t c n, wait_if_loop val fuel p (val t) (S t) = Ok (c, n) ->
  exists s, c = val s /\ p c = true /\ n = S s /\ (t <= s)%nat.
Proof.
  induction fuel as [|fuel IH]; intros t c n H; cbn [wait_if_loop] in H.
  - destruct (p (val t)) eqn:P; [|discriminate]. inversion H; subst. exists t. auto.
  - destruct (p (val t)) eqn:P; [inversion H; subst; exists t; auto|].
    destruct (std_wait _ _ _ _) as [m| | |] eqn:W; cbn [bind] in H; try discriminate.
    apply std_wait_ok in W. destruct (IH _ _ _ H) as (s & E & Q & N & L). exists s. repeat split; auto. lia.
Qed.

Lemma std_wait_ends val c t0 : (forall t, (t0 <= t)%nat -> val t <> c) -> forall fuel t, (t0 < t + fuel)%nat -> (0 < fuel)%nat ->
  exists n, std_wait val fuel c t = Ok n.
Proof.
  intros A. induction fuel as [|fuel IH]; intros t L P; [lia|]. cbn [std_wait]. destruct (Z.eqb_spec (val t) c) as [E | NE].
  - destruct (Nat.lt_ge_cases t t0) as [X | X]; [|exfalso; exact (A t X E)]. apply IH; lia.
  - eexists. reflexivity.
Qed.

Lemma wait_if_ends val p t0 : (forall t, (t0 <= t)%nat -> p (val t) = true) ->
  forall fuel t, (t0 < t + fuel)%nat -> exists r, wait_if_loop val fuel p (val t) (S t) = Ok r.
Proof.
  intros A. induction fuel as [|fuel IH]; intros t L; cbn [wait_if_loop].
  - rewrite A by lia. eexists. reflexivity.
  - destruct (p (val t)) eqn:P; [eexists; reflexivity|].
    assert (D : forall u, (t0 <= u)%nat -> val u <> val t) by (intros u U E; specialize (A u U); rewrite E in A; congruence).
    destruct (std_wait_ends val (val t) t0 D (S fuel) (S t) ltac:(lia) ltac:(lia)) as (n & E). rewrite E. cbn [bind].
    pose proof (std_wait_ok _ _ _ _ _ E). apply IH. lia.
Qed.

(** ** allow_once *)
Lemma once_app b xs ys : once_run b (xs ++ ys) =
  once_run b xs ++ once_run (fold_left (fun b op => fst (once_step b op)) xs b) ys.
Proof.
  revert b. induction xs as [|x xs IH]; intros b; [reflexivity|]. cbn [app once_run fold_left].
  destruct (once_step b x) as [b' r] eqn:E. cbn [fst app]. rewrite IH. reflexivity.
Qed.

Lemma once_checks n b : fold_left (fun b op => fst (once_step b op)) (repeat OnceCheck n) b = (0 <? n)%nat || b.
Proof. revert b. induction n as [|n IH]; intros b; [reflexivity|]. cbn [repeat fold_left once_step fst]. rewrite IH. destruct n; reflexivity. Qed.

Lemma once_run_length b ops : length (once_run b ops) = length ops.
Proof. revert b. induction ops as [|x xs IH]; intros b; [reflexivity|]. cbn [once_run]. destruct (once_step b x). cbn. auto. Qed.

Lemma once_fresh n : once_run false (repeat OnceCheck (S n)) = Some false :: repeat (Some true) n.
Proof.
  cbn [repeat once_run once_step]. f_equal. induction n as [|n IH]; [reflexivity|]. cbn [repeat once_run once_step]. f_equal. exact IH.
Qed.

(** The answer to one call, after the calls [pre]. *)
Lemma once_answer pre post : nth_error (allow_once (pre ++ OnceCheck :: post)) (length pre) =
  Some (Some (fold_left (fun b op => fst (once_step b op)) pre false)).
Proof.
  unfold allow_once. rewrite once_app. rewrite nth_error_app2 by (rewrite once_run_length; lia).
  rewrite once_run_length, Nat.sub_diag. reflexivity.
Qed.

Lemma once_state_checked pre n : fold_left (fun b op => fst (once_step b op)) (pre ++ repeat OnceCheck (S n)) false = true.
Proof. rewrite fold_left_app, once_checks. reflexivity. Qed.

Lemma once_state_reset pre : fold_left (fun b op => fst (once_step b op)) (pre ++ [OnceReset]) false = false.
Proof. rewrite fold_left_app. reflexivity. Qed.

(** ** The counter of live objects *)
Lemma count_ok T : 0 < width T -> forall ops n, fits T n -> ~ In CountAssign ops ->
  count_run T n ops = Ok (conv T (n + fold_left (fun k op => match op with CountDestroy => k - 1 | _ => k + 1 end) ops 0)).
Proof.
  intros P. induction ops as [|op ops IH]; intros n F N.
  - cbn. rewrite Z.add_0_r, conv_id; auto.
  - assert (SH : forall k, fold_left (fun k op => match op with CountDestroy => k - 1 | _ => k + 1 end) ops k =
      k + fold_left (fun k op => match op with CountDestroy => k - 1 | _ => k + 1 end) ops 0).
    { clear. induction ops as [|o ops IH]; intros k; cbn [fold_left]; [lia|].
      destruct o; rewrite IH, (IH (0 + 1)) || rewrite IH, (IH (0 - 1)); lia. }
    assert (CC : forall a b, conv T (conv T a + b) = conv T (a + b)).
    { intros a b. rewrite <- (conv_wrap_arg T (conv T a + b)), <- (conv_wrap_arg T (a + b)) by auto. f_equal.
      unfold wrap. rewrite <- (Zplus_mod_idemp_l (conv T a)). fold (wrap (width T) (conv T a)).
      rewrite conv_wrap by auto. unfold wrap. apply Zplus_mod_idemp_l. }
    cbn [count_run]. destruct op; cbn [count_step bind fold_left]; try (exfalso; apply N; left; reflexivity);
      (rewrite IH; [|apply conv_fits; auto | intros I; apply N; right; exact I]); rewrite CC; do 2 f_equal;
      rewrite (SH (0 + 1)) || rewrite (SH (0 - 1)); lia.
Qed.

Lemma live_fold ops : forall k, fold_left (fun k op => match op with CountDestroy => k - 1 | _ => k + 1 end) ops k = k + live ops.
Proof.
  induction ops as [|o ops IH]; intros k; cbn [fold_left live]; [lia|]. destruct o; rewrite IH; lia.
Qed.

Lemma count_live T ops n : 0 < width T -> fits T n -> ~ In CountAssign ops -> count_run T n ops = Ok (conv T (n + live ops)).
Proof. intros P F N. rewrite count_ok by auto. rewrite live_fold. do 2 f_equal. Qed.

(** ** atomic<T> *)
Lemma conv_shift T a b : 0 < width T -> conv T (conv T a + b) = conv T (a + b).
Proof.
  intros P. rewrite <- (conv_wrap_arg T (conv T a + b)), <- (conv_wrap_arg T (a + b)) by auto. f_equal.
  unfold wrap. rewrite <- (Zplus_mod_idemp_l (conv T a)). fold (wrap (width T) (conv T a)).
  rewrite conv_wrap by auto. unfold wrap. apply Zplus_mod_idemp_l.
Qed.

Lemma step_adds T v op a : 0 < width T -> fits T v -> amount op = Some a ->
  exists r, atomic_step T false v op = Ok (conv T (v + a), r).
Proof.
  intros P F A. destruct op; cbn in A; inversion A; subst; cbn [atomic_step cx_arith bind]; eexists; try reflexivity.
  rewrite Z.add_0_r, conv_id by auto. reflexivity.
Qed.

Lemma run_adds T : 0 < width T -> forall ops v, fits T v -> Forall (fun op => amount op <> None) ops ->
  exists rs, atomic_run T false v ops = Ok (conv T (v + total ops), rs) /\ length rs = length ops.
Proof.
  intros P. induction ops as [|op ops IH]; intros v F A; cbn [atomic_run total].
  - rewrite Z.add_0_r, conv_id by auto. exists []. auto.
  - inversion A as [|? ? A0 A1]; subst. destruct (amount op) as [a|] eqn:E; [|congruence].
    destruct (step_adds T v op a P F E) as (r & S0). rewrite S0. cbn [bind].
    destruct (IH (conv T (v + a)) (conv_fits T _ P) A1) as (rs & R & L). rewrite R. cbn [bind].
    exists (r :: rs). split; [|cbn; auto]. rewrite conv_shift by auto. do 3 f_equal. lia.
Qed.

Lemma total_permutation xs ys : Permutation xs ys -> total xs = total ys.
Proof.
  induction 1; cbn [total]; lia.
Qed.

Lemma run_any_order T v ops threads : 0 < width T -> fits T v -> Forall (fun op => amount op <> None) ops ->
  Permutation ops (concat threads) -> exists rs, atomic_run T false v ops = Ok (conv T (v + total (concat threads)), rs).
Proof.
  intros P F A PE. destruct (run_adds T P ops v F A) as (rs & R & _). exists rs. rewrite R, (total_permutation _ _ PE). reflexivity.
Qed.

Lemma tickets T : 0 < width T -> forall n v, fits T v ->
  exists v', atomic_run T false v (repeat APostInc n) = Ok (v', map (fun i => RValue (conv T (v + Z.of_nat i))) (seq 0 n)).
Proof.
  intros P. induction n as [|n IH]; intros v F; cbn [repeat atomic_run].
  - eexists. reflexivity.
  - cbn [atomic_step cx_arith bind]. destruct (IH (conv T (v + 1)) (conv_fits T _ P)) as (v' & R). rewrite R. cbn [bind].
    exists v'. do 2 f_equal. cbn [seq map]. f_equal.
    + rewrite Z.add_0_r, conv_id by auto. reflexivity.
    + rewrite <- seq_shift, map_map. apply map_ext. intros i. f_equal. rewrite conv_shift by auto. f_equal. lia.
Qed.

Lemma conv_inj T a b : 0 < width T -> conv T a = conv T b -> (a - b) mod 2 ^ width T = 0.
Proof.
  intros P E. apply (f_equal (wrap (width T))) in E. rewrite !conv_wrap in E by auto. unfold wrap in E.
  rewrite Zminus_mod, E, Z.sub_diag. apply Z.mod_0_l. pose proof (pow_pos (width T)). lia.
Qed.

Lemma map_nodup {A B} (f : A -> B) l : NoDup l -> (forall x y, In x l -> In y l -> f x = f y -> x = y) -> NoDup (map f l).
Proof.
  induction 1 as [|x l N D IH]; intros I; cbn [map]; constructor.
  - intros J. apply in_map_iff in J. destruct J as (y & E & J). apply N. rewrite (I x y); auto; [left | right]; auto.
  - apply IH. intros y z Y Z. apply I; right; auto.
Qed.

Lemma tickets_distinct T v n : 0 < width T -> Z.of_nat n <= 2 ^ width T ->
  NoDup (map (fun i => RValue (conv T (v + Z.of_nat i))) (seq 0 n)).
Proof.
  intros P L. apply map_nodup; [apply seq_NoDup|].
  intros i j I J E. apply in_seq in I, J. inversion E as [E']. apply conv_inj in E'; [|auto].
  replace (v + Z.of_nat i - (v + Z.of_nat j)) with (Z.of_nat i - Z.of_nat j) in E' by lia.
  pose proof (pow_pos (width T)).
  assert (Q : Z.of_nat i - Z.of_nat j = 0).
  { apply Z.mod_divide in E'; [|lia]. destruct E' as [q E']. assert (q = 0) by nia. nia. }
  lia.
Qed.

Lemma cas_losers T c e ds : forall v, v <> e ->
  atomic_run T c v (map (ACas e) ds) = Ok (v, map (fun _ => RCas false v) ds).
Proof.
  induction ds as [|d ds IH]; intros v N; cbn [map atomic_run atomic_step]; [reflexivity|].
  replace (v =? e) with false by lia. cbn [bind]. rewrite IH by auto. reflexivity.
Qed.

Lemma cas_winner T c e d ds : d <> e ->
  atomic_run T c e (map (ACas e) (d :: ds)) = Ok (d, RCas true e :: map (fun _ => RCas false d) ds).
Proof.
  intros N. cbn [map atomic_run atomic_step]. rewrite Z.eqb_refl. cbn [bind]. rewrite cas_losers by auto. reflexivity.
Qed.

Lemma cx_agrees T z r : std_width (width T) -> assign_op T z = Ok r -> r = conv T z.
Proof.
  intros H E. unfold assign_op in E. destruct (calc (promote T) z) as [x| | |] eqn:C; cbn [bind] in E; try discriminate.
  inversion E; subst. unfold calc in C. destruct (signed (promote T)) eqn:SG.
  - destruct (_ && _); inversion C. reflexivity.
  - inversion C; subst. unfold promote in *. destruct (width T <? 32) eqn:L; [discriminate SG|].
    apply conv_wrap_arg. apply std_pos. auto.
Qed.

Lemma step_agrees T v op r : std_width (width T) -> atomic_step T true v op = Ok r -> atomic_step T false v op = Ok r.
Proof.
  intros H E. destruct op; cbn [atomic_step cx_arith bind] in *; auto;
    match goal with E : (_ <- assign_op T ?z ;; _) = _ |- _ =>
      destruct (assign_op T z) as [x| | |] eqn:C; cbn [bind] in E; try discriminate;
      apply cx_agrees in C; [subst x; exact E | exact H] end.
Qed.

Lemma run_agrees T : std_width (width T) -> forall ops v r, atomic_run T true v ops = Ok r -> atomic_run T false v ops = Ok r.
Proof.
  intros H. induction ops as [|op ops IH]; intros v r E; cbn [atomic_run] in *; [exact E|].
  destruct (atomic_step T true v op) as [[w q]| | |] eqn:ES; cbn [bind] in E; try discriminate.
  rewrite (step_agrees _ _ _ _ H ES). cbn [bind].
  destruct (atomic_run T true w ops) as [p| | |] eqn:R; cbn [bind] in E; try discriminate.
  rewrite (IH _ _ R). exact E.
Qed.

(** The change seen before the poll loop is forgotten. *)
Lemma wait_lost val clk ok rel t0 : clock_fits clk -> fits i64 (clk 0%nat + rel) ->
  (forall t, (t0 <= t)%nat -> clk 0%nat + rel <= clk t) ->
  ok (val 1%nat) = true -> (forall t, (2 <= t)%nat -> ok (val t) = false) ->
  exists n, wait_for val clk ok (S t0) rel = Ok (timeout, n).
Proof.
  intros CF F D _ NO. destruct (wait_terminates val clk ok rel t0 CF F (or_introl D)) as [[st n] W].
  exists n. rewrite W. destruct (wait_parts val clk ok (S t0) rel st n W) as (s0 & s & A & B & _ & ST & _).
  rewrite NO in ST by lia. subst st. reflexivity.
Qed.

Lemma wait_if_holds val fuel p c n : atomic_wait_if val fuel p = Ok (c, n) -> exists t, c = val t /\ p c = true /\ n = S t.
Proof. intros H. destruct (wait_if_ok val fuel p 0 c n H) as (s & A & B & C & _). eauto. Qed.
Lemma wait_equal_holds val fuel d c n : atomic_wait_value_equal val fuel d = Ok (c, n) -> c = d.
Proof. intros H. destruct (wait_if_holds _ _ _ _ _ H) as (s & A & B & C). apply Z.eqb_eq. exact B. Qed.
Lemma wait_if_terminates val p t0 : (forall t, (t0 <= t)%nat -> p (val t) = true) -> exists r, atomic_wait_if val (S t0) p = Ok r.
Proof. intros H. apply (wait_if_ends val p t0 H). lia. Qed.

Definition is_reset (op : once_op) : bool := match op with OnceReset => true | _ => false end.
Lemma once_fold ops : forall b, fold_left (fun b op => fst (once_step b op)) ops b =
  checked_since_reset ops || (b && negb (existsb is_reset ops)).
Proof.
  induction ops as [|[|] ops IH]; intros b; cbn [fold_left once_step fst checked_since_reset existsb is_reset].
  - rewrite andb_true_r. reflexivity.
  - rewrite IH. change (fun op => match op with OnceReset => true | _ => false end) with is_reset.
    destruct (checked_since_reset ops), (existsb is_reset ops), b; reflexivity.
  - rewrite IH. cbn. rewrite andb_false_r. reflexivity.
Qed.
Lemma once_meaning pre post : nth_error (allow_once (pre ++ OnceCheck :: post)) (length pre) = Some (Some (checked_since_reset pre)).
Proof. rewrite once_answer, once_fold. rewrite orb_false_r. reflexivity. Qed.
Lemma once_after_reset pre n post :
  firstn (S n) (skipn (length pre + 1) (allow_once (pre ++ OnceReset :: repeat OnceCheck (S n) ++ post))) =
  Some false :: repeat (Some true) n.
Proof.
  unfold allow_once. rewrite once_app. rewrite skipn_app, once_run_length.
  rewrite (skipn_all2 (once_run false pre)) by (rewrite once_run_length; lia).
  replace (length pre + 1 - length pre)%nat with 1%nat by lia.
  cbn [app once_run once_step skipn]. rewrite once_app, once_fresh.
  rewrite firstn_app. cbn [length]. rewrite repeat_length, Nat.sub_diag. rewrite app_nil_r.
  rewrite firstn_all2; [reflexivity|]. cbn. rewrite repeat_length. lia.
Qed.

Lemma count_exact T ops n : 0 < width T -> fits T n -> ~ In CountAssign ops -> fits T (n + live ops) ->
  count_run T n ops = Ok (n + live ops).
Proof. intros W F N F2. rewrite count_live by auto. rewrite conv_id by auto. reflexivity. Qed.

Lemma tickets_all T n v : 0 < width T -> fits T v -> Z.of_nat n <= 2 ^ width T ->
  exists v' rs, atomic_run T false v (repeat APostInc n) = Ok (v', rs) /\ length rs = n /\ NoDup rs /\
    forall i, (i < n)%nat -> nth_error rs i = Some (RValue (conv T (v + Z.of_nat i))).
Proof.
  intros W F N. destruct (tickets T W n v F) as [v' R]. exists v'. eexists. split; [exact R|].
  split; [rewrite map_length, seq_length; reflexivity|]. split; [apply tickets_distinct; auto|].
  intros i Hi. apply (map_nth_error (fun i => RValue (conv T (v + Z.of_nat i)))).
  rewrite (nth_error_nth' _ 0%nat) by (rewrite seq_length; auto). rewrite seq_nth by auto. reflexivity.
Qed.

Lemma atomic_bits T c v a k : exists v1 v2 v3,
  atomic_run T c v [AFetchAnd a] = Ok (v1, [RValue v]) /\ Z.testbit v1 k = Z.testbit v k && Z.testbit a k /\
  atomic_run T c v [AFetchOr a] = Ok (v2, [RValue v]) /\ Z.testbit v2 k = Z.testbit v k || Z.testbit a k /\
  atomic_run T c v [AFetchXor a] = Ok (v3, [RValue v]) /\ Z.testbit v3 k = xorb (Z.testbit v k) (Z.testbit a k).
Proof.
  do 3 eexists. split; [reflexivity|]. split; [apply Z.land_spec|]. split; [reflexivity|]. split; [apply Z.lor_spec|].
  split; [reflexivity | apply Z.lxor_spec].
Qed.

Lemma step_result T v op a : 0 < width T -> fits T v -> amount op = Some a ->
  atomic_step T false v op = Ok (conv T (v + a), RValue (if returns_old op then v else conv T (v + a))).
Proof.
  intros W F A. destruct op; cbn in A; try discriminate; inversion A; subst; cbn [atomic_step cx_arith bind returns_old];
    try (rewrite ?Z.add_opp_r; reflexivity).
  rewrite Z.add_0_r, conv_id by auto. reflexivity.
Qed.
