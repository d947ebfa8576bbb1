(** Proofs about the pipelines. *)
From Verif Require Import Common Ints Math SpecBits BitsProofs MathProofs CommonProofs Pipelines SpecPipes.
From Coq Require Import Lia ZifyBool.
Open Scope Z_scope.
Local Arguments Z.mul : simpl never.
Local Arguments Z.add : simpl never.
Local Arguments Z.sub : simpl never.
Local Arguments Z.pow : simpl never.
Local Arguments Z.of_nat : simpl never.

(** ** Loops *)
Lemma yields_weaken {A} b (r : range A) s xs : yields b r s xs -> yields false r s xs.
Proof. induction 1; econstructor; eauto; discriminate. Qed.
Lemma lists_visits {A} (r : range A) xs : lists r xs -> visits r xs.
Proof. apply yields_weaken. Qed.

Lemma walk_yields {A} b (r : range A) s xs :
  yields b r s xs -> forall fuel, (length xs < fuel)%nat -> walk fuel r s = Ok xs.
Proof.
  induction 1 as [s E _|s x s' xs E G N _ Y IH]; intros [|fuel] F; cbn in F; try lia; cbn [walk]; rewrite E; auto.
  rewrite G. cbn. rewrite N. cbn. rewrite IH by lia. reflexivity.
Qed.
Lemma yields_walk {A} (r : range A) fuel : forall s xs, walk fuel r s = Ok xs -> yields false r s xs.
Proof.
  induction fuel as [|fuel IH]; intros s xs; cbn [walk]; [discriminate|].
  destruct (at_end r s) eqn:E; intros W.
  - injection W as <-. constructor; auto. discriminate.
  - destruct (get r s) eqn:G; cbn in W; try discriminate.
    destruct (inc r s) as [t| | |] eqn:N; cbn in W; try discriminate.
    destruct (walk fuel r t) eqn:W'; cbn in W; try discriminate. injection W as <-.
    econstructor; eauto. discriminate.
Qed.
Lemma visits_for_each {A} (r : range A) xs : visits r xs <-> exists fuel, for_each fuel r = Ok xs.
Proof.
  split.
  - intros H. exists (S (length xs)). eapply walk_yields; [exact H|lia].
  - intros [fuel H]. eapply yields_walk, H.
Qed.
Lemma yields_fun {A} (r : range A) b c s xs : yields b r s xs -> forall ys, yields c r s ys -> xs = ys.
Proof.
  induction 1 as [s E _|s x s' xs E G N _ Y IH]; intros ys Y'; inversion Y' as [t E'|t y t' zs E' G' N' _ Y'']; subst; auto; try congruence.
  rewrite G in G'. injection G' as <-. rewrite N in N'. injection N' as <-. f_equal. auto.
Qed.

Lemma yields_distance {A} (r : range A) s xs fuel :
  yields true r s xs -> (length xs < fuel)%nat -> distance fuel r s = Ok (Z.of_nat (length xs)).
Proof.
  intros Y F. unfold distance. destruct (random r) eqn:R.
  - inversion Y; subst; auto.
  - clear R. revert fuel F. induction Y as [s E D|s x s' xs E G N D Y IH]; intros [|fuel] F; cbn in F; try lia; cbn [count_steps]; rewrite E; auto.
    rewrite N. cbn [bind]. rewrite IH by lia. cbn. f_equal. cbn [length]. lia.
Qed.
Lemma yields_count {A} b (r : range A) s xs fuel :
  yields b r s xs -> (length xs < fuel)%nat -> count_steps fuel r s = Ok (Z.of_nat (length xs)).
Proof.
  intros Y. revert fuel. induction Y as [s E D|s x s' xs E G N D Y IH]; intros [|fuel] F; cbn in F; try lia; cbn [count_steps]; rewrite E; auto.
  rewrite N. cbn [bind]. rewrite IH by lia. cbn. f_equal. cbn [length]. lia.
Qed.

Lemma yields_from {A} b (r : range A) t s xs : yields b r s xs -> yields b (from r t) s xs.
Proof. induction 1; econstructor; eauto. Qed.
Lemma lists_from {A} (r : range A) s xs : yields true r s xs -> lists (from r s) xs.
Proof. apply yields_from. Qed.

Lemma next_yields {A} b (r : range A) n : forall s xs,
  yields b r s xs -> (n <= length xs)%nat -> exists s', next r s n = Ok s' /\ yields b r s' (skipn n xs).
Proof.
  induction n as [|n IH]; intros s xs Y L; cbn [next skipn]; [eauto|].
  inversion Y as [t E|t x s' ys E G N D Y']; subst; cbn in L; [lia|].
  rewrite N. cbn. apply IH; [auto|lia].
Qed.
Lemma next_n_yields {A} b (r : range A) n : forall s xs,
  yields b r s xs -> (n <= length xs)%nat -> next_n r s n = Ok (firstn n xs).
Proof.
  induction n as [|n IH]; intros s xs Y L; cbn [next_n firstn]; auto.
  inversion Y as [t E|t x s' ys E G N D Y']; subst; cbn in L; [lia|].
  rewrite G. cbn. rewrite N. cbn. rewrite (IH _ _ Y') by lia. reflexivity.
Qed.
Lemma safe_next_yields {A} b (r : range A) n : forall s xs,
  yields b r s xs -> exists s', safe_next r s n = Ok s' /\ yields b r s' (skipn n xs).
Proof.
  induction n as [|n IH]; intros s xs Y; cbn [safe_next skipn]; [eauto|].
  inversion Y as [t E|t x s' ys E G N D Y']; subst; rewrite E.
  - eauto.
  - rewrite N. cbn. apply IH. auto.
Qed.

(** ** Arrays *)
Lemma of_list_yields {A} (l : list A) i : (i <= length l)%nat -> yields true (of_list l) i (skipn i l).
Proof.
  remember (length l - i)%nat as k eqn:K. revert i K. induction k as [|k IH]; intros i K L.
  - assert (i = length l) as -> by lia. rewrite skipn_all.
    constructor; cbn; [apply Nat.eqb_refl|]. intros _ _. f_equal. lia.
  - assert (exists x, nth_error l i = Some x) as [x X].
    { destruct (nth_error l i) eqn:X; eauto. apply nth_error_None in X. lia. }
    assert (E : skipn i l = x :: skipn (S i) l).
    { clear - X. revert l X. induction i; intros [|y l] X; cbn in *; try discriminate; [congruence|auto]. }
    rewrite E. apply (yields_step true (of_list l) i x (S i)); cbn [at_end get inc random rdist of_list].
    + apply Nat.eqb_neq. lia.
    + unfold rd. rewrite X. reflexivity.
    + destruct (i <? length l)%nat eqn:Q; [reflexivity|lia].
    + intros _ _. f_equal. rewrite <- E, skipn_length. lia.
    + apply IH; lia.
Qed.
Lemma of_list_lists {A} (l : list A) : lists (of_list l) l.
Proof. apply (of_list_yields l 0). lia. Qed.

(** ** Map *)
Lemma map_yields {A B} b (f : A -> B) p (r : range A) s xs :
  yields b r s xs -> yields b (Map f p r) s (map f xs).
Proof.
  induction 1 as [s E D|s x s' xs E G N D Y IH]; cbn [map].
  - constructor; auto.
  - econstructor; cbn; eauto; [rewrite G; reflexivity|]. cbn [length] in D. rewrite map_length. exact D.
Qed.
Lemma map_lists {A B} (f : A -> B) p (r : range A) xs : lists r xs -> lists (Map f p r) (map f xs).
Proof. apply map_yields. Qed.
Lemma map_visits {A B} (f : A -> B) p (r : range A) xs : visits r xs -> visits (Map f p r) (map f xs).
Proof. apply map_yields. Qed.

(** ** Filter *)
Fixpoint sfilter {A Q} (pred : Q -> A -> bool * Q) (q : Q) (l : list A) : list A :=
  match l with
  | [] => []
  | x :: l => let (b, q) := pred q x in if b then x :: sfilter pred q l else sfilter pred q l
  end.
Lemma skip_filtered_yields {A Q} (pred : Q -> A -> bool * Q) (r : range A) b s xs :
  yields b r s xs -> forall fuel q, (length xs < fuel)%nat ->
  exists s' q', skip_filtered pred r fuel s q = Ok (s', q') /\
    match sfilter pred q xs with
    | [] => yields b r s' []
    | y :: ys => exists zs, yields b r s' (y :: zs) /\ ys = sfilter pred q' zs /\ (length zs < length xs)%nat
    end.
Proof.
  induction 1 as [s E D|s x s' xs E G N D Y IH]; intros [|fuel] q F; cbn in F; try lia; cbn [skip_filtered sfilter]; rewrite E.
  - exists s, q. split; auto. constructor; auto.
  - rewrite G. cbn [bind]. destruct (pred q x) as [[|] q'].
    + exists s, q'. split; auto. exists xs. split; [econstructor; eauto|]. split; auto.
    + rewrite N. cbn [bind]. destruct (IH fuel q') as (s1 & q1 & E1 & M); [lia|]. exists s1, q1. split; auto.
      destruct (sfilter pred q' xs); auto. destruct M as (zs & ? & ? & ?). exists zs. split; [auto|]. split; [auto|]. cbn. lia.
Qed.
Lemma filter_view_lists {A Q} (pred : Q -> A -> bool * Q) (r : range A) xs fuel q :
  visits r xs -> (length xs < fuel)%nat ->
  exists r', filter_view fuel pred r q = Ok r' /\ lists r' (sfilter pred q xs).
Proof.
  intros Y F. unfold filter_view.
  destruct (skip_filtered_yields pred r _ _ _ Y fuel q F) as (s' & q' & E & M). rewrite E. cbn [bind].
  eexists. split; [reflexivity|]. unfold lists. cbn [cur].
  assert (G : forall n s q ys b (xs : list A), (length xs <= n)%nat -> (length xs < fuel)%nat ->
    match ys with [] => yields b r s [] | y :: ys => exists zs, yields b r s (y :: zs) /\ ys = sfilter pred q zs /\ (length zs < length xs)%nat end ->
    yields true (Range (st r * Q) (s', q') (fun sq => at_end r (fst sq)) (fun sq => get r (fst sq))
       (fun sq => s <- inc r (fst sq) ;; skip_filtered pred r fuel s (snd sq)) false (fun _ => UB)) (s, q) ys).
  { clear. induction n as [|n IH]; intros s q ys b xs L F M; destruct ys as [|y ys].
    - inversion M; subst. constructor; auto; discriminate.
    - destruct M as (zs & _ & _ & ?). lia.
    - inversion M; subst. constructor; auto; discriminate.
    - destruct M as (zs & Y & -> & L'). inversion Y as [|t x s1 ws E G N D Y']; subst.
      destruct (skip_filtered_yields pred r _ _ _ Y' fuel q) as (s2 & q2 & E2 & M2); [lia|].
      econstructor; cbn; eauto; try discriminate.
      + rewrite N. cbn. apply E2.
      + eapply IH; [| |exact M2]; lia. }
  eapply G; [apply le_n|exact F|exact M].
Qed.

Lemma sfilter_filter {A} (p : A -> bool) q xs : sfilter (fun (_ : unit) x => (p x, tt)) q xs = filter p xs.
Proof. revert q. induction xs as [|x xs IH]; intros q; cbn; auto. rewrite IH. destruct (p x); auto. Qed.
Lemma filter_lists {A} (p : A -> bool) (r : range A) xs fuel :
  visits r xs -> (length xs < fuel)%nat -> exists r', Filter fuel p r = Ok r' /\ lists r' (filter p xs).
Proof. intros. rewrite <- (sfilter_filter p tt). apply filter_view_lists; auto. Qed.
Lemma take_until_on {A} (fn : A -> bool) xs : sfilter (take_until_fn fn) true xs = [].
Proof. induction xs; cbn; auto. Qed.
Lemma take_until_lists {A} (p : A -> bool) (r : range A) xs fuel :
  visits r xs -> (length xs < fuel)%nat ->
  exists r', TakeUntil fuel p r = Ok r' /\ lists r' (take_while (fun x => negb (p x)) xs).
Proof.
  intros. assert (E : sfilter (take_until_fn p) false xs = take_while (fun x => negb (p x)) xs).
  { clear. induction xs as [|x xs IH]; auto. cbn. destruct (p x); cbn; [apply take_until_on|]. rewrite IH. auto. }
  rewrite <- E. apply filter_view_lists; auto.
Qed.
Lemma take_while_on {A} (fn : A -> bool) xs : sfilter (take_while_fn fn) true xs = xs.
Proof. induction xs; cbn; congruence. Qed.
Lemma take_while_drops {A} (p : A -> bool) (r : range A) xs fuel :
  visits r xs -> (length xs < fuel)%nat ->
  exists r', TakeWhile fuel p r = Ok r' /\ lists r' (drop_while p xs).
Proof.
  intros. assert (E : sfilter (take_while_fn p) false xs = drop_while p xs).
  { clear. induction xs as [|x xs IH]; auto. cbn. destruct (p x); cbn; [auto|]. rewrite take_while_on. auto. }
  rewrite <- E. apply filter_view_lists; auto.
Qed.
(** Every: with [n] the elements since the last one taken *)
Lemma every_from {A} k (xs : list A) : forall c,
  1 <= c <= k -> k < 2 ^ 64 ->
  forall j, nth_error (sfilter (every_fn k) c xs) j = nth_error xs (Z.to_nat (k - c) + j * Z.to_nat k).
Proof.
  induction xs as [|x xs IH]; intros c C K j.
  - cbn. destruct j; destruct (Z.to_nat (k - c) + _)%nat; reflexivity.
  - cbn [sfilter]. unfold every_fn at 1. destruct (c >=? k) eqn:E.
    + assert (c = k) as -> by lia. rewrite Z.sub_diag. cbn [Z.to_nat Nat.add]. destruct j as [|j]; [reflexivity|].
      cbn [nth_error]. rewrite IH by lia.
      replace (S j * Z.to_nat k)%nat with (S (Z.to_nat (k - 1) + j * Z.to_nat k)); [reflexivity|].
      cbn [Nat.mul]. lia.
    + unfold sz. rewrite Z.mod_small by lia. rewrite IH by lia.
      replace (Z.to_nat (k - c)) with (S (Z.to_nat (k - (c + 1)))) by lia. reflexivity.
Qed.
Lemma every_lists {A} k (r : range A) xs fuel :
  visits r xs -> (length xs < fuel)%nat -> 1 <= k < 2 ^ 64 ->
  exists r' ys, Every fuel k r = Ok r' /\ lists r' ys /\
    forall j, nth_error ys j = nth_error xs (j * Z.to_nat k).
Proof.
  intros Y F K. destruct (filter_view_lists (every_fn k) r xs fuel k Y F) as (r' & E & L).
  exists r', (sfilter (every_fn k) k xs). split; [exact E|]. split; [exact L|].
  intros j. rewrite every_from by lia. rewrite Z.sub_diag. reflexivity.
Qed.

(** ** Take, Skip, Drop *)
Lemma conv_i64 n : 0 <= n < 2 ^ 63 -> conv i64 n = n.
Proof. intros. apply conv_id; [cbn; lia|]. unfold fits, lowest, highest; cbn; lia. Qed.
Lemma conv_u64 n : 0 <= n < 2 ^ 64 -> conv u64 n = n.
Proof. intros. apply conv_id; [cbn; lia|]. unfold fits, lowest, highest; cbn; lia. Qed.
Lemma calc_i64 n : - 2 ^ 63 <= n < 2 ^ 63 -> calc i64 n = Ok n.
Proof. intros. apply calc_fits; [cbn; lia|]. unfold fits, lowest, highest; cbn; lia. Qed.

Lemma sized_yields {A} (r : range A) b s xs h : yields b r s xs -> forall n, (n <= length xs)%nat ->
  Z.of_nat n < 2 ^ 63 ->
  yields true (sized_range r h) (s, Z.of_nat n) (firstn n xs).
Proof.
  induction 1 as [s E D|s x s' xs E G N D Y IH]; intros n L B; cbn in L.
  - destruct n; [|lia]. constructor; cbn; auto.
  - destruct n as [|n]; [constructor; cbn; auto|]. cbn [firstn]. econstructor; cbn -[calc]; eauto.
    + rewrite calc_i64 by lia. cbn. rewrite N. cbn. reflexivity.
    + intros _ _. rewrite firstn_length. f_equal. lia.
    + replace (Z.of_nat (S n) - 1) with (Z.of_nat n) by lia. apply IH; lia.
Qed.
Lemma take_lists {A} n (r : range A) xs fuel :
  lists r xs -> (length xs < fuel)%nat -> Z.of_nat (length xs) < 2 ^ 63 -> 0 <= n < 2 ^ 63 ->
  exists r', Take fuel n r = Ok r' /\ lists r' (firstn (Z.to_nat n) xs).
Proof.
  intros Y F B Nn. unfold Take. rewrite (yields_distance r _ xs) by auto. cbn [bind]. rewrite conv_i64 by lia.
  eexists. split; [reflexivity|]. unfold lists.
  set (m := Z.min _ _). assert (M : 0 <= m < 2 ^ 63) by lia.
  rewrite conv_u64 by lia. cbn [cur sized_range]. rewrite conv_i64 by lia.
  replace (firstn (Z.to_nat n) xs) with (firstn (Z.to_nat m) xs).
  - pose proof (sized_yields r true (cur r) xs m Y (Z.to_nat m)) as H. rewrite Z2Nat.id in H by lia. apply H; lia.
  - unfold m. destruct (Z.le_gt_cases n (Z.of_nat (length xs))).
    + rewrite Z.min_r by lia. reflexivity.
    + rewrite Z.min_l by lia. rewrite Nat2Z.id, firstn_all. symmetry. apply firstn_all2. lia.
Qed.
Lemma skip_lists {A} n (r : range A) xs fuel :
  lists r xs -> (length xs < fuel)%nat -> 0 <= n < 2 ^ 63 ->
  exists r', Skip fuel n r = Ok r' /\ lists r' (skipn (Z.to_nat n) xs).
Proof.
  intros Y F Nn. unfold Skip. rewrite (yields_distance r _ xs) by auto. cbn [bind]. rewrite conv_i64 by lia.
  set (m := Z.min _ _). replace (m <? 0) with false by lia.
  destruct (next_yields true r (Z.to_nat m) (cur r) xs Y) as (s' & E & Y'); [lia|].
  rewrite E. cbn. eexists. split; [reflexivity|]. apply lists_from.
  replace (skipn (Z.to_nat n) xs) with (skipn (Z.to_nat m) xs); [exact Y'|].
  unfold m. destruct (Z.le_gt_cases n (Z.of_nat (length xs))).
  - rewrite Z.min_l by lia. reflexivity.
  - rewrite Z.min_r by lia. rewrite Nat2Z.id, skipn_all. symmetry. apply skipn_all2. lia.
Qed.
Lemma drop_loop_yields {A} b (stop : A -> bool) (r : range A) s xs :
  yields b r s xs -> forall fuel, (length xs < fuel)%nat ->
  exists s', drop_loop fuel stop r s = Ok s' /\ yields b r s' (drop_while (fun x => negb (stop x)) xs).
Proof.
  induction 1 as [s E D|s x s' xs E G N D Y IH]; intros [|fuel] F; cbn in F; try lia; cbn [drop_loop drop_while]; rewrite E.
  - exists s. split; auto. constructor; auto.
  - rewrite G. cbn [bind]. destruct (stop x); cbn [negb].
    + exists s. split; auto. econstructor; eauto.
    + rewrite N. cbn [bind]. apply IH. lia.
Qed.
Lemma drop_until_lists {A} (p : A -> bool) (r : range A) xs fuel :
  lists r xs -> (length xs < fuel)%nat ->
  exists r', DropUntil fuel p r = Ok r' /\ lists r' (drop_while (fun x => negb (p x)) xs).
Proof.
  intros Y F. destruct (drop_loop_yields true p r (cur r) xs Y fuel F) as (s' & E & Y').
  unfold DropUntil. rewrite E. cbn. eexists. split; [reflexivity|]. apply lists_from, Y'.
Qed.
Lemma drop_while_ext {A} (p q : A -> bool) xs : (forall x, p x = q x) -> drop_while p xs = drop_while q xs.
Proof. intros E. induction xs; cbn; auto. rewrite E, IHxs. reflexivity. Qed.
Lemma drop_while_lists {A} (p : A -> bool) (r : range A) xs fuel :
  lists r xs -> (length xs < fuel)%nat ->
  exists r', DropWhile fuel p r = Ok r' /\ lists r' (drop_while p xs).
Proof.
  intros Y F. destruct (drop_loop_yields true (fun x => negb (p x)) r (cur r) xs Y fuel F) as (s' & E & Y').
  unfold DropWhile. rewrite E. cbn. eexists. split; [reflexivity|]. apply lists_from.
  erewrite drop_while_ext; [exact Y'|]. intros. cbn. rewrite negb_involutive. reflexivity.
Qed.

(** Huge counts *)
Lemma conv_i64_big n : 2 ^ 63 <= n < 2 ^ 64 -> conv i64 n = n - 2 ^ 64.
Proof.
  intros. unfold conv, swrap. cbn [signed width i64]. rewrite Z.mod_small by lia.
  destruct (_ <? _) eqn:Q; lia.
Qed.
Lemma sized_neg {A} (l : list A) h k : forall i c fuel,
  (length l - i <= k)%nat -> (k < fuel)%nat -> c < 0 ->
  walk fuel (sized_range (of_list l) h) (i, c) = UB.
Proof.
  induction k as [|k IH]; intros i c [|fuel] K F C; try lia; cbn [walk at_end sized_range snd]; replace (c =? 0) with false by lia;
    cbn [get sized_range of_list fst]; unfold rd.
  - rewrite (proj2 (nth_error_None l i)) by lia. reflexivity.
  - destruct (nth_error l i) eqn:X; cbn [bind]; auto. cbn [inc sized_range snd fst].
    destruct (calc i64 (c - 1)) eqn:Q; cbn [bind]; auto; unfold calc in Q; cbn [signed i64] in Q; destruct (_ && _) in Q; try discriminate.
    injection Q as <-. cbn [inc of_list].
    assert (i < length l)%nat by (apply nth_error_Some; congruence).
    rewrite (proj2 (Nat.ltb_lt i (length l))) by lia. cbn [bind]. rewrite IH by lia. reflexivity.
Qed.
Lemma take_huge {A} n (l : list A) : 2 ^ 63 <= n < 2 ^ 64 -> Z.of_nat (length l) < 2 ^ 63 ->
  exists r', Take (S (length l)) n (of_list l) = Ok r' /\
    forall fuel, (length l < fuel)%nat -> for_each fuel r' = UB.
Proof.
  intros H B. unfold Take, distance. cbn [random of_list rdist cur bind]. rewrite conv_i64_big by lia.
  eexists. split; [reflexivity|]. intros fuel F. unfold for_each. cbn [cur sized_range].
  rewrite Z.min_r by lia.
  apply (sized_neg l _ (length l)); try lia.
  unfold conv. cbn [signed u64 i64 width]. unfold wrap, swrap.
  replace (n - 2 ^ 64) with (n + (-1) * 2 ^ 64) by lia. rewrite Z.mod_add, (Z.mod_small n), (Z.mod_small n) by lia.
  destruct (_ <? _) eqn:Q; lia.
Qed.
Lemma skip_huge {A} n (r : range A) xs fuel : 2 ^ 63 <= n < 2 ^ 64 ->
  lists r xs -> (length xs < fuel)%nat -> Skip fuel n r = UB.
Proof.
  intros H Y F. unfold Skip. rewrite (yields_distance r _ xs) by auto. cbn [bind]. rewrite conv_i64_big by lia.
  replace (_ <? 0) with true by lia. reflexivity.
Qed.

(** ** Chunk *)
Lemma next_n_short {A} (l : list A) n : forall i, (i <= length l)%nat -> (length l - i < n)%nat -> next_n (of_list l) i n = UB.
Proof.
  induction n as [|n IH]; intros i L K; [lia|]. cbn [next_n get of_list inc]. unfold rd.
  destruct (nth_error l i) eqn:X; cbn [bind]; auto.
  assert (i < length l)%nat by (apply nth_error_Some; congruence).
  rewrite (proj2 (Nat.ltb_lt i (length l))) by lia. cbn [bind]. rewrite IH by lia. reflexivity.
Qed.
Lemma yields_nonempty {A} b (r : range A) s xs : yields b r s xs -> at_end r s = match xs with [] => true | _ => false end.
Proof. inversion 1; auto. Qed.
Lemma chunk_yields {A} k (r : range A) : 1 <= k < 2 ^ 63 -> forall m s xs b,
  yields b r s xs -> length xs = (m * Z.to_nat k)%nat ->
  exists yss, yields true (Chunk k r) s yss /\ concat yss = xs /\ Forall (fun ys => length ys = Z.to_nat k) yss.
Proof.
  intros K. induction m as [|m IH]; intros s xs b Y L.
  - destruct xs; [|discriminate]. exists []. split; auto. inversion Y; subst. constructor; auto. discriminate.
  - cbn [Nat.mul] in L.
    destruct (safe_next_yields b r (Z.to_nat k) s xs Y) as (s' & E & Y').
    destruct (IH s' (skipn (Z.to_nat k) xs) b Y') as (yss & Y2 & C & F). { rewrite skipn_length. lia. }
    exists (firstn (Z.to_nat k) xs :: yss). split; [|split].
    + apply (yields_step true (Chunk k r) s _ s'); cbn [at_end get inc Chunk]; try discriminate; [| | |exact Y2].
      * rewrite (yields_nonempty _ _ _ _ Y). destruct xs; cbn in L; [lia|auto].
      * rewrite conv_i64 by lia. replace (k <? 0) with false by lia. eapply next_n_yields; [exact Y|lia].
      * rewrite conv_i64 by lia. exact E.
    + cbn. rewrite C. apply firstn_skipn.
    + constructor; auto. rewrite firstn_length. lia.
Qed.
Lemma chunk_lists {A} k (r : range A) xs : 1 <= k < 2 ^ 63 -> visits r xs -> (k | Z.of_nat (length xs)) ->
  exists yss, lists (Chunk k r) yss /\ concat yss = xs /\ Forall (fun ys => Z.of_nat (length ys) = k) yss.
Proof.
  intros K Y [m D]. destruct (chunk_yields k r K (Z.to_nat m) (cur r) xs false Y) as (yss & Y2 & C & F).
  { assert (0 <= m) by nia. apply Nat2Z.inj. rewrite D, Nat2Z.inj_mul, !Z2Nat.id by lia. lia. }
  exists yss. split; [exact Y2|]. split; auto. eapply Forall_impl; [|exact F]. cbn. intros; lia.
Qed.
Lemma chunk_partial_walk {A} k (l : list A) : 1 <= k < 2 ^ 63 -> forall n i fuel,
  (i <= length l)%nat -> (length l - i <= n)%nat -> (n < fuel)%nat -> Z.of_nat (length l - i) mod k <> 0 ->
  walk fuel (Chunk k (of_list l)) i = UB.
Proof.
  intros K. induction n as [|n IH]; intros i fuel L Q F M.
  - replace (length l - i)%nat with 0%nat in M by lia. rewrite Z.mod_0_l in M by lia. lia.
  - destruct fuel as [|fuel]; [lia|]. cbn [walk at_end Chunk of_list].
    destruct (i =? length l)%nat eqn:E.
    { exfalso. apply M. replace (length l - i)%nat with 0%nat by lia. apply Z.mod_0_l. lia. }
    cbn [get Chunk]. rewrite conv_i64 by lia. replace (k <? 0) with false by lia.
    destruct (le_lt_dec (Z.to_nat k) (length l - i)) as [G|G].
    + rewrite (next_n_yields true (of_list l) _ i (skipn i l)); [|apply of_list_yields; lia|rewrite skipn_length; lia].
      cbn [bind inc Chunk].
      assert (SN : forall n i, (i + n <= length l)%nat -> safe_next (of_list l) i n = Ok (i + n)%nat).
      { clear. induction n as [|n IH]; intros i H; cbn [safe_next at_end of_list inc].
        - f_equal. lia.
        - rewrite (proj2 (Nat.eqb_neq _ _)) by lia. rewrite (proj2 (Nat.ltb_lt _ _)) by lia. cbn [bind].
          rewrite IH by lia. f_equal. lia. }
      rewrite conv_i64 by lia. rewrite SN by lia. cbn [bind]. rewrite IH; auto; try lia.
      replace (Z.of_nat (length l - (i + Z.to_nat k))) with (Z.of_nat (length l - i) + (-1) * k) by lia.
      rewrite Z.mod_add by lia. exact M.
    + rewrite next_n_short by lia. reflexivity.
Qed.
Lemma chunk_partial {A} k (l : list A) fuel : 1 <= k < 2 ^ 63 -> ~ (k | Z.of_nat (length l)) ->
  (length l < fuel)%nat -> for_each fuel (Chunk k (of_list l)) = UB.
Proof.
  intros K D F. unfold for_each. apply (chunk_partial_walk k l K (length l)); cbn; try lia.
  rewrite Nat.sub_0_r. intros M. apply D. apply Z.mod_divide; [lia|auto].
Qed.
Lemma chunk_count_steps {A} k (r : range A) b : 1 <= k < 2 ^ 63 -> forall n fuel s xs,
  yields b r s xs -> (length xs <= n)%nat -> (n < fuel)%nat ->
  count_steps fuel (Chunk k r) s = Ok ((Z.of_nat (length xs) + k - 1) / k).
Proof.
  intros K. induction n as [|n IH]; intros [|fuel] s xs Y L F; try lia; cbn [count_steps at_end Chunk];
    rewrite (yields_nonempty _ _ _ _ Y); destruct xs as [|x xs]; cbn in L; try lia;
    try (cbn; rewrite Z.div_small; [reflexivity|]; lia).
  cbn [inc Chunk]. rewrite conv_i64 by lia.
  destruct (safe_next_yields b r (Z.to_nat k) s (x :: xs) Y) as (s' & E & Y'). rewrite E. cbn [bind].
  rewrite (IH fuel s' (skipn (Z.to_nat k) (x :: xs)) Y'); [|rewrite skipn_length; cbn [length]; lia|lia].
  cbn [bind]. f_equal. rewrite skipn_length.
  destruct (le_lt_dec (Z.to_nat k) (length (x :: xs))) as [G|G].
  - rewrite Nat2Z.inj_sub, Z2Nat.id by lia.
    replace (Z.of_nat (length (x :: xs)) + k - 1) with (Z.of_nat (length (x :: xs)) - k + k - 1 + 1 * k) by lia.
    rewrite Z.div_add by lia. reflexivity.
  - replace (length (x :: xs) - Z.to_nat k)%nat with 0%nat by lia.
    rewrite (Z.div_small (Z.of_nat 0 + k - 1)) by lia.
    replace (Z.of_nat (length (x :: xs)) + k - 1) with (Z.of_nat (length (x :: xs)) - 1 + 1 * k) by lia.
    rewrite Z.div_add by lia. rewrite Z.div_small; [reflexivity|]. cbn [length] in *. lia.
Qed.
Lemma chunk_count {A} k (r : range A) xs fuel : 1 <= k < 2 ^ 63 -> visits r xs -> (length xs < fuel)%nat ->
  distance fuel (Chunk k r) (cur (Chunk k r)) = Ok ((Z.of_nat (length xs) + k - 1) / k).
Proof. intros. unfold distance. cbn [random Chunk]. eapply chunk_count_steps; eauto. Qed.
Lemma chunk_zero {A} (r : range A) fuel : at_end r (cur r) = false -> for_each fuel (Chunk 0 r) = OutOfFuel.
Proof.
  intros E. unfold for_each. cbn [cur Chunk]. induction fuel as [|fuel IH]; auto.
  cbn [walk at_end Chunk]. rewrite E. cbn [get inc Chunk]. rewrite conv_i64 by lia. change (0 <? 0) with false. cbv iota. change (Z.to_nat 0) with 0%nat. cbn [next_n safe_next bind]. rewrite IH. reflexivity.
Qed.

(** ** Slide *)
Lemma slide_yields {A} w (r : range A) : 1 <= w < 2 ^ 63 -> forall xs s b,
  yields b r s xs -> (Z.to_nat w <= length xs)%nat ->
  yields true (Slide w r) s (map (fun i => firstn (Z.to_nat w) (skipn i xs)) (seq 0 (length xs - Z.to_nat w + 1))).
Proof.
  intros W. induction xs as [|x xs IH]; intros s b Y L; cbn in L; [lia|].
  destruct (safe_next_yields b r (Z.to_nat w) s (x :: xs) Y) as (t & E & Yt).
  pose proof (yields_nonempty _ _ _ _ Yt) as Et.
  pose proof (next_n_yields b r (Z.to_nat w) s (x :: xs) Y) as G. cbn [length] in G. specialize (G ltac:(lia)).
  destruct (Nat.eq_dec (Z.to_nat w) (S (length xs))) as [Q|Q].
  - cbn [length]. rewrite <- Q, Nat.sub_diag. cbn [Nat.add seq map skipn].
    rewrite (skipn_all2 (x :: xs)) in Et, Yt by (cbn; lia).
    apply (yields_step true (Slide w r) s _ t []); try discriminate.
    + exact (yields_nonempty _ _ _ _ Y).
    + cbn [get Slide]. rewrite conv_i64 by lia. replace (w <? 0) with false by lia. exact G.
    + cbn [inc Slide]. rewrite conv_i64 by lia. rewrite E. cbn [bind]. rewrite Et. reflexivity.
    + constructor; [exact Et|discriminate].
  - inversion Y as [|? ? s' ? E0 G0 N0 D0 Y']; subst.
    specialize (IH s' b Y' ltac:(lia)).
    replace (length (x :: xs) - Z.to_nat w + 1)%nat with (S (length xs - Z.to_nat w + 1)) by (cbn [length]; lia).
    cbn [seq map]. cbn [skipn].
    rewrite <- seq_shift, map_map. cbn [skipn].
    apply (yields_step true (Slide w r) s _ s'); try discriminate; auto.
    + cbn [get Slide]. rewrite conv_i64 by lia. replace (w <? 0) with false by lia. exact G.
    + cbn [inc Slide]. rewrite conv_i64 by lia. rewrite E. cbn [bind]. rewrite Et.
      destruct (skipn (Z.to_nat w) (x :: xs)) eqn:Z0; [|exact N0].
      apply (f_equal (@length A)) in Z0. rewrite skipn_length in Z0. cbn [length] in Z0. lia.
Qed.
Lemma slide_short {A} w (l : list A) fuel : w < 2 ^ 63 -> 0 < Z.of_nat (length l) < w ->
  for_each (S fuel) (Slide w (of_list l)) = UB.
Proof.
  intros W L. unfold for_each. cbn [walk at_end Slide cur of_list].
  destruct (0 =? length l)%nat eqn:E; [lia|]. cbn [get Slide]. rewrite conv_i64 by lia. replace (w <? 0) with false by lia.
  rewrite next_n_short by (cbn; lia). reflexivity.
Qed.
Lemma slide_empty {A} w (r : range A) : visits r [] -> lists (Slide w r) [].
Proof. inversion 1; subst. constructor; [assumption|discriminate]. Qed.

(** ** Zip, iota, Enumerate *)
Lemma zip_yields {A B} c (r1 : range A) (r2 : range B) s1 xs : yields c r1 s1 xs ->
  forall d s2 ys, yields d r2 s2 ys ->
  (c = true -> random r1 && random r2 = true -> (length xs <= length ys)%nat) ->
  yields c (Zip r1 r2) (s1, s2) (combine xs ys).
Proof.
  induction 1 as [s1 E D|s1 x s1' xs E G N D Y IH]; intros d s2 ys Y2 L.
  - cbn [combine]. constructor; cbn; [rewrite E; auto|]. intros C R. apply D; auto.
    destruct (random r1); auto.
  - inversion Y2 as [t E2 D2|t y s2' zs E2 G2 N2 D2 Y2']; subst; cbn [combine].
    + constructor; cbn; [rewrite E2; apply orb_true_r|]. intros C R. specialize (L C R). cbn in L. lia.
    + econstructor; cbn; [rewrite E, E2; auto|rewrite G; cbn; rewrite G2; reflexivity|rewrite N; cbn; rewrite N2; reflexivity| |].
      * intros C R. rewrite D; auto; [|destruct (random r1); auto]. f_equal. specialize (L C R). cbn [length] in *.
        rewrite combine_length. lia.
      * apply (IH d); auto. intros C R. specialize (L C R). cbn in L. lia.
Qed.
Lemma zip_visits {A B} (r1 : range A) (r2 : range B) xs ys :
  visits r1 xs -> visits r2 ys -> visits (Zip r1 r2) (combine xs ys).
Proof. intros H1 H2. apply (zip_yields false r1 r2 _ _ H1 false _ _ H2). discriminate. Qed.
Lemma zip_lists {A B} (r1 : range A) (r2 : range B) xs ys :
  lists r1 xs -> visits r2 ys -> (length xs <= length ys)%nat -> lists (Zip r1 r2) (combine xs ys).
Proof. intros H1 H2 L. apply (zip_yields true r1 r2 _ _ H1 false _ _ H2). auto. Qed.
Lemma zip_distance {A B} (xs : list A) (ys : list B) fuel :
  Count fuel (Zip (of_list xs) (of_list ys)) = Ok (sz (Z.of_nat (length xs))).
Proof. unfold Count, distance. cbn. f_equal. unfold conv, sz, wrap. cbn [signed u64 width]. f_equal. lia. Qed.

Lemma fits_promote T v : std_width (width T) -> fits T v -> fits (promote T) v.
Proof. unfold std_width. intros [W|[W|[W|W]]] F; destruct T as [[|] w]; cbn in W; subst; unfold fits, lowest, highest, promote in *; cbn in *; lia. Qed.
Lemma step_in T v l : std_width (width T) -> fits T v -> fits T l -> v < l -> assign_op T (v + 1) = Ok (v + 1).
Proof.
  intros W F G L. assert (fits T (v + 1)) by (unfold fits in *; lia).
  apply assign_fits; auto using std_pos.
Qed.
Lemma iota_yields T last b : std_width (width T) -> fits T last -> forall n first,
  fits T first -> Z.of_nat n = last - first ->
  (b = true -> fits (promote T) (last - first) /\ last - first < 2 ^ 63) ->
  forall z, yields b (iota_view T z last) first (map (fun i => first + Z.of_nat i) (seq 0 n)).
Proof.
  intros W FL. assert (P : 0 < width (promote T)).
  { unfold promote. destruct (width T <? 32); [cbn; lia|]. apply std_pos, W. }
  induction n as [|n IH]; intros first F N D z.
  - constructor; cbn [at_end rdist iota_view]; [lia|]. intros C _. destruct (D C) as [D1 D2].
    rewrite calc_fits by auto. cbn [bind]. f_equal. rewrite conv_i64; lia.
  - cbn [seq map]. rewrite Z.add_0_r. rewrite <- seq_shift, map_map.
    replace (map (fun x => first + Z.of_nat (S x)) (seq 0 n)) with (map (fun x => (first + 1) + Z.of_nat x) (seq 0 n))
      by (apply map_ext; intros; lia).
    apply (yields_step b (iota_view T z last) first first (first + 1)); cbn [at_end get inc rdist iota_view].
    + lia.
    + reflexivity.
    + apply (step_in T first last); auto. lia.
    + intros C _. destruct (D C) as [D1 D2]. rewrite calc_fits by auto. cbn [bind]. f_equal.
      rewrite conv_i64 by lia. cbn [length]. rewrite map_length, seq_length. lia.
    + apply IH; [|lia|].
      * unfold fits in *. lia.
      * intros C. destruct (D C) as [D1 D2]. split; [|lia]. revert D1.
        assert (lowest (promote T) <= 0) by (unfold lowest; destruct (signed (promote T)); pose proof (pow_pos (width (promote T) - 1)); lia).
        unfold fits. lia.
Qed.
Lemma iota_visits T first last : std_width (width T) -> fits T first -> fits T last -> first <= last ->
  visits (iota_view T first last) (interval first last).
Proof. intros. apply iota_yields; auto; [lia|discriminate]. Qed.
Lemma iota_lists T first last : std_width (width T) -> fits T first -> fits T last -> first <= last ->
  fits (promote T) (last - first) -> last - first < 2 ^ 63 ->
  lists (iota_view T first last) (interval first last).
Proof. intros. apply iota_yields; auto. lia. Qed.

Lemma enumerate_yields {A} T b (r : range A) s xs z : std_width (width T) -> yields b r s xs -> forall v,
  fits T v ->
  yields false (EnumerateFrom T z r) (v, s) (indexed v (firstn (Z.to_nat (highest T - v)) xs)).
Proof.
  intros W. assert (FH : fits T (highest T)).
  { unfold fits, lowest, highest. pose proof (std_pos _ W). destruct (signed T); pose proof (pow_pos (width T - 1)); pose proof (pow_pos (width T)); lia. }
  induction 1 as [s E D|s x s' xs E G N D Y IH]; intros v F.
  - rewrite firstn_nil. constructor; [|discriminate]. cbn. rewrite E. apply orb_true_r.
  - destruct (Z.to_nat (highest T - v)) as [|n] eqn:Q.
    + constructor; [|discriminate]. unfold fits in F. cbn. replace (v =? highest T) with true by lia. reflexivity.
    + cbn [firstn indexed]. replace n with (Z.to_nat (highest T - (v + 1))) by lia.
      apply (yields_step false (EnumerateFrom T z r) (v, s) (v, x) (v + 1, s')); try discriminate;
        cbn [at_end get inc EnumerateFrom Zip iota_view fst snd].
      * rewrite E. lia.
      * rewrite G. reflexivity.
      * rewrite (step_in T v (highest T)) by (auto; lia). cbn [bind]. rewrite N. reflexivity.
      * apply IH. unfold fits in *. lia.
Qed.
Lemma enumerate_visits {A} T o (r : range A) xs : std_width (width T) -> fits T o -> visits r xs ->
  visits (EnumerateFrom T o r) (indexed o (firstn (Z.to_nat (highest T - o)) xs)).
Proof. intros W F Y. apply (enumerate_yields T false r (cur r) xs o W Y o F). Qed.
Lemma enumerate_all {A} T o (r : range A) xs : std_width (width T) -> fits T o -> visits r xs ->
  Z.of_nat (length xs) <= highest T - o -> visits (EnumerateFrom T o r) (indexed o xs).
Proof. intros W F Y L. rewrite <- (firstn_all2 (n := Z.to_nat (highest T - o)) xs) by lia. apply enumerate_visits; auto. Qed.
Lemma enumerate_count {A} (l : list A) fuel : Count fuel (Enumerate u64 (of_list l)) = Ok (2 ^ 64 - 1).
Proof. reflexivity. Qed.

(** ** Flatten *)
Lemma skipn_cons_nth {A} (l : list A) i : (i < length l)%nat ->
  exists x, nth_error l i = Some x /\ skipn i l = x :: skipn (S i) l.
Proof.
  revert i. induction l as [|y l IH]; intros [|i] L; cbn in L; try lia; [exists y; auto|].
  destruct (IH i) as (x & X & E); [lia|]. exists x. split; auto.
Qed.
Lemma flatten_yields {A} b (r : range (list A)) s xss : yields b r s xss ->
  Forall (fun l => l <> []) xss -> yields true (Flatten r) (s, 0%nat) (concat xss).
Proof.
  induction 1 as [s E D|s l s' xss E G N D Y IH]; intros F.
  - constructor; [exact E|discriminate].
  - inversion F as [|? ? NE F']; subst. specialize (IH F'). cbn [concat].
    assert (H : forall k i, (i < length l)%nat -> (length l - i <= k)%nat -> yields true (Flatten r) (s, i) (skipn i l ++ concat xss)).
    { induction k as [|k IHk]; intros i L K; [lia|]. destruct (skipn_cons_nth l i L) as (x & X & Q). rewrite Q. cbn [app].
      destruct (Nat.eq_dec (S i) (length l)) as [EQ|EQ].
      - rewrite EQ, skipn_all. cbn [app].
        apply (yields_step true (Flatten r) (s, i) x (s', 0%nat)); try discriminate; cbn [at_end get inc Flatten fst snd]; auto.
        + rewrite E, G. cbn [bind]. unfold rd. rewrite X. reflexivity.
        + rewrite E, G. cbn [bind]. rewrite (proj2 (Nat.leb_gt _ _)) by lia. rewrite (proj2 (Nat.eqb_eq _ _)) by lia. rewrite N. reflexivity.
      - apply (yields_step true (Flatten r) (s, i) x (s, S i)); try discriminate; cbn [at_end get inc Flatten fst snd]; auto.
        + rewrite E, G. cbn [bind]. unfold rd. rewrite X. reflexivity.
        + rewrite E, G. cbn [bind]. rewrite (proj2 (Nat.leb_gt _ _)) by lia. rewrite (proj2 (Nat.eqb_neq _ _)) by lia. reflexivity.
        + apply IHk; lia. }
    apply (H (length l) 0%nat); [|lia]. destruct l; [congruence|cbn; lia].
Qed.
Lemma flatten_empty {A} b (r : range (list A)) s xss : yields b r s xss -> In [] xss ->
  forall fuel, (length (concat xss) < fuel)%nat -> walk fuel (Flatten r) (s, 0%nat) = UB.
Proof.
  induction 1 as [s E D|s l s' xss E G N D Y IH]; intros F; [destruct F|].
  cbn [concat]. rewrite app_length. intros fuel L.
  destruct l as [|x0 l0] eqn:EL.
  - destruct fuel; [lia|]. cbn [walk at_end get Flatten fst snd]. rewrite E, G. reflexivity.
  - rewrite <- EL in *. assert (NE : (0 < length l)%nat) by (rewrite EL; cbn; lia). clear EL x0 l0.
    assert (I : In [] xss) by (destruct F; [subst; cbn in NE; lia|auto]). clear F. specialize (IH I).
    assert (H : forall k i fuel, (i < length l)%nat -> (length l - i <= k)%nat ->
      (length l - i + length (concat xss) < fuel)%nat -> walk fuel (Flatten r) (s, i) = UB).
    { clear fuel L. induction k as [|k IHk]; intros i fuel L K Fu; [lia|]. destruct fuel as [|fuel]; [lia|].
      destruct (skipn_cons_nth l i L) as (x & X & _). cbn [walk at_end get inc Flatten fst snd]. rewrite E, G. cbn [bind].
      unfold rd. rewrite X. cbn [bind]. rewrite (proj2 (Nat.leb_gt _ _)) by lia.
      destruct (Nat.eq_dec (S i) (length l)) as [EQ|EQ].
      - rewrite (proj2 (Nat.eqb_eq _ _)) by lia. rewrite N. cbn [bind]. rewrite IH by lia. reflexivity.
      - rewrite (proj2 (Nat.eqb_neq _ _)) by lia. cbn [bind]. rewrite IHk by lia. reflexivity. }
    apply (H (length l)); lia.
Qed.

(** ** Concat *)
Lemma upd_mid {A} (pre : list A) x y ls : upd (pre ++ x :: ls) (length pre) y = pre ++ y :: ls.
Proof. induction pre; cbn; congruence. Qed.
Lemma nth_mid {A} (pre : list A) x ls : nth_error (pre ++ x :: ls) (length pre) = Some x.
Proof. induction pre; cbn; auto. Qed.
Definition is_nil {A} (l : list A) := match l with [] => true | _ => false end.
Lemma forallb_pre {A} (pre ls : list (list A)) : Forall (fun l => l = []) pre ->
  forallb is_nil (pre ++ ls) = forallb is_nil ls.
Proof. induction 1; cbn; subst; auto. Qed.
Lemma all_nil {A} (ls : list (list A)) : forallb is_nil ls = true <-> Forall (fun l => l = []) ls.
Proof.
  induction ls as [|l ls IH]; cbn; [split; auto|]. rewrite andb_true_iff, IH. split.
  - intros [H1 H2]. constructor; auto. destruct l; auto; discriminate.
  - inversion 1; subst. auto.
Qed.
Lemma concat_nil {A} (ls : list (list A)) : Forall (fun l => l = []) ls -> concat ls = [].
Proof. induction 1; cbn; subst; auto. Qed.
Lemma concat_step {A} (rs pre ls : list (list A)) x l b :
  Forall (fun l => l = []) pre ->
  (l = [] -> yields b (Concat rs) (S (length pre), (pre ++ [[]]) ++ ls) (concat ls)) ->
  (l <> [] -> yields b (Concat rs) (length pre, pre ++ l :: ls) (l ++ concat ls)) ->
  yields b (Concat rs) (length pre, pre ++ (x :: l) :: ls) (x :: l ++ concat ls).
Proof.
  intros P H1 H2. eapply (yields_step b (Concat rs)).
  - cbn [at_end Concat snd]. change (forallb is_nil (pre ++ (x :: l) :: ls) = false). rewrite forallb_pre by auto. reflexivity.
  - cbn [get Concat fst snd]. unfold rd at 1. rewrite nth_mid. reflexivity.
  - cbn [inc Concat fst snd]. unfold rd at 1. rewrite nth_mid. cbn [bind]. rewrite upd_mid. reflexivity.
  - discriminate.
  - destruct l as [|y l].
    + rewrite <- app_assoc in H1. apply H1. auto.
    + apply H2. discriminate.
Qed.
Lemma concat_yields {A} (rs ls : list (list A)) : empties_last ls -> forall pre, Forall (fun l => l = []) pre ->
  yields true (Concat rs) (length pre, pre ++ ls) (concat ls).
Proof.
  induction ls as [|l ls IH]; intros E pre P.
  - constructor; [|discriminate]. cbn [at_end Concat snd]. change (forallb is_nil (pre ++ []) = true). rewrite forallb_pre; auto.
  - destruct l as [|x l].
    + cbn [empties_last] in E. cbn [concat app]. rewrite (concat_nil ls E). constructor; [|discriminate].
      cbn [at_end Concat snd]. change (forallb is_nil (pre ++ [] :: ls) = true). rewrite forallb_pre by auto. cbn. apply all_nil. auto.
    + cbn [empties_last] in E. cbn [concat]. cbn [app].
      assert (H : forall l x, yields true (Concat rs) (length pre, pre ++ (x :: l) :: ls) (x :: l ++ concat ls)).
      { clear l x. induction l as [|y l IHl]; intros x; apply concat_step; auto; try congruence; [|intros _; apply (IHl y)].
        intros _. replace (S (length pre)) with (length (pre ++ [[]])) by (rewrite app_length; cbn; lia).
        apply IH; auto. apply Forall_app. auto. }
      apply H.
Qed.
Lemma concat_lists {A} (ls : list (list A)) : empties_last ls -> lists (Concat ls) (concat ls).
Proof. intros E. apply (concat_yields ls ls E []). constructor. Qed.
Lemma concat_bad {A} (rs ls : list (list A)) : ~ empties_last ls -> forall pre fuel, Forall (fun l => l = []) pre ->
  (length (concat ls) < fuel)%nat -> walk fuel (Concat rs) (length pre, pre ++ ls) = UB.
Proof.
  induction ls as [|l ls IH]; intros E pre fuel P F; [cbn in E; tauto|].
  destruct l as [|x l].
  - destruct fuel as [|fuel]; [lia|]. cbn [empties_last] in E. cbn [walk at_end Concat snd].
    change (forallb _ (pre ++ [] :: ls)) with (forallb is_nil (pre ++ [] :: ls)). rewrite forallb_pre by auto. cbn [forallb is_nil andb].
    destruct (forallb is_nil ls) eqn:Q; [apply all_nil in Q; tauto|].
    cbn [get Concat fst snd]. unfold rd at 1. rewrite nth_mid. reflexivity.
  - cbn [empties_last] in E. cbn [concat] in F. rewrite app_length in F.
    assert (H : forall l x fuel, (length (x :: l) + length (concat ls) < fuel)%nat ->
      walk fuel (Concat rs) (length pre, pre ++ (x :: l) :: ls) = UB).
    { clear l x fuel F. induction l as [|y l IHl]; intros x [|fuel] F; cbn [length] in F; try lia;
        cbn [walk at_end Concat snd];
        change (forallb _ (pre ++ ?z :: ls)) with (forallb is_nil (pre ++ z :: ls)); rewrite forallb_pre by auto; cbn [forallb is_nil andb];
        cbn [get inc Concat fst snd]; unfold rd; rewrite nth_mid; cbn [bind nth_error]; rewrite upd_mid; cbn [bind].
      - replace (S (length pre)) with (length (pre ++ [[]])) by (rewrite app_length; cbn; lia).
        replace (pre ++ [] :: ls) with ((pre ++ [[]]) ++ ls) by (rewrite <- app_assoc; reflexivity).
        rewrite IH; auto; [apply Forall_app; auto|lia].
      - rewrite IHl; auto. cbn [length]. lia. }
    apply H. exact F.
Qed.
Lemma concat_refuted {A} (ls : list (list A)) fuel : ~ empties_last ls -> (length (concat ls) < fuel)%nat ->
  for_each fuel (Concat ls) = UB.
Proof. intros E F. apply (concat_bad ls ls E [] fuel); auto. Qed.

(** ** Unique *)
Lemma skip_equal_yields {A} b eqb (r : range A) v s xs : yields b r s xs -> forall fuel, (length xs < fuel)%nat ->
  exists s', skip_equal fuel eqb r v s = Ok s' /\ yields b r s' (drop_while (fun x => eqb x v) xs).
Proof.
  induction 1 as [s E D|s x s' xs E G N D Y IH]; intros [|fuel] F; cbn in F; try lia; cbn [skip_equal drop_while]; rewrite E.
  - exists s. split; auto. constructor; auto.
  - rewrite G. cbn [bind]. destruct (eqb x v).
    + rewrite N. cbn [bind]. apply IH. lia.
    + exists s. split; auto. econstructor; eauto.
Qed.
Lemma drop_while_length {A} (p : A -> bool) xs : (length (drop_while p xs) <= length xs)%nat.
Proof. induction xs as [|x xs IH]; cbn; auto. destruct (p x); cbn; lia. Qed.
Lemma changes_drop {A} (eqb : A -> A -> bool) : equivalence eqb -> forall xs p v, eqb p v = true ->
  changes eqb (Some p) xs = changes eqb None (drop_while (fun x => eqb x v) xs).
Proof.
  intros (R & S' & T'). induction xs as [|x xs IH]; intros p v E; cbn; auto.
  destruct (eqb x p) eqn:Q.
  - rewrite (T' x p v Q E). rewrite (IH x v); auto. apply (T' x p v); auto.
  - destruct (eqb x v) eqn:Q2; [|reflexivity].
    rewrite (T' x v p) in Q; [discriminate|auto|]. rewrite S'. auto.
Qed.
Lemma unique_yields {A} (eqb : A -> A -> bool) (r : range A) b : equivalence eqb -> forall n fuel s xs,
  yields b r s xs -> (length xs <= n)%nat -> (n < fuel)%nat ->
  yields true (Unique fuel eqb r) s (changes eqb None xs).
Proof.
  intros Q. induction n as [|n IH]; intros fuel s xs Y L F; inversion Y as [t E D|t x s' ys E G N D Y']; subst; cbn in L; try lia;
    try (constructor; [exact E|discriminate]).
  destruct (skip_equal_yields b eqb r x s' ys Y' fuel) as (s2 & E2 & Y2); [lia|].
  cbn [changes]. rewrite (changes_drop eqb Q ys x x) by apply Q.
  eapply (yields_step true (Unique fuel eqb r)); [exact E|exact G| |discriminate|].
  - cbn [inc Unique]. rewrite E, G. cbn [bind]. rewrite N. cbn [bind]. exact E2.
  - apply (IH fuel s2); [exact Y2| |lia]. pose proof (drop_while_length (fun y => eqb y x) ys). lia.
Qed.
Lemma unique_lists {A} (eqb : A -> A -> bool) (r : range A) xs fuel : equivalence eqb ->
  visits r xs -> (length xs < fuel)%nat -> lists (Unique fuel eqb r) (changes eqb None xs).
Proof. intros Q Y F. eapply (unique_yields eqb r false Q (length xs)); auto. Qed.

(** ** Split *)
Lemma fields_step {A} (p : A -> bool) l :
  fields p l = take_while (fun x => negb (p x)) l ::
    match drop_while (fun x => negb (p x)) l with [] => [] | _ :: t => fields p t end.
Proof.
  induction l as [|x l IH]; cbn; auto. destruct (p x); cbn; auto. rewrite IH. reflexivity.
Qed.
Lemma take_drop_while {A} (p : A -> bool) l : take_while p l ++ drop_while p l = l.
Proof. induction l as [|x l IH]; cbn; auto. destruct (p x); cbn; congruence. Qed.
Lemma drop_skipn {A} (p : A -> bool) l : drop_while p l = skipn (length (take_while p l)) l.
Proof. induction l as [|x l IH]; cbn; auto. destruct (p x); cbn; auto. Qed.
Lemma take_firstn {A} (p : A -> bool) l : take_while p l = firstn (length (take_while p l)) l.
Proof. induction l as [|x l IH]; cbn; auto. destruct (p x); cbn; congruence. Qed.
Lemma find_value_at {A} (p : A -> bool) l i :
  find_value p l i = (i + length (take_while (fun x => negb (p x)) (skipn i l)))%nat.
Proof.
  unfold find_value. generalize (skipn i l) as m. intros m. revert i. induction m as [|x m IH]; intros i; cbn; [lia|].
  destruct (p x); cbn; [lia|]. rewrite IH. lia.
Qed.
Definition finds {A} (find : nat -> nat) (p : A -> bool) (l : list A) : Prop :=
  forall i, (i < length l)%nat -> find i = (i + length (take_while (fun x => negb (p x)) (skipn i l)))%nat.
Lemma but_last_cons {A} (l : list A) ls : ls <> [] -> but_last_empty (l :: ls) = l :: but_last_empty ls.
Proof. destruct ls; [congruence|reflexivity]. Qed.
Lemma skipn_skipn' {A} (l : list A) i j : skipn j (skipn i l) = skipn (i + j) l.
Proof. revert l. induction i as [|i IH]; intros [|x l]; cbn; auto. destruct j; auto. Qed.
Lemma split_yields {A} find (p : A -> bool) l : finds find p l -> forall n i o,
  (length l - i <= n)%nat -> (i <= length l)%nat -> (o = None \/ (i < length l)%nat /\ o = Some (find i)) ->
  yields false (split_view find l) (i, o) (but_last_empty (fields p (skipn i l))).
Proof.
  intros Fn. induction n as [|n IH]; intros i o L B O'.
  - assert (i = length l) as -> by lia. rewrite skipn_all. cbn. destruct O' as [-> | [? _]]; [|lia].
    constructor; [|discriminate]. cbn. unfold split_at_end. cbn. rewrite Nat.eqb_refl. reflexivity.
  - destruct (Nat.eq_dec i (length l)) as [->|NE].
    { rewrite skipn_all. cbn. destruct O' as [-> | [? _]]; [|lia].
      constructor; [|discriminate]. cbn. unfold split_at_end. cbn. rewrite Nat.eqb_refl. reflexivity. }
    assert (IL : (i < length l)%nat) by lia. pose proof (Fn i IL) as FI.
    assert (INC : increment_iterator find l (i, o) = (i, Some (find i))).
    { unfold increment_iterator. cbn [fst snd]. destruct O' as [-> | [_ ->]]; auto.
      rewrite (proj2 (Nat.eqb_neq _ _)) by lia. reflexivity. }
    rewrite fields_step. set (np := fun x => negb (p x)) in *.
    set (f := take_while np (skipn i l)) in *.
    assert (LF : (i + length f <= length l)%nat).
    { pose proof (take_drop_while np (skipn i l)) as TD. apply (f_equal (@length A)) in TD. rewrite app_length, skipn_length in TD. fold f in TD. lia. }
    assert (AE : at_end (split_view find l) (i, o) = false).
    { cbn. unfold split_at_end. cbn [fst snd]. rewrite (proj2 (Nat.eqb_neq _ _)) by lia. reflexivity. }
    assert (GT : get (split_view find l) (i, o) = Ok f).
    { cbn [get split_view]. unfold split_deref. rewrite INC. cbn [snd fst]. rewrite FI. f_equal. unfold f at 2. rewrite take_firstn. fold f. f_equal. lia. }
    rewrite drop_skipn. fold f. rewrite skipn_skipn'.
    destruct (Nat.eq_dec (i + length f) (length l)) as [Q|Q].
    + rewrite Q, skipn_all.
      replace (but_last_empty [f]) with [f].
      2:{ destruct f eqn:EF; [|reflexivity]. cbn in Q. lia. }
      eapply (yields_step false (split_view find l)); [exact AE|exact GT| |discriminate|].
      * cbn [inc split_view]. rewrite INC. unfold split_inc. cbn [snd fst]. rewrite FI, Q, Nat.eqb_refl. reflexivity.
      * constructor; [|discriminate]. cbn. unfold split_at_end. cbn. rewrite Nat.eqb_refl. reflexivity.
    + destruct (skipn_cons_nth l (i + length f)) as (x & X & E); [lia|]. rewrite E.
      rewrite but_last_cons by (rewrite fields_step; discriminate).
      eapply (yields_step false (split_view find l)); [exact AE|exact GT| |discriminate|].
      * cbn [inc split_view]. rewrite INC. unfold split_inc, delimiter_length. cbn [snd fst]. rewrite FI.
        rewrite (proj2 (Nat.eqb_neq _ _)) by lia. rewrite (proj2 (Nat.ltb_ge _ _)) by lia. reflexivity.
      * replace (i + length f + 1)%nat with (S (i + length f)) by lia. apply IH; try lia. auto.
Qed.
Lemma split_begin {A} find (l : list A) : exists o, cur (split_view find l) = (0%nat, o) /\
  (o = None \/ (0 < length l)%nat /\ o = Some (find 0%nat)).
Proof.
  cbn [cur split_view]. unfold increment_iterator. cbn [fst snd]. destruct (0 =? length l)%nat eqn:E.
  - exists None. auto.
  - exists (Some (find 0%nat)). split; [reflexivity|]. right. split; [lia|reflexivity].
Qed.
Lemma split_visits_gen {A} find (p : A -> bool) l : finds find p l ->
  visits (split_view find l) (but_last_empty (fields p l)).
Proof.
  intros F. unfold visits. destruct (split_begin find l) as (o & -> & H).
  apply (split_yields find p l F (length l) 0 o); [lia|lia|exact H].
Qed.
Lemma split_visits {A} (p : A -> bool) l : visits (Split p l) (but_last_empty (fields p l)).
Proof. apply split_visits_gen. intros i _. apply find_value_at. Qed.
Lemma split_one {A} (eqb : A -> A -> bool) d l :
  visits (SplitRange eqb [d] l) (but_last_empty (fields (fun x => eqb x d) l)).
Proof.
  apply split_visits_gen. intros i _. rewrite <- find_value_at. unfold std_search, find_value.
  generalize (skipn i l) as m. intros m. revert i. induction m as [|x m IH]; intros i; cbn; auto.
  rewrite andb_true_r, IH. reflexivity.
Qed.
Lemma split_count {A} (p : A -> bool) l fuel :
  Count fuel (Split p l) =
    match but_last_empty (fields p l) with [] => Ok 0 | [_] => Ok 1 | _ => UB end.
Proof.
  unfold Count, distance, Split. cbn [random split_view rdist cur].
  destruct l as [|a l0] eqn:EL; [reflexivity|]. rewrite <- EL. assert (LL : (0 < length l)%nat) by (rewrite EL; cbn; lia). clear EL a l0.
  unfold increment_iterator. cbn [fst snd]. rewrite (proj2 (Nat.eqb_neq _ _)) by lia. rewrite find_value_at.
  cbn [skipn]. rewrite Nat.add_0_l. rewrite fields_step, drop_skipn. set (np := fun x => negb (p x)). set (f := take_while np l).
  assert (LF : (length f <= length l)%nat).
  { pose proof (take_drop_while np l) as TD. apply (f_equal (@length A)) in TD. rewrite app_length in TD. fold f in TD. lia. }
  cbn [split_distance]. unfold split_at_end at 1. cbn [fst snd]. rewrite andb_false_r. unfold split_inc at 1. cbn [snd fst].
  destruct (Nat.eq_dec (length f) (length l)) as [Q|Q].
  - rewrite Q, Nat.eqb_refl, skipn_all. cbn [bind]. unfold split_at_end. cbn [fst snd]. rewrite Nat.eqb_refl. cbn [andb bind].
    destruct f; [cbn in Q; lia|]. reflexivity.
  - rewrite (proj2 (Nat.eqb_neq _ _)) by lia. unfold delimiter_length. rewrite (proj2 (Nat.ltb_ge _ _)) by lia. cbn [bind].
    unfold split_at_end. cbn [fst snd]. destruct (skipn_cons_nth l (length f)) as (x & X & E); [lia|]. rewrite E.
    rewrite but_last_cons by (rewrite fields_step; discriminate).
    destruct (Nat.eq_dec (length f + 1) (length l)) as [Q2|Q2].
    + rewrite (proj2 (Nat.eqb_eq _ _)) by lia. cbn [andb bind]. rewrite skipn_all2 by lia. reflexivity.
    + rewrite (proj2 (Nat.eqb_neq _ _)) by lia. cbn [andb]. unfold split_inc. cbn [snd bind].
      destruct (skipn_cons_nth l (S (length f))) as (y & Y & E2); [lia|]. rewrite E2. rewrite fields_step.
      assert (G : forall (g : list A) gs, (gs = [] -> g <> []) -> but_last_empty (g :: gs) <> []).
      { intros g [|h gs] H; cbn; [destruct g; [exfalso; apply H; reflexivity|discriminate]|discriminate]. }
      match goal with |- _ = match but_last_empty (?g :: ?gs) with _ => _ end => pose proof (G g gs) as GG; destruct (but_last_empty (g :: gs)) eqn:BB end.
      * exfalso. apply GG; auto. destruct (p y) eqn:PY; cbn; rewrite PY; cbn; [|discriminate].
        intros H. rewrite fields_step in H. discriminate.
      * reflexivity.
Qed.

(** ** Reverse *)
Lemma reverse_lists {A} (l : list A) : lists (Reverse l) (rev l).
Proof.
  assert (H : forall i, (i <= length l)%nat -> yields true (Reverse l) i (rev (firstn i l))).
  { induction i as [|i IH]; intros L.
    - constructor; cbn; auto.
    - destruct (skipn_cons_nth l i) as (x & X & E); [lia|].
      assert (F : firstn (S i) l = firstn i l ++ [x]).
      { clear - X. revert l X. induction i; intros [|y l] X; cbn in *; try discriminate; [congruence|]. f_equal. auto. }
      rewrite F, rev_app_distr. cbn [rev app].
      apply (yields_step true (Reverse l) (S i) x i); cbn [at_end get inc rdist Reverse]; auto.
      + unfold rd. rewrite X. reflexivity.
      + intros _ _. f_equal. cbn [length]. rewrite rev_length, firstn_length. lia.
      + apply IH. lia. }
  specialize (H (length l) (le_n _)). rewrite firstn_all in H. exact H.
Qed.

(** ** Stages that end a pipeline *)
Lemma find_yields {A B} (eqb : B -> B -> bool) needle (proj : A -> B) (r : range A) xs fuel b :
  yields b r (cur r) xs -> (length xs < fuel)%nat ->
  exists s, Find fuel eqb needle proj r = Ok s /\ yields b r s (drop_while (fun x => negb (eqb needle (proj x))) xs).
Proof.
  unfold Find. intros Y F. set (p := fun x => eqb needle (proj x)).
  assert (E : forall fuel s, find_loop fuel p r s = drop_loop fuel p r s).
  { clear. induction fuel as [|fuel IH]; intros s; cbn; auto; destruct (at_end r s); auto; destruct (get r s) as [x| | |]; cbn; auto;
    destruct (p x); auto; destruct (inc r s); cbn; auto. }
  rewrite E. apply drop_loop_yields; auto.
Qed.
Lemma steps_to_yields {A} b (r : range A) n : forall s xs, yields b r s xs -> steps_to r s n = Ok (Nat.min n (length xs)).
Proof.
  induction n as [|n IH]; intros s xs Y; cbn [steps_to]; auto.
  inversion Y as [t E D|t x s' ys E G N D Y']; subst; rewrite E; auto.
  rewrite N. cbn [bind]. rewrite (IH _ _ Y'). reflexivity.
Qed.
Lemma end_of_yields {A} b (r : range A) s xs : yields b r s xs -> forall fuel, (length xs < fuel)%nat ->
  exists s', end_of fuel r s = Ok s' /\ yields b r s' [].
Proof.
  induction 1 as [s E D|s x s' xs E G N D Y IH]; intros [|fuel] F; cbn in F; try lia; cbn [end_of]; rewrite E.
  - exists s. split; auto. constructor; auto.
  - rewrite N. cbn [bind]. apply IH. lia.
Qed.
Lemma find_if_yields {A B} w (needle : list B -> bool) (proj : A -> B) (r : range A) b : (1 <= w)%nat ->
  forall xs s fuel, yields b r s xs -> (length xs < fuel)%nat ->
  let p := fun l => needle (map proj l) in
  exists s', find_if_loop fuel w needle proj r s = Ok s' /\
    ((exists i, first_match w p xs i /\ yields b r s' (skipn i xs)) \/ (no_match w p xs /\ yields b r s' [])).
Proof.
  intros W. induction xs as [|x xs IH]; intros s [|fuel] Y F p; cbn in F; try lia; cbn [find_if_loop];
    rewrite (yields_nonempty _ _ _ _ Y).
  - exists s. split; auto. right. split; auto. intros j J. cbn in J. lia.
  - rewrite (steps_to_yields _ _ w _ _ Y). cbn [bind].
    destruct (Nat.ltb_spec (Nat.min w (length (x :: xs))) w) as [L|L].
    + destruct (end_of_yields b r s (x :: xs) Y (S fuel)) as (s' & E & Y'); [cbn; lia|].
      exists s'. split; auto. right. split; auto. intros j J. cbn [length] in *. lia.
    + rewrite (next_n_yields _ _ w _ _ Y) by (cbn [length] in *; lia). cbn [bind]. fold (p (firstn w (x :: xs))).
      destruct (p (firstn w (x :: xs))) eqn:P.
      * exists s. split; auto. left. exists 0%nat. split; [|exact Y]. split; [cbn [length] in *; lia|]. split; [exact P|]. intros; lia.
      * inversion Y as [|t x' s' ys E G N D Y']; subst. rewrite N. cbn [bind].
        destruct (IH s' fuel Y') as (s2 & E2 & H); [lia|]. exists s2. split; auto.
        destruct H as [(i & (I1 & I2 & I3) & Yi)|(NM & Yi)].
        -- left. exists (S i). split; [|exact Yi]. split; [cbn [length]; lia|]. split; [exact I2|].
           intros [|j] J; [exact P|]. apply I3. lia.
        -- right. split; auto. intros [|j] J; [exact P|]. apply NM. cbn [length] in J. lia.
Qed.
Lemma contains_yields {A} b (p : A -> bool) (r : range A) s xs : yields b r s xs -> forall fuel, (length xs < fuel)%nat ->
  contains_loop fuel p r s = Ok (existsb p xs).
Proof.
  induction 1 as [s E D|s x s' xs E G N D Y IH]; intros [|fuel] F; cbn in F; try lia; cbn [contains_loop existsb]; rewrite E; auto.
  rewrite G. cbn [bind]. destruct (p x); cbn [orb]; auto. rewrite N. cbn [bind]. apply IH. lia.
Qed.
Lemma first_visits {A} (r : range A) xs : visits r xs -> First r = Ok (hd_error xs).
Proof. unfold First. inversion 1 as [t E D|t x s' ys E G N D Y']; subst; rewrite E; auto. rewrite G. reflexivity. Qed.
Fixpoint foldr {A B} (f : B -> A -> res B) (acc : B) (l : list A) : res B :=
  match l with [] => Ok acc | x :: l => acc <- f acc x ;; foldr f acc l end.
Lemma fold_yields {A B} b (f : B -> A -> res B) (r : range A) s xs : yields b r s xs -> forall fuel acc, (length xs < fuel)%nat ->
  fold_range fuel f r acc s = foldr f acc xs.
Proof.
  induction 1 as [s E D|s x s' xs E G N D Y IH]; intros [|fuel] acc F; cbn in F; try lia; cbn [fold_range foldr]; rewrite E; auto.
  rewrite G. cbn [bind]. destruct (f acc x); cbn [bind]; auto. rewrite N. cbn [bind]. apply IH. lia.
Qed.
Lemma count_lists {A} (r : range A) xs fuel : lists r xs -> (length xs < fuel)%nat -> Z.of_nat (length xs) < 2 ^ 64 ->
  Count fuel r = Ok (Z.of_nat (length xs)).
Proof. intros Y F B. unfold Count. rewrite (yields_distance r _ xs) by auto. cbn [bind]. f_equal. apply conv_u64. lia. Qed.
Lemma count_if_visits {A} (p : A -> bool) (r : range A) xs fuel : visits r xs -> (length xs < fuel)%nat -> Z.of_nat (length xs) < 2 ^ 64 ->
  CountIf fuel p r = Ok (Z.of_nat (length (filter p xs))).
Proof.
  intros Y F B. unfold CountIf. rewrite (fold_yields _ _ _ _ _ Y) by auto. clear Y F fuel r.
  assert (H : forall a, 0 <= a -> a + Z.of_nat (length xs) < 2 ^ 64 ->
    foldr (fun n v => Ok (sz (n + (if p v then 1 else 0)))) a xs = Ok (a + Z.of_nat (length (filter p xs)))).
  { clear B. induction xs as [|x xs IH]; intros a A0 B; cbn [foldr filter length] in *; [f_equal; lia|]. cbn [bind].
    unfold sz. destruct (p x); rewrite Z.mod_small by lia; rewrite IH by lia; f_equal; cbn [length]; lia. }
  apply H; lia.
Qed.
Lemma total_app xs ys : total (xs ++ ys) = total xs + total ys.
Proof. unfold total. induction xs; cbn; [reflexivity|]. rewrite IHxs. lia. Qed.
Lemma sum_fits T (r : range Z) xs fuel : 0 < width T -> visits r xs -> (length xs < fuel)%nat ->
  (forall n, fits T (total (firstn n xs))) -> Sum fuel T r = Ok (total xs).
Proof.
  intros W Y F P. unfold Sum. rewrite (fold_yields _ _ _ _ _ Y) by auto. clear Y F fuel r.
  assert (H : forall ys zs, xs = ys ++ zs -> foldr (fun s v => assign_op T (s + v)) (total ys) zs = Ok (total xs)).
  { intros ys zs. revert ys. induction zs as [|z zs IH]; intros ys E; cbn [foldr].
    - rewrite app_nil_r in E. congruence.
    - assert (E2 : total ys + z = total (ys ++ [z])) by (rewrite total_app; unfold total; cbn; lia).
      assert (E3 : xs = (ys ++ [z]) ++ zs) by (rewrite <- app_assoc; exact E).
      rewrite E2, assign_fits; auto; [cbn [bind]; apply IH; auto|].
      specialize (P (length (ys ++ [z]))). rewrite E3 in P. rewrite firstn_app, Nat.sub_diag, firstn_all in P. cbn [firstn] in P. rewrite app_nil_r in P. exact P. }
  apply (H [] xs). reflexivity.
Qed.
Lemma add_unsigned T a c : std_width (width T) -> signed T = false -> fits T a -> fits T c ->
  assign_op T (a + c) = Ok (wrap (width T) (a + c)).
Proof.
  intros W U Fa Fc. destruct (Z.lt_ge_cases (width T) 32) as [L|L].
  - unfold assign_op, promote. replace (width T <? 32) with true by lia.
    rewrite calc_fits; [|cbn; lia|].
    + cbn [bind]. unfold conv. rewrite U. reflexivity.
    + unfold fits, lowest, highest in *. rewrite U in *. cbn [signed width i32].
      assert (2 ^ width T <= 2 ^ 16) by (apply Z.pow_le_mono_r; unfold std_width in W; lia). lia.
  - apply assign_unsigned; auto.
Qed.
Lemma sum_wraps T (r : range Z) xs fuel : std_width (width T) -> signed T = false -> visits r xs -> (length xs < fuel)%nat ->
  Forall (fits T) xs -> Sum fuel T r = Ok (total xs mod 2 ^ width T).
Proof.
  intros W U Y F P. unfold Sum. rewrite (fold_yields _ _ _ _ _ Y) by auto. clear Y F fuel r.
  pose proof (std_pos _ W) as W0. pose proof (pow_pos (width T)) as PP.
  assert (H : forall zs a, Forall (fits T) zs -> fits T a ->
    foldr (fun s v => assign_op T (s + v)) a zs = Ok ((a + total zs) mod 2 ^ width T)).
  { clear P xs. induction zs as [|z zs IH]; intros a FZ Fa; cbn [foldr].
    - f_equal. unfold total. cbn. rewrite Z.add_0_r. symmetry. apply Z.mod_small. revert Fa. unfold fits, lowest, highest. rewrite U. lia.
    - inversion FZ; subst. rewrite add_unsigned by auto. cbn [bind]. rewrite IH; auto.
      + f_equal. unfold wrap, total. cbn [fold_right]. rewrite Z.add_mod_idemp_l by lia. f_equal. lia.
      + unfold wrap, fits, lowest, highest. rewrite U. pose proof (Z.mod_pos_bound (a + z) (2 ^ width T)). lia. }
  rewrite H; auto. unfold fits, lowest, highest. rewrite U. lia.
Qed.
Lemma to_array_yields {A} b (d : A) (r : range A) n : forall s xs, yields b r s xs ->
  to_array n d r s = Ok (firstn n (xs ++ repeat d n)).
Proof.
  induction n as [|n IH]; intros s xs Y; auto. cbn [to_array].
  inversion Y as [t E D|t x s' ys E G N D Y']; subst; rewrite E.
  - rewrite (IH s []) by exact Y. reflexivity.
  - rewrite G. cbn [bind]. rewrite N. cbn [bind]. rewrite (IH _ _ Y'). cbn [bind app firstn]. f_equal. f_equal.
    rewrite !firstn_app. f_equal. 
    replace (S n) with (n + 1)%nat by lia. rewrite repeat_app, firstn_app, repeat_length.
    replace (n - length ys - n)%nat with 0%nat by lia. cbn [firstn]. rewrite app_nil_r. reflexivity.
Qed.

(** ** Pipelines *)
Lemma filter_length_le' {A} (p : A -> bool) xs : (length (filter p xs) <= length xs)%nat.
Proof. induction xs as [|x xs IH]; cbn; auto. destruct (p x); cbn; lia. Qed.
Lemma take_while_length {A} (p : A -> bool) xs : (length (take_while p xs) <= length xs)%nat.
Proof. induction xs as [|x xs IH]; cbn; auto. destruct (p x); cbn; lia. Qed.
Lemma changes_length {A} eqb (xs : list A) : forall o, (length (changes eqb o xs) <= length xs)%nat.
Proof. induction xs as [|x xs IH]; intros [p|]; cbn; auto; specialize (IH (Some x)); [destruct (eqb x p); cbn|]; lia. Qed.
Lemma meaning_length {A} (g : stage A) xs : (length (meaning g xs) <= length xs)%nat.
Proof.
  destruct g; cbn [meaning]; auto using filter_length_le', take_while_length, drop_while_length, changes_length.
  - rewrite map_length. auto.
  - rewrite firstn_length. lia.
  - rewrite skipn_length. lia.
Qed.
Lemma stage_lists {A} (g : stage A) (r : range A) xs fuel : good_stage g -> lists r xs -> (length xs < fuel)%nat ->
  Z.of_nat (length xs) < 2 ^ 63 ->
  exists r', run_stage fuel g r = Ok r' /\ lists r' (meaning g xs).
Proof.
  intros G Y F B. pose proof (lists_visits r xs Y) as V. destruct g; cbn [good_stage] in G; cbn [run_stage meaning].
  - apply filter_lists; auto.
  - eexists. split; [reflexivity|]. apply map_lists; auto.
  - apply take_lists; auto.
  - apply skip_lists; auto.
  - apply drop_while_lists; auto.
  - apply drop_until_lists; auto.
  - apply take_until_lists; auto.
  - eexists. split; [reflexivity|]. apply unique_lists; auto.
Qed.
Lemma pipeline_lists {A} (gs : list (stage A)) fuel : forall (r : range A) xs, Forall good_stage gs -> lists r xs -> (length xs < fuel)%nat ->
  Z.of_nat (length xs) < 2 ^ 63 ->
  exists r', run_pipeline fuel gs r = Ok r' /\ lists r' (meanings gs xs).
Proof.
  induction gs as [|g gs IH]; intros r xs G Y F B; cbn [run_pipeline]; [eauto|].
  inversion G; subst. destruct (stage_lists g r xs fuel) as (r1 & E & Y1); auto. rewrite E. cbn [bind].
  pose proof (meaning_length g xs). apply IH; auto; lia.
Qed.
Lemma map_projection : exists (f p : Z -> Z) l, ~ visits (Map f p (of_list l)) (map (fun x => f (p x)) l).
Proof.
  exists (fun x => x), (fun x => x + 1), [1]. intros V.
  pose proof (map_visits (fun x => x) (fun x => x + 1) _ _ (lists_visits _ _ (of_list_lists [1]))) as V2.
  pose proof (yields_fun _ _ _ _ _ V _ V2) as E. discriminate E.
Qed.
Lemma find_visits {A B} (eqb : B -> B -> bool) needle (proj : A -> B) (r : range A) xs fuel : visits r xs -> (length xs < fuel)%nat ->
  exists s, Find fuel eqb needle proj r = Ok s /\ visits (from r s) (drop_while (fun x => negb (eqb needle (proj x))) xs).
Proof.
  intros V F. destruct (find_yields eqb needle proj r xs fuel false V F) as (s & E & Y). exists s. split; auto. apply yields_from, Y.
Qed.
Lemma find_if_visits {A B} w (needle : list B -> bool) (proj : A -> B) (r : range A) xs fuel : (1 <= w)%nat ->
  visits r xs -> (length xs < fuel)%nat ->
  let p := fun l => needle (map proj l) in
  exists s, FindIf fuel w needle proj r = Ok s /\
    ((exists i, first_match w p xs i /\ visits (from r s) (skipn i xs)) \/ (no_match w p xs /\ visits (from r s) [])).
Proof.
  intros W V F p. destruct (find_if_yields w needle proj r false W xs (cur r) fuel V F) as (s & E & H).
  exists s. split; auto. destruct H as [(i & M & Y)|(M & Y)]; [left; exists i|right]; split; auto; apply yields_from, Y.
Qed.
Lemma slide_lists {A} w (r : range A) xs : 1 <= w < 2 ^ 63 -> visits r xs -> w <= Z.of_nat (length xs) ->
  lists (Slide w r) (map (fun i => firstn (Z.to_nat w) (skipn i xs)) (seq 0 (length xs - Z.to_nat w + 1))).
Proof. intros W V L. apply (slide_yields w r W xs (cur r) false V). lia. Qed.

Lemma c128_distance_overflow_refuted_l :
  forall T first last fuel, 0 < width T -> signed T = true -> ~ fits (promote T) (last - first) -> Count fuel (iota_view T first last) = UB.
Proof.
  intros T first last fuel P S F. unfold Count, distance. cbn [random iota_view rdist cur st].
  assert (SP : signed (promote T) = true) by (unfold promote; destruct (width T <? 32); [reflexivity|exact S]).
  unfold calc. rewrite SP. destruct ((lowest (promote T) <=? last - first) && (last - first <=? highest (promote T))) eqn:E; [|reflexivity].
  exfalso. apply F. apply andb_true_iff in E. destruct E as [E1 E2]. apply Z.leb_le in E1. apply Z.leb_le in E2. split; assumption.
Qed.

Lemma c128_count_unsigned_l :
  forall T first last fuel, std_width (width T) -> signed T = false -> fits T first -> fits T last -> first <= last ->
  Count fuel (iota_view T first last) = Ok (last - first).
Proof.
  intros T first last fuel W S F L O. unfold Count, distance. cbn [random iota_view rdist cur st].
  destruct T as [sg w]. cbn in S, W. subst sg. unfold fits, lowest, highest in F, L. cbn in F, L. unfold std_width in W.
  assert (C : calc (promote {| signed := false; width := w |}) (last - first) = Ok (last - first) /\ 0 <= last - first < 2 ^ 64).
  { destruct W as [->|[->|[->| ->]]]; (split; [|lia]); unfold calc, promote; cbn [width signed Z.ltb Z.compare Pos.compare Pos.compare_cont];
    unfold lowest, highest, wrap; cbn [signed width i32 u32 u64].
    1,2: replace ((- 2 ^ (32 - 1) <=? last - first) && (last - first <=? 2 ^ (32 - 1) - 1)) with true; [reflexivity|symmetry; apply andb_true_iff; split; apply Z.leb_le; lia].
    all: rewrite Z.mod_small by lia; reflexivity. }
  destruct C as [C R]. rewrite C. cbn [bind]. f_equal. change (conv u64 (conv i64 (last - first))) with (wrap (width i64) (conv i64 (last - first))).
  rewrite conv_wrap by (cbn; lia). unfold wrap. cbn [width i64]. apply Z.mod_small, R.
Qed.
