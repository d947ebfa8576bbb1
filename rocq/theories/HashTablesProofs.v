(** Proofs about the hash tables.  Statements are in HashTablesProps.v. *)
From Verif Require Import Common CommonProofs Ints Math BitsProofs Pipelines SpecPipes PipelinesProofs Iterators IteratorsProofs
  HashTables SpecHashTables.
From Coq Require Import ZifyBool.
Open Scope nat_scope.
Local Arguments Z.mul : simpl never.
Local Arguments Z.add : simpl never.
Local Arguments Z.sub : simpl never.
Local Arguments Z.pow : simpl never.
Local Arguments Z.of_nat : simpl never.

(** * Probing. *)
Section Probing.
Context {K V : Type}.
Variable eqb : K -> K -> bool.
Hypothesis D : decides eqb.
Implicit Types (l : @slots K V) (k : K) (v : V).

Lemma eqb_rfl k : eqb k k = true.
Proof. apply D. reflexivity. Qed.
Lemma eqb_ne (a b : K) : a <> b -> eqb a b = false.
Proof. intros H. destruct (eqb a b) eqn:E; [apply D in E; contradiction|reflexivity]. Qed.
Lemma eqb_case (a b : K) : {a = b} + {a <> b}.
Proof.
  destruct (eqb a b) eqn:E; [left; apply D; exact E|right; intros ->; rewrite eqb_rfl in E; discriminate].
Qed.

Definition stop l key j : Prop :=
  nth_error l j = Some None \/ exists v, nth_error l j = Some (Some (key, v)).
Definition before (s j i : nat) : Prop := s <= j < i \/ (i < s /\ (s <= j \/ j < i)).

Lemma stop_lt l key j : stop l key j -> j < length l.
Proof. intros [E|[v E]]; apply nth_error_some_lt in E; exact E. Qed.

Lemma probe_some l key n i :
  probe eqb l key n = Some i ->
  n <= i /\ stop l key (i - n) /\ forall j, j < i - n -> ~ stop l key j.
Proof.
  revert n. induction l as [|[[k v]|] l IH]; intros n; cbn [probe]; [discriminate| |].
  - destruct (eqb k key) eqn:E.
    + intros H. injection H as <-. apply D in E. subst. rewrite Nat.sub_diag.
      split; [lia|]. split; [right; exists v; reflexivity|lia].
    + intros H. destruct (IH _ H) as (A & B & C). split; [lia|].
      replace (i - n) with (S (i - S n)) by lia. split; [exact B|].
      intros [|j] J.
      * intros [X|[w X]]; cbn in X; [discriminate|]. injection X as -> ->. rewrite eqb_rfl in E. discriminate.
      * apply (C j). lia.
  - intros H. injection H as <-. rewrite Nat.sub_diag. split; [lia|]. split; [left; reflexivity|lia].
Qed.
Lemma probe_none l key n : probe eqb l key n = None -> forall j, ~ stop l key j.
Proof.
  revert n. induction l as [|[[k v]|] l IH]; intros n; cbn [probe].
  - intros _ j S. apply stop_lt in S. cbn in S. lia.
  - destruct (eqb k key) eqn:E; [discriminate|]. intros H [|j].
    + intros [X|[w X]]; cbn in X; [discriminate|]. injection X as -> ->. rewrite eqb_rfl in E. discriminate.
    + exact (IH _ H j).
  - discriminate.
Qed.

Lemma nth_error_skipn' {A} s (l : list A) j : nth_error (skipn s l) j = nth_error l (s + j).
Proof. revert l. induction s as [|s IH]; intros [|x l]; cbn; auto. destruct j; reflexivity. Qed.
Lemma nth_error_firstn' {A} s (l : list A) j : j < s -> nth_error (firstn s l) j = nth_error l j.
Proof.
  revert l j. induction s as [|s IH]; intros l j H; [lia|]. destruct l as [|x l]; cbn; [destruct j; reflexivity|].
  destruct j as [|j]; cbn; [reflexivity|]. apply IH. lia.
Qed.
Lemma stop_skipn s l key j : stop (skipn s l) key j <-> stop l key (s + j).
Proof. unfold stop. rewrite nth_error_skipn'. tauto. Qed.
Lemma stop_firstn s l key j : j < s -> (stop (firstn s l) key j <-> stop l key j).
Proof. intros H. unfold stop. rewrite nth_error_firstn' by exact H. tauto. Qed.

Lemma probe_from_some l s key i :
  probe_from eqb l s key = Some i ->
  stop l key i /\ forall j, j < length l -> before s j i -> ~ stop l key j.
Proof.
  unfold probe_from. destruct (probe eqb (skipn s l) key s) as [n|] eqn:E.
  - intros H. injection H as <-. apply probe_some in E. destruct E as (A & B & C).
    rewrite stop_skipn in B. replace (s + (n - s)) with n in B by lia. split; [exact B|].
    intros j J [F|F]; [|lia]. specialize (C (j - s)). rewrite stop_skipn in C.
    replace (s + (j - s)) with j in C by lia. apply C. lia.
  - intros H. apply probe_some in H. destruct H as (_ & B & C). rewrite Nat.sub_0_r in *.
    assert (L : i < s) by (apply stop_lt in B; rewrite firstn_length in B; lia).
    rewrite stop_firstn in B by exact L. split; [exact B|].
    intros j J F. assert (F' : s <= j \/ j < i) by (unfold before in F; lia). destruct F' as [F'|F'].
    + pose proof (probe_none _ _ _ E (j - s)) as X. rewrite stop_skipn in X.
      replace (s + (j - s)) with j in X by lia. exact X.
    + specialize (C j F'). rewrite stop_firstn in C by lia. exact C.
Qed.
Lemma probe_from_none l s key : probe_from eqb l s key = None -> forall j, ~ stop l key j.
Proof.
  unfold probe_from. destruct (probe eqb (skipn s l) key s) as [n|] eqn:E; [discriminate|].
  intros H j. destruct (Nat.lt_ge_cases j s) as [L|L].
  - pose proof (probe_none _ _ _ H j) as X. rewrite stop_firstn in X by exact L. exact X.
  - pose proof (probe_none _ _ _ E (j - s)) as X. rewrite stop_skipn in X.
    replace (s + (j - s)) with j in X by lia. exact X.
Qed.
Lemma before_total s i j : i <> j -> before s i j \/ before s j i.
Proof. unfold before. lia. Qed.
Lemma probe_from_intro l s key i :
  stop l key i -> (forall j, j < length l -> before s j i -> ~ stop l key j) -> probe_from eqb l s key = Some i.
Proof.
  intros A B. destruct (probe_from eqb l s key) as [n|] eqn:E.
  - destruct (Nat.eq_dec n i) as [->|N]; [reflexivity|]. apply probe_from_some in E. destruct E as [C F].
    destruct (before_total s n i N) as [X|X].
    + destruct (B n (stop_lt _ _ _ C) X C).
    + destruct (F i (stop_lt _ _ _ A) X A).
  - destruct (probe_from_none _ _ _ E i A).
Qed.

(** * What the slots hold. *)
Fixpoint contents l : list (K * V) :=
  match l with
  | [] => []
  | Some p :: l => p :: contents l
  | None :: l => contents l
  end.
Lemma contents_app a b : contents (a ++ b) = contents a ++ contents b.
Proof. induction a as [|[p|] a IH]; cbn; [reflexivity| |]; rewrite IH; reflexivity. Qed.
Lemma contents_in l p : In p (contents l) <-> exists i, nth_error l i = Some (Some p).
Proof.
  induction l as [|[q|] l IH]; cbn [contents].
  - split; [intros []|intros [[|i] E]; discriminate].
  - cbn [In]. rewrite IH. split.
    + intros [->|[i E]]; [exists 0; reflexivity|exists (S i); exact E].
    + intros [[|i] E]; cbn in E; [left; congruence|right; exists i; exact E].
  - rewrite IH. split.
    + intros [i E]. exists (S i). exact E.
    + intros [[|i] E]; cbn in E; [discriminate|exists i; exact E].
Qed.
Lemma contents_none n : contents (repeat None n) = [].
Proof. induction n; auto. Qed.
Lemma contents_length l : length (contents l) <= length l.
Proof. induction l as [|[p|] l IH]; cbn; lia. Qed.
Lemma contents_lt l i : nth_error l i = Some None -> length (contents l) < length l.
Proof.
  revert i. induction l as [|[p|] l IH]; intros [|i] E; cbn in E |- *; try discriminate.
  - specialize (IH _ E). lia.
  - pose proof (contents_length l). lia.
  - specialize (IH _ E). lia.
Qed.
Lemma contents_full l : (forall i, nth_error l i <> Some None) -> length (contents l) = length l.
Proof.
  induction l as [|[p|] l IH]; intros H; cbn; [reflexivity| |].
  - rewrite IH; [reflexivity|]. intros i. exact (H (S i)).
  - destruct (H 0). reflexivity.
Qed.

(** * The abstract map. *)
Lemma alookup_in (m : list (K * V)) k v : NoDup (map fst m) -> (alookup eqb m k = Some v <-> In (k, v) m).
Proof.
  induction m as [|[a b] m IH]; cbn [alookup map fst]; intros N; [split; [discriminate|intros []]|].
  inversion N as [|? ? NI ND]; subst. destruct (eqb_case a k) as [->|NE].
  - rewrite eqb_rfl. cbn. split; [intros E; left; congruence|].
    intros [E|E]; [congruence|]. destruct NI. apply (in_map fst) in E. exact E.
  - rewrite eqb_ne by exact NE. rewrite IH by exact ND. cbn. split; [auto|].
    intros [E|E]; [congruence|exact E].
Qed.
Lemma alookup_none (m : list (K * V)) k : alookup eqb m k = None <-> ~ In k (map fst m).
Proof.
  induction m as [|[a b] m IH]; cbn [alookup map fst In]; [tauto|].
  destruct (eqb_case a k) as [->|NE].
  - rewrite eqb_rfl. split; [discriminate|intros H; destruct H; auto].
  - rewrite eqb_ne by exact NE. rewrite IH. tauto.
Qed.
Lemma alookup_perm (m m' : list (K * V)) k : NoDup (map fst m) -> Permutation m m' -> alookup eqb m k = alookup eqb m' k.
Proof.
  intros N P. assert (N' : NoDup (map fst m')) by (eapply Permutation_NoDup; [apply Permutation_map; exact P|exact N]).
  destruct (alookup eqb m k) as [v|] eqn:E.
  - symmetry. apply alookup_in; [exact N'|]. apply (Permutation_in _ P). apply alookup_in; assumption.
  - symmetry. apply alookup_none. apply alookup_none in E. intros X. apply E.
    apply (Permutation_in _ (Permutation_sym (Permutation_map fst P))). exact X.
Qed.
Lemma aremove_notin (m : list (K * V)) k : ~ In k (map fst m) -> aremove eqb k m = m.
Proof.
  unfold aremove. induction m as [|[a b] m IH]; cbn [filter map fst In]; intros H; [reflexivity|].
  rewrite eqb_ne by tauto. cbn. rewrite IH by tauto. reflexivity.
Qed.
Lemma aremove_app (m m' : list (K * V)) k : aremove eqb k (m ++ m') = aremove eqb k m ++ aremove eqb k m'.
Proof. apply filter_app. Qed.
Lemma aremove_perm (m m' : list (K * V)) k : Permutation m m' -> Permutation (aremove eqb k m) (aremove eqb k m').
Proof.
  unfold aremove. intros P. induction P as [|x m m' P IH|x y m|m1 m2 m3 P1 IH1 P2 IH2]; cbn [filter].
  - constructor.
  - destruct (negb (eqb (fst x) k)); auto.
  - destruct (negb (eqb (fst x) k)), (negb (eqb (fst y) k)); auto. constructor.
  - etransitivity; eassumption.
Qed.
Lemma aremove_in (m : list (K * V)) k p : In p (aremove eqb k m) <-> In p m /\ fst p <> k.
Proof.
  unfold aremove. rewrite filter_In. split; intros [A B]; (split; [exact A|]).
  - intros E. rewrite E, eqb_rfl in B. discriminate.
  - rewrite eqb_ne by exact B. reflexivity.
Qed.
Lemma aremove_nodup (m : list (K * V)) k : NoDup (map fst m) -> NoDup (map fst (aremove eqb k m)).
Proof.
  unfold aremove. induction m as [|[a b] m IH]; cbn [filter map fst]; intros N; [constructor|].
  inversion N as [|? ? NI ND]; subst. destruct (negb (eqb a k)); [|auto]. cbn. constructor; [|auto].
  intros X. apply NI. apply in_map_iff in X. destruct X as (q & E & X). apply filter_In in X.
  rewrite <- E. apply in_map. apply X.
Qed.
Lemma aremove_keys (m : list (K * V)) k : ~ In k (map fst (aremove eqb k m)).
Proof. intros X. apply in_map_iff in X. destruct X as (q & E & X). apply aremove_in in X. tauto. Qed.
Lemma aset_nodup (m : list (K * V)) k v : NoDup (map fst m) -> NoDup (map fst (aset eqb k v m)).
Proof. intros N. cbn. constructor; [apply aremove_keys|apply aremove_nodup; exact N]. Qed.

(** * The invariant: a search finds what is stored. *)
Variable hm : K -> nat.
Definition found l : Prop :=
  forall i k v, nth_error l i = Some (Some (k, v)) -> probe_from eqb l (hm k) k = Some i.

Lemma found_none n : found (repeat None n).
Proof. intros i k v E. apply nth_error_In, repeat_spec in E. discriminate. Qed.
Lemma found_same l i j k v w :
  found l -> nth_error l i = Some (Some (k, v)) -> nth_error l j = Some (Some (k, w)) -> i = j.
Proof. intros F A B. apply F in A. apply F in B. congruence. Qed.
Lemma found_upd l i k v : found l -> probe_from eqb l (hm k) k = Some i -> found (upd l i (Some (k, v))).
Proof.
  intros F P. pose proof (probe_from_some _ _ _ _ P) as [St Bf]. pose proof (stop_lt _ _ _ St) as Li.
  intros i' k' v' E. destruct (Nat.eq_dec i' i) as [EI|N].
  - subst i'. rewrite nth_error_upd_eq in E by exact Li. injection E as <- <-.
    apply probe_from_intro; [right; exists v; apply nth_error_upd_eq; exact Li|].
    intros j J B X. rewrite upd_length in J. apply (Bf j J B).
    unfold stop in *. rewrite nth_error_upd_ne in X; [exact X|]. unfold before in B. lia.
  - rewrite nth_error_upd_ne in E by exact N. pose proof (F _ _ _ E) as P'.
    assert (KN : k' <> k) by (intros ->; congruence).
    apply probe_from_some in P'. destruct P' as [_ B']. apply probe_from_intro.
    + right. exists v'. rewrite nth_error_upd_ne by exact N. exact E.
    + intros j J B X. rewrite upd_length in J. apply (B' j J B). unfold stop in *.
      destruct (Nat.eq_dec j i) as [EJ|NJ]; [subst j|rewrite nth_error_upd_ne in X by exact NJ; exact X].
      rewrite nth_error_upd_eq in X by exact Li. destruct X as [X|[w X]]; [discriminate|]. congruence.
Qed.

Lemma found_nodup l : found l -> NoDup (map fst (contents l)).
Proof.
  intros F.
  assert (G : forall i j k v w, nth_error l i = Some (Some (k, v)) -> nth_error l j = Some (Some (k, w)) -> i = j)
    by (intros; eapply found_same; eassumption).
  clear F. induction l as [|[[k v]|] l IH]; cbn [contents map fst]; [constructor| |].
  - constructor.
    + intros X. apply in_map_iff in X. destruct X as ([k' w] & E & X). cbn in E. subst k'.
      apply contents_in in X. destruct X as [i X]. specialize (G 0 (S i) k v w eq_refl X). discriminate.
    + apply IH. intros i j k' v' w A B. specialize (G (S i) (S j) k' v' w A B). lia.
  - apply IH. intros i j k' v' w A B. specialize (G (S i) (S j) k' v' w A B). lia.
Qed.

(** What a search sees, in terms of the contents. *)
Definition value l k : option V :=
  match probe_from eqb l (hm k) k with
  | Some i => match nth_error l i with Some (Some (_, v)) => Some v | _ => None end
  | None => None
  end.
Lemma value_lookup l k : found l -> value l k = alookup eqb (contents l) k.
Proof.
  intros F. pose proof (found_nodup l F) as N. unfold value. symmetry.
  destruct (alookup eqb (contents l) k) as [v|] eqn:E.
  - apply alookup_in in E; [|exact N]. apply contents_in in E. destruct E as [i E].
    rewrite (F _ _ _ E), E. reflexivity.
  - destruct (probe_from eqb l (hm k) k) as [i|] eqn:P; [|reflexivity].
    apply probe_from_some in P. destruct P as [[X|[v X]] _]; rewrite X; [reflexivity|].
    apply alookup_none in E. destruct E. apply in_map_iff. exists (k, v). split; [reflexivity|].
    apply contents_in. exists i. exact X.
Qed.
Lemma split_at l i o : nth_error l i = Some o -> exists a b, l = a ++ o :: b /\ length a = i.
Proof. intros E. apply nth_error_split in E. destruct E as (a & b & E & L). eauto. Qed.
Lemma upd_mid {A} (a : list A) x y b : upd (a ++ x :: b) (length a) y = a ++ y :: b.
Proof. induction a as [|z a IH]; cbn; [reflexivity|]. rewrite IH. reflexivity. Qed.
Lemma contents_upd l i k v :
  found l -> probe_from eqb l (hm k) k = Some i ->
  Permutation (contents (upd l i (Some (k, v)))) (aset eqb k v (contents l)).
Proof.
  intros F P. pose proof (found_nodup l F) as N. pose proof P as P0. apply probe_from_some in P0. destruct P0 as [St _].
  assert (G : forall j w, nth_error l j = Some (Some (k, w)) -> j = i) by (intros j w E; apply F in E; congruence).
  unfold aset. destruct St as [X|[w X]].
  - assert (NI : ~ In k (map fst (contents l))).
    { intros Y. apply in_map_iff in Y. destruct Y as ([k' w] & E & Y). cbn in E. subst k'.
      apply contents_in in Y. destruct Y as [j Y]. pose proof (G _ _ Y). congruence. }
    rewrite aremove_notin by exact NI. destruct (split_at _ _ _ X) as (a & b & -> & <-).
    rewrite upd_mid, !contents_app. cbn [contents]. symmetry. apply Permutation_middle.
  - destruct (split_at _ _ _ X) as (a & b & -> & <-). rewrite upd_mid, !contents_app. cbn [contents].
    rewrite contents_app in N. cbn [contents] in N. rewrite map_app in N. cbn [map fst] in N.
    apply NoDup_remove_2 in N. rewrite in_app_iff in N. rewrite aremove_app.
    rewrite (aremove_notin (contents a)) by tauto. unfold aremove. cbn [filter fst]. rewrite eqb_rfl. cbn [negb].
    change (filter _ (contents b)) with (aremove eqb k (contents b)). rewrite aremove_notin by tauto.
    symmetry. apply Permutation_middle.
Qed.

(** [l] stands for the map [m]. *)
Definition repr l (m : list (K * V)) : Prop := found l /\ Permutation (contents l) m.
Lemma repr_nodup l m : repr l m -> NoDup (map fst m).
Proof. intros [F P]. eapply Permutation_NoDup; [apply Permutation_map; exact P|]. apply found_nodup. exact F. Qed.
Lemma repr_value l m k : repr l m -> value l k = alookup eqb m k.
Proof. intros [F P]. rewrite value_lookup by exact F. apply alookup_perm; [apply found_nodup; exact F|exact P]. Qed.
Lemma repr_none n : repr (repeat None n) [].
Proof. split; [apply found_none|]. rewrite contents_none. constructor. Qed.
Lemma repr_upd l m i k v : repr l m -> probe_from eqb l (hm k) k = Some i -> repr (upd l i (Some (k, v))) (aset eqb k v m).
Proof.
  intros [F P] E. split; [apply found_upd; assumption|]. etransitivity; [apply contents_upd; assumption|].
  unfold aset. constructor. apply aremove_perm. exact P.
Qed.
Lemma repr_room l m k i : repr l m -> probe_from eqb l (hm k) k = Some i -> has eqb m k || (length m <? length l) = true.
Proof.
  intros R E. pose proof (repr_value l m k R) as X. unfold value in X. rewrite E in X.
  apply probe_from_some in E. destruct E as [[Y|[v Y]] _].
  - apply contents_lt in Y. destruct R as [_ P]. rewrite (Permutation_length P) in Y.
    apply orb_true_iff. right. apply Nat.ltb_lt. exact Y.
  - rewrite Y in X. unfold has. rewrite <- X. reflexivity.
Qed.
Lemma repr_full l m k : repr l m -> probe_from eqb l (hm k) k = None -> has eqb m k || (length m <? length l) = false.
Proof.
  intros R E. pose proof (repr_value l m k R) as X. unfold value in X. rewrite E in X.
  pose proof (probe_from_none _ _ _ E) as N. unfold has. rewrite <- X. cbn [orb]. apply Nat.ltb_ge.
  destruct R as [_ P]. rewrite <- (Permutation_length P), contents_full; [lia|].
  intros i Y. apply (N i). left. exact Y.
Qed.
Lemma repr_put l m k v :
  repr l m ->
  match probe_from eqb l (hm k) k with
  | Some i => i < length l /\ put eqb (length l) k v m = Some (aset eqb k v m) /\ repr (upd l i (Some (k, v))) (aset eqb k v m)
  | None => put eqb (length l) k v m = None
  end.
Proof.
  intros R. destruct (probe_from eqb l (hm k) k) as [i|] eqn:E.
  - split; [apply probe_from_some in E; destruct E as [E _]; exact (stop_lt _ _ _ E)|]. split.
    + unfold put. rewrite (repr_room _ _ _ _ R E). reflexivity.
    + apply repr_upd; assumption.
  - unfold put. rewrite (repr_full _ _ _ R E). reflexivity.
Qed.
End Probing.

(** * The searches of the tables. *)
Lemma scale_home hash n : 0 < n -> scale_hash hash (Z.of_nat n) = Ok (Z.of_nat (home n hash)).
Proof.
  intros H. unfold scale_hash, scale_by, home, prime_a, prime_b, wrap.
  destruct (Z.eqb_spec (Z.of_nat n) 0); [lia|]. rewrite Zplus_mod_idemp_l. f_equal.
  rewrite Z2Nat.id; [reflexivity|]. apply Z.mod_pos_bound. lia.
Qed.
Lemma home_lt hash n : 0 < n -> home n hash < n.
Proof.
  intros H. unfold home.
  pose proof (Z.mod_pos_bound ((hash * 18446744073709551557 + 18446744073709551533) mod 2 ^ 64) (Z.of_nat n) ltac:(lia)). lia.
Qed.
Lemma find_index_home {K V} (eqb : K -> K -> bool) (l : @slots K V) hash key :
  0 < length l -> find_index eqb l hash key = Ok (probe_from eqb l (home (length l) hash) key).
Proof. intros H. unfold find_index, zlen. rewrite scale_home by exact H. cbn [bind]. rewrite Nat2Z.id. reflexivity. Qed.
Lemma find_index_zero {K V} (eqb : K -> K -> bool) hash key : find_index eqb (@nil (option (K * V))) hash key = UB.
Proof. reflexivity. Qed.

(** * Histories of puts and their keys. *)
Section Puts.
Context {K V : Type}.
Variable eqb : K -> K -> bool.
Hypothesis D : decides eqb.

Lemma has_in (m : list (K * V)) k : has eqb m k = true <-> In k (map fst m).
Proof.
  unfold has. destruct (alookup eqb m k) as [v|] eqn:E.
  - split; [intros _|reflexivity]. destruct (in_dec (eqb_case eqb D) k (map fst m)) as [X|X]; [exact X|].
    apply (proj2 (alookup_none eqb D m k)) in X. congruence.
  - apply (alookup_none eqb D) in E. split; [discriminate|contradiction].
Qed.
Lemma existsb_in (ks : list K) k : existsb (eqb k) ks = true <-> In k ks.
Proof.
  rewrite existsb_exists. split.
  - intros (x & A & B). apply D in B. subst. exact A.
  - intros A. exists k. split; [exact A|]. apply D. reflexivity.
Qed.
Lemma distinct_in ks k : In k (distinct eqb ks) <-> In k ks.
Proof.
  induction ks as [|a ks IH]; cbn [distinct]; [tauto|].
  destruct (existsb (eqb a) ks) eqn:E; cbn [In]; rewrite IH; [|tauto].
  apply existsb_in in E. split; [tauto|]. intros [<-|X]; assumption.
Qed.
Lemma distinct_nodup ks : NoDup (distinct eqb ks).
Proof.
  induction ks as [|a ks IH]; cbn [distinct]; [constructor|].
  destruct (existsb (eqb a) ks) eqn:E; [exact IH|]. constructor; [|exact IH].
  rewrite distinct_in. intros X. apply existsb_in in X. congruence.
Qed.
Lemma aset_keys (m : list (K * V)) k v x : In x (map fst (aset eqb k v m)) <-> x = k \/ In x (map fst m).
Proof.
  cbn. split.
  - intros [<-|X]; [auto|]. right. apply in_map_iff in X. destruct X as (q & <- & X).
    apply (aremove_in eqb D) in X. apply in_map. apply X.
  - destruct (eqb_case eqb D x k) as [->|N]; [auto|]. intros [X|X]; [contradiction|]. right.
    apply in_map_iff in X. destruct X as (q & <- & X). apply in_map. apply (aremove_in eqb D). auto.
Qed.
Lemma aset_length_in (m : list (K * V)) k v : NoDup (map fst m) -> In k (map fst m) -> length (aset eqb k v m) = length m.
Proof.
  intros N I'. rewrite <- (map_length fst), <- (map_length fst m).
  pose proof (aset_nodup eqb D m k v N) as N2.
  apply Nat.le_antisymm; apply NoDup_incl_length; auto; intros x X.
  - apply aset_keys in X. destruct X as [->|X]; assumption.
  - apply aset_keys. auto.
Qed.
Lemma aset_length_out (m : list (K * V)) k v : ~ In k (map fst m) -> length (aset eqb k v m) = S (length m).
Proof. intros N. cbn. rewrite (aremove_notin eqb D) by exact N. reflexivity. Qed.
Lemma puts_keys n (items m : list (K * V)) :
  NoDup (map fst m) -> length m <= n ->
  match puts eqb n items m with
  | Some m' => NoDup (map fst m') /\ length m' <= n /\
      forall x, In x (map fst m') <-> In x (map fst items) \/ In x (map fst m)
  | None => exists ks, NoDup ks /\ n < length ks /\
      forall x, In x ks -> In x (map fst items) \/ In x (map fst m)
  end.
Proof.
  revert m. induction items as [|[k v] items IH]; intros m N L; cbn [puts].
  - split; [exact N|]. split; [exact L|]. intros x. cbn. tauto.
  - unfold put. destruct (has eqb m k || (length m <? n)) eqn:E.
    + assert (L' : length (aset eqb k v m) <= n).
      { destruct (in_dec (eqb_case eqb D) k (map fst m)) as [X|X].
        - rewrite aset_length_in by assumption. exact L.
        - rewrite aset_length_out by exact X. apply orb_true_iff in E. destruct E as [E|E].
          + apply has_in in E. contradiction.
          + apply Nat.ltb_lt in E. lia. }
      specialize (IH _ (aset_nodup eqb D m k v N) L').
      destruct (puts eqb n items (aset eqb k v m)) as [m'|].
      * destruct IH as (A & B & C). split; [exact A|]. split; [exact B|]. intros x. rewrite C, aset_keys. cbn [map fst In].
        split; [intros [X|[X|X]]; auto|intros [[X|X]|X]; auto].
      * destruct IH as (ks & A & B & C). exists ks. split; [exact A|]. split; [exact B|]. intros x X.
        apply C in X. rewrite aset_keys in X. cbn [map fst In]. destruct X as [X|[X|X]]; auto.
    + apply orb_false_iff in E. destruct E as [E F]. apply Nat.ltb_ge in F.
      exists (k :: map fst m). split; [|split].
      * constructor; [|exact N]. intros X. apply has_in in X. congruence.
      * cbn [length]. rewrite map_length. lia.
      * intros x [<-|X]; [left; left; reflexivity|right; exact X].
Qed.
Lemma puts_distinct n (items : list (K * V)) :
  match puts eqb n items [] with
  | Some m => length (distinct eqb (map fst items)) <= n /\ forall k, has eqb m k = existsb (eqb k) (map fst items)
  | None => n < length (distinct eqb (map fst items))
  end.
Proof.
  pose proof (puts_keys n items [] ltac:(constructor) ltac:(cbn; lia)) as P.
  destruct (puts eqb n items []) as [m|].
  - destruct P as (A & B & C). split.
    + assert (B' : length (map fst m) <= n) by (rewrite map_length; exact B).
      eapply Nat.le_trans; [|exact B']. apply NoDup_incl_length; [apply distinct_nodup|].
      intros x X. apply (proj1 (distinct_in _ _)) in X. apply C. left. exact X.
    + intros k. apply eq_iff_eq_true. rewrite has_in, existsb_in, C. cbn. tauto.
  - destruct P as (ks & A & B & C). eapply Nat.lt_le_trans; [exact B|].
    apply NoDup_incl_length; [exact A|]. intros x X. apply distinct_in. apply C in X. cbn in X. tauto.
Qed.
End Puts.

(** * hash_set_t and bounded_hash_set_t. *)
Section Sets.
Context {K : Type}.
Variable eqb : K -> K -> bool.
Hypothesis D : decides eqb.
Variable h : K -> Z.
Let hm (n : nat) (k : K) : nat := home n (h k).

Lemma upd_same {A} (l : list A) i x : nth_error l i = Some x -> upd l i x = l.
Proof. revert i. induction l as [|y l IH]; intros [|i] E; cbn in *; try congruence. rewrite IH by exact E. reflexivity. Qed.
Lemma bs_insert_hs (l : set_slots) k : bs_insert eqb h l k = hs_insert eqb h l k.
Proof.
  unfold bs_insert, hs_insert. destruct l as [|o l]; [reflexivity|].
  rewrite find_index_home by (cbn; lia). cbn [bind].
  destruct (probe_from eqb (o :: l) (home (length (o :: l)) (h k)) k) as [i|] eqn:E; [|reflexivity].
  apply (probe_from_some eqb D) in E. destruct E as [[X|[[] X]] _]; rewrite (rd_some _ _ _ X); cbn [bind]; [reflexivity|].
  rewrite (upd_same _ _ _ X). reflexivity.
Qed.
Lemma hs_insert_repr (l : set_slots) m k n :
  0 < n -> length l = n -> repr eqb (hm n) l m ->
  match put eqb n k tt m with
  | Some m' => exists i l', hs_insert eqb h l k = Ok (i, l') /\ length l' = n /\ repr eqb (hm n) l' m' /\
      probe_from eqb l (hm n k) k = Some i /\ l' = upd l i (Some (k, tt))
  | None => hs_insert eqb h l k = Throw
  end.
Proof.
  intros H L R. pose proof (repr_put eqb D (hm n) l m k tt R) as P. rewrite L in P.
  unfold hs_insert. rewrite find_index_home by lia. rewrite L. cbn [bind]. change (home n (h k)) with (hm n k).
  destruct (probe_from eqb l (hm n k) k) as [i|] eqn:E.
  - destruct P as (A & B & C). rewrite B. exists i, (upd l i (Some (k, tt))). rewrite upd_length. auto 6.
  - rewrite P. reflexivity.
Qed.
Lemma hs_run_repr ks : forall (l : set_slots) m n,
  0 < n -> length l = n -> repr eqb (hm n) l m ->
  match puts eqb n (map (fun k => (k, tt)) ks) m with
  | Some m' => exists l', hs_run eqb h ks l = Ok l' /\ length l' = n /\ repr eqb (hm n) l' m'
  | None => hs_run eqb h ks l = Throw
  end.
Proof.
  induction ks as [|k ks IH]; intros l m n H L R; cbn [map puts hs_run].
  - exists l. auto.
  - pose proof (hs_insert_repr l m k n H L R) as P. destruct (put eqb n k tt m) as [m1|].
    + destruct P as (i & l1 & E & L1 & R1 & _). rewrite E. cbn [bind]. exact (IH l1 m1 n H L1 R1).
    + rewrite P. reflexivity.
Qed.
Lemma hs_exists_value (l : set_slots) k :
  0 < length l -> hs_exists eqb h l k = Ok (match value eqb (hm (length l)) l k with Some _ => true | None => false end).
Proof.
  intros H. unfold hs_exists, value. rewrite find_index_home by exact H. cbn [bind].
  change (home (length l) (h k)) with (hm (length l) k).
  destruct (probe_from eqb l (hm (length l) k) k) as [i|] eqn:E; [|reflexivity].
  apply (probe_from_some eqb D) in E. destruct E as [[X|[[] X]] _]; unfold rd; rewrite X; reflexivity.
Qed.
Lemma hs_exists_repr (l : set_slots) m k : 0 < length l -> repr eqb (hm (length l)) l m -> hs_exists eqb h l k = Ok (has eqb m k).
Proof. intros H R. rewrite hs_exists_value by exact H. rewrite (repr_value eqb D _ l m k R). reflexivity. Qed.
Lemma keys_tt (ks : list K) : map fst (map (fun k => (k, tt)) ks) = ks.
Proof. rewrite map_map. apply map_id. Qed.

Lemma hs_inserts n ks :
  0 < n -> length (distinct eqb ks) <= n ->
  exists l, hs_run eqb h ks (hs_make n) = Ok l /\
    forall k, hs_exists eqb h l k = Ok (existsb (eqb k) ks) /\
              hs_count eqb h l k = Ok (if existsb (eqb k) ks then 1%Z else 0%Z).
Proof.
  intros H L. pose proof (hs_run_repr ks (hs_make n) [] n H (repeat_length _ _) (repr_none eqb _ n)) as P.
  pose proof (puts_distinct eqb D n (map (fun k => (k, tt)) ks)) as Q. rewrite keys_tt in Q.
  destruct (puts eqb n (map (fun k => (k, tt)) ks) []) as [m|]; [|lia].
  destruct P as (l & E & Ln & R). exists l. split; [exact E|]. intros k. destruct Q as [_ Q]. subst n.
  unfold hs_count. rewrite (hs_exists_repr l m k H R), Q. auto.
Qed.
Lemma hs_full n ks : 0 < n -> n < length (distinct eqb ks) -> hs_run eqb h ks (hs_make n) = Throw.
Proof.
  intros H L. pose proof (hs_run_repr ks (hs_make n) [] n H (repeat_length _ _) (repr_none eqb _ n)) as P.
  pose proof (puts_distinct eqb D n (map (fun k => (k, tt)) ks)) as Q. rewrite keys_tt in Q.
  destruct (puts eqb n (map (fun k => (k, tt)) ks) []) as [m|]; [lia|exact P].
Qed.
Lemma hs_zero k : hs_insert eqb h (hs_make 0) k = UB /\ hs_exists eqb h (hs_make 0) k = UB.
Proof. split; reflexivity. Qed.

(** A key keeps its slot. *)
Lemma hs_run_keeps ks : forall (l l' : set_slots) n i k,
  0 < n -> length l = n -> found eqb (hm n) l -> nth_error l i = Some (Some (k, tt)) ->
  hs_run eqb h ks l = Ok l' -> length l' = n /\ found eqb (hm n) l' /\ nth_error l' i = Some (Some (k, tt)).
Proof.
  induction ks as [|a ks IH]; intros l l' n i k H L F E; cbn [hs_run].
  - intros X. injection X as <-. auto.
  - unfold hs_insert. rewrite find_index_home by lia. rewrite L. cbn [bind]. change (home n (h a)) with (hm n a).
    destruct (probe_from eqb l (hm n a) a) as [j|] eqn:P; [|discriminate]. cbn [bind]. intros X.
    refine (IH (upd l j (Some (a, tt))) l' n i k H _ _ _ X).
    + rewrite upd_length. exact L.
    + apply found_upd; assumption.
    + destruct (Nat.eq_dec i j) as [EI|N].
      * subst j. rewrite nth_error_upd_eq by (apply nth_error_some_lt in E; exact E).
        apply (probe_from_some eqb D) in P. destruct P as [[Y|[v Y]] _]; rewrite E in Y; [discriminate|].
        injection Y as -> _. reflexivity.
      * rewrite nth_error_upd_ne by exact N. exact E.
Qed.
Lemma hs_slots n ks l k i l1 ks' l2 :
  0 < n -> hs_run eqb h ks (hs_make n) = Ok l -> hs_insert eqb h l k = Ok (i, l1) -> hs_run eqb h ks' l1 = Ok l2 ->
  (i < n)%nat /\ hs_insert eqb h l2 k = Ok (i, l2) /\
  forall k' i' l3, k' <> k -> hs_insert eqb h l2 k' = Ok (i', l3) -> i' <> i.
Proof.
  intros H E1 E2 E3. pose proof (hs_run_repr ks (hs_make n) [] n H (repeat_length _ _) (repr_none eqb _ n)) as P.
  destruct (puts eqb n (map (fun k => (k, tt)) ks) []) as [m|]; [|congruence].
  destruct P as (l0 & E & L & R). rewrite E1 in E. injection E as <-.
  pose proof (hs_insert_repr l m k n H L R) as P. destruct (put eqb n k tt m) as [m1|]; [|congruence].
  destruct P as (i0 & l0 & E & L1 & R1 & P & U). rewrite E2 in E. injection E as <- <-.
  assert (Li : i < length l) by (apply (probe_from_some eqb D) in P; destruct P as [P _]; exact (stop_lt _ _ _ P)).
  assert (N1 : nth_error l1 i = Some (Some (k, tt))) by (rewrite U; apply nth_error_upd_eq; exact Li).
  destruct (hs_run_keeps ks' l1 l2 n i k H L1 (proj1 R1) N1 E3) as (L2 & F2 & N2).
  split; [lia|]. split.
  - unfold hs_insert. rewrite find_index_home by lia. rewrite L2. cbn [bind]. change (home n (h k)) with (hm n k).
    rewrite (F2 _ _ _ N2). rewrite (upd_same _ _ _ N2). reflexivity.
  - intros k' i' l3 NK X EI. subst i'. revert X. unfold hs_insert. rewrite find_index_home by lia. rewrite L2. cbn [bind].
    change (home n (h k')) with (hm n k'). destruct (probe_from eqb l2 (hm n k') k') as [j|] eqn:Q; [|discriminate].
    intros X. injection X as -> _. apply (probe_from_some eqb D) in Q. destruct Q as [[Y|[v Y]] _]; rewrite N2 in Y; congruence.
Qed.

(** bounded_hash_set_t does the same on inserts. *)
Lemma bs_run_inserts ks l : bs_run eqb h (map SInsert ks) l = hs_run eqb h ks l.
Proof.
  revert l. induction ks as [|k ks IH]; intros l; cbn [map bs_run hs_run]; [reflexivity|].
  rewrite bs_insert_hs. destruct (hs_insert eqb h l k) as [[i l']| | |]; cbn [bind]; auto.
Qed.
End Sets.

(** * Erasing, when every key is at its home slot. *)
Section AtHome.
Context {K V : Type}.
Variable eqb : K -> K -> bool.
Hypothesis D : decides eqb.
Variable hm : K -> nat.
Variable U : list K.
Hypothesis J : forall a b, In a U -> In b U -> hm a = hm b -> a = b.
Implicit Types (l : @slots K V).

Definition at_home l : Prop := forall i k v, nth_error l i = Some (Some (k, v)) -> i = hm k /\ In k U.
Lemma before_self s j : ~ before s j s.
Proof. unfold before. lia. Qed.
Lemma at_home_found l : at_home l -> found eqb hm l.
Proof.
  intros H i k v E. destruct (H _ _ _ E) as [EI _]. subst i. apply (probe_from_intro eqb D).
  - right. exists v. exact E.
  - intros j _ B. destruct (before_self _ _ B).
Qed.
Lemma at_home_probe l k : at_home l -> In k U -> hm k < length l -> probe_from eqb l (hm k) k = Some (hm k).
Proof.
  intros H I' L. apply (probe_from_intro eqb D); [|intros j _ B; destruct (before_self _ _ B)].
  destruct (nth_error_ex l (hm k) L) as [[[k' v]|] E]; [|left; exact E].
  destruct (H _ _ _ E) as [A B]. right. exists v. rewrite E. rewrite (J k k' I' B A). reflexivity.
Qed.
Lemma at_home_some l k v : at_home l -> In k U -> hm k < length l -> at_home (upd l (hm k) (Some (k, v))).
Proof.
  intros H I' L i k' v' E. destruct (Nat.eq_dec i (hm k)) as [EI|N].
  - subst i. rewrite nth_error_upd_eq in E by exact L. injection E as <- <-. auto.
  - rewrite nth_error_upd_ne in E by exact N. exact (H _ _ _ E).
Qed.
Lemma at_home_drop l i : at_home l -> i < length l -> at_home (upd l i None).
Proof.
  intros H L j k' v' E. destruct (Nat.eq_dec j i) as [EI|N].
  - subst j. rewrite nth_error_upd_eq in E by exact L. discriminate.
  - rewrite nth_error_upd_ne in E by exact N. exact (H _ _ _ E).
Qed.
Lemma at_home_none n : at_home (repeat None n).
Proof. intros i k v E. apply nth_error_In, repeat_spec in E. discriminate. Qed.
Lemma contents_drop l k :
  at_home l -> In k U -> hm k < length l -> contents (upd l (hm k) None) = aremove eqb k (contents l).
Proof.
  intros H I' L. destruct (nth_error_ex l (hm k) L) as [o E].
  assert (O' : match o with Some (k', _) => k' = k | None => True end).
  { destruct o as [[k' v]|]; [|exact Logic.I]. destruct (H _ _ _ E) as [A B]. symmetry. exact (J k k' I' B A). }
  destruct (split_at _ _ _ E) as (a & b & EL & La).
  assert (Na : ~ In k (map fst (contents a))).
  { intros X. apply in_map_iff in X. destruct X as ([k' w] & EK & X). cbn in EK. subst k'.
    apply contents_in in X. destruct X as [i X]. assert (i < length a) by (apply nth_error_some_lt in X; exact X).
    destruct (H i k w) as [Y _]; [|lia]. rewrite EL, nth_error_app1 by lia. exact X. }
  assert (Nb : ~ In k (map fst (contents b))).
  { intros X. apply in_map_iff in X. destruct X as ([k' w] & EK & X). cbn in EK. subst k'.
    apply contents_in in X. destruct X as [i X].
    destruct (H (length a + S i) k w) as [Y _]; [|lia]. rewrite EL, nth_error_app2 by lia.
    replace (length a + S i - length a) with (S i) by lia. exact X. }
  rewrite <- La. rewrite EL, upd_mid, !contents_app. cbn [contents]. rewrite aremove_app, (aremove_notin eqb D) by exact Na.
  destruct o as [[k' v]|]; [subst k'|rewrite (aremove_notin eqb D) by exact Nb; reflexivity].
  cbn [contents]. unfold aremove. cbn [filter fst]. rewrite (eqb_rfl eqb D). cbn [negb].
  change (filter _ (contents b)) with (aremove eqb k (contents b)). rewrite (aremove_notin eqb D) by exact Nb. reflexivity.
Qed.
Lemma repr_drop l m k :
  at_home l -> Permutation (contents l) m -> In k U -> hm k < length l ->
  at_home (upd l (hm k) None) /\ Permutation (contents (upd l (hm k) None)) (aremove eqb k m).
Proof.
  intros H P I' L. split; [apply at_home_drop; assumption|]. rewrite contents_drop by assumption. apply aremove_perm. exact P.
Qed.
End AtHome.

(** * Loops over the slots. *)
Section Loops.
Context {K V : Type}.
Implicit Types (l a b c : @slots K V).

Lemma rd_app_at {A} (a : list A) x (b : list A) : rd (a ++ x :: b) (length a) = Ok x.
Proof. unfold rd. rewrite nth_error_app2, Nat.sub_diag by lia. reflexivity. Qed.
Lemma scan_sentinel c : forall a fuel,
  length c < fuel ->
  it_scan fuel false ((a ++ c) ++ [None]) (length (a ++ c)) (length a) = Ok (length a + first_used c).
Proof.
  induction c as [|[p|] c IH]; intros a fuel F; (destruct fuel as [|fuel]; [cbn in F; lia|]); cbn [it_scan first_used].
  - rewrite app_nil_r, rd_app_at. cbn [bind]. rewrite Nat.ltb_irrefl. f_equal. lia.
  - rewrite <- app_assoc. cbn [app]. rewrite rd_app_at. cbn [bind]. f_equal. lia.
  - replace (rd ((a ++ None :: c) ++ [None]) (length a)) with (Ok (@None (K * V)))
      by (rewrite <- app_assoc; cbn [app]; rewrite rd_app_at; reflexivity).
    cbn [bind]. rewrite (proj2 (Nat.ltb_lt _ _)) by (rewrite app_length; cbn; lia).
    specialize (IH (a ++ [None]) fuel). rewrite <- !app_assoc in IH. cbn [app] in IH. rewrite <- app_assoc. cbn [app].
    rewrite !(app_length a [None]) in IH. cbn [length] in IH. replace (length a + 1) with (S (length a)) in IH by lia.
    cbn [length] in F. rewrite IH by lia. f_equal. lia.
Qed.
Lemma loop_sentinel c : forall a,
  yields false (it_range false ((a ++ c) ++ [None]) (length (a ++ c))) (length a + first_used c) (contents c).
Proof.
  induction c as [|[p|] c IH]; intros a; cbn [first_used contents].
  - apply yields_end; [|discriminate]. cbn. rewrite app_nil_r. apply Nat.eqb_eq. lia.
  - rewrite Nat.add_0_r. specialize (IH (a ++ [Some p])). rewrite <- (app_assoc a) in IH. cbn [app] in IH.
    apply yields_step with (s' := length (a ++ [Some p]) + first_used c); [| | |discriminate|exact IH].
    + cbn. apply Nat.eqb_neq. rewrite app_length. cbn. lia.
    + cbn [it_range forward get]. unfold it_get. rewrite <- app_assoc. cbn [app]. rewrite rd_app_at. reflexivity.
    + cbn [it_range forward inc]. unfold it_next.
      pose proof (scan_sentinel c (a ++ [Some p]) (S (S (length ((a ++ Some p :: c) ++ [None]))))) as X.
      rewrite <- (app_assoc a [Some p] c) in X. cbn [app] in X. 
      etransitivity; [|apply X; repeat rewrite app_length; cbn [length]; lia].
      rewrite (app_length a [Some p]). cbn [length]. rewrite Nat.add_1_r. reflexivity.
  - specialize (IH (a ++ [None])). rewrite <- (app_assoc a) in IH. cbn [app] in IH.
    rewrite !(app_length a [None]) in IH. cbn [length] in IH.
    replace (length a + S (first_used c)) with (length a + 1 + first_used c) by lia. exact IH.
Qed.

Lemma scan_plain past c : forall a fuel,
  length c < fuel ->
  it_scan fuel past (a ++ c) (length (a ++ c)) (length a) =
  match contents c with [] => UB | _ => Ok (length a + first_used c) end.
Proof.
  induction c as [|[p|] c IH]; intros a fuel F; (destruct fuel as [|fuel]; [cbn in F; lia|]); cbn [it_scan first_used contents].
  - rewrite app_nil_r. unfold rd. rewrite (proj2 (nth_error_None a (length a))) by lia. reflexivity.
  - rewrite rd_app_at. cbn [bind]. f_equal. lia.
  - rewrite rd_app_at. cbn [bind].
    replace (if past then length a <=? length (a ++ None :: c) else length a <? length (a ++ None :: c)) with true
      by (rewrite app_length; cbn [length]; destruct past; symmetry; [apply Nat.leb_le|apply Nat.ltb_lt]; lia).
    specialize (IH (a ++ [None]) fuel). rewrite <- !app_assoc in IH. cbn [app] in IH.
    rewrite !(app_length a [None]) in IH. cbn [length] in IH. replace (length a + 1) with (S (length a)) in IH by lia.
    cbn [length] in F. rewrite IH by lia. destruct (contents c); [reflexivity|]. f_equal. lia.
Qed.
Lemma loop_plain past c : forall a xs,
  contents c <> [] -> ~ yields false (it_range past (a ++ c) (length (a ++ c))) (length a + first_used c) xs.
Proof.
  induction c as [|[p|] c IH]; intros a xs N Y; cbn [first_used contents] in *.
  - congruence.
  - rewrite Nat.add_0_r in Y.
    inversion Y as [s E _|s x s' ys E G I' _ Y']; subst.
    + cbn in E. apply Nat.eqb_eq in E. rewrite app_length in E. cbn in E. lia.
    + cbn [it_range forward inc] in I'. unfold it_next in I'.
      pose proof (scan_plain past c (a ++ [Some p]) (S (S (length (a ++ Some p :: c))))) as X.
      rewrite <- (app_assoc a [Some p] c) in X. cbn [app] in X. rewrite (app_length a [Some p]) in X. cbn [length] in X.
      replace (length a + 1) with (S (length a)) in X by lia.
      rewrite X in I' by (rewrite app_length; cbn; lia).
      destruct (contents c) as [|q qs] eqn:C; [discriminate|]. injection I' as <-.
      apply (IH (a ++ [Some p]) ys); [congruence|].
      rewrite <- (app_assoc a). cbn [app]. rewrite (app_length a [Some p]). cbn [length].
      replace (length a + 1) with (S (length a)) by lia. exact Y'.
  - apply (IH (a ++ [None]) xs N). rewrite <- (app_assoc a). cbn [app]. rewrite (app_length a [None]). cbn [length].
    replace (length a + 1 + first_used c) with (length a + S (first_used c)) by lia. exact Y.
Qed.
Lemma first_used_none c : contents c = [] -> first_used c = length c.
Proof. induction c as [|[p|] c IH]; cbn; [reflexivity|discriminate|]. intros H. rewrite IH by exact H. reflexivity. Qed.
Lemma empty_contents l : bs_empty l = match contents l with [] => true | _ => false end.
Proof. unfold bs_empty. induction l as [|[p|] l IH]; cbn in *; auto. Qed.
Lemma set_loop past l xs : visits (it_range past l (length l)) xs <-> contents l = [] /\ xs = [].
Proof.
  unfold visits. cbn [it_range forward cur]. rewrite firstn_all. split.
  - intros Y. destruct (contents l) as [|p ps] eqn:C.
    + split; [reflexivity|]. inversion Y as [s E _|s x s' ys E G I' _ Y']; subst; [reflexivity|].
      cbn in E. rewrite first_used_none, Nat.eqb_refl in E by exact C. discriminate.
    + exfalso. apply (loop_plain past l [] xs); [congruence|]. exact Y.
  - intros [C ->]. apply yields_end; [|discriminate]. cbn. rewrite first_used_none by exact C. apply Nat.eqb_refl.
Qed.
End Loops.

(** * bounded_hash_set_t: erase, find. *)
Section SetErase.
Context {K : Type}.
Variable eqb : K -> K -> bool.
Hypothesis D : decides eqb.
Variable h : K -> Z.
Let hm (n : nat) (k : K) : nat := home n (h k).

Lemma bs_run_home n U os : forall (l : set_slots) m s,
  0 < n -> no_collisions n h U -> (forall o, In o os -> In (sop_key o) U) ->
  length l = n -> at_home (hm n) U l -> Permutation (contents l) m ->
  (forall k, In k (map fst m) <-> In k s) ->
  exists l' m', bs_run eqb h os l = Ok l' /\ length l' = n /\ repr eqb (hm n) l' m' /\
    forall k, In k (map fst m') <-> In k (set_ops eqb os s).
Proof.
  induction os as [|o os IH]; intros l m s H J I' L A P S'.
  - exists l, m. split; [reflexivity|]. split; [exact L|]. split; [|exact S']. split; [|exact P].
    eapply at_home_found; eassumption.
  - assert (IU : In (sop_key o) U) by (apply I'; left; reflexivity).
    assert (I2 : forall o, In o os -> In (sop_key o) U) by (intros o' X; apply I'; right; exact X).
    assert (R : repr eqb (hm n) l m) by (split; [eapply at_home_found; eassumption|exact P]).
    assert (Hl : forall k, hm n k < length l) by (intros k; rewrite L; apply home_lt; exact H).
    destruct o as [k|k]; cbn [bs_run set_ops sop_key] in *.
    + rewrite (bs_insert_hs eqb D). unfold hs_insert. rewrite find_index_home by lia. rewrite L.
      change (home n (h k)) with (hm n k).
      rewrite (at_home_probe eqb D (hm n) U J l k A IU (Hl k)). cbn [bind].
      apply (IH _ (aset eqb k tt m)); auto.
      * rewrite upd_length. exact L.
      * apply at_home_some; auto.
      * apply (repr_upd eqb D (hm n) l m (hm n k) k tt R). apply (at_home_probe eqb D (hm n) U J l k A IU (Hl k)).
      * intros x. rewrite (aset_keys eqb D), S'. cbn. split; intros [X|X]; auto.
    + unfold bs_erase. rewrite find_index_home by lia. rewrite L. change (home n (h k)) with (hm n k).
      rewrite (at_home_probe eqb D (hm n) U J l k A IU (Hl k)). cbn [bind].
      destruct (repr_drop eqb D (hm n) U J l m k A P IU (Hl k)) as [A2 P2].
      apply (IH _ (aremove eqb k m)); auto.
      * rewrite upd_length. exact L.
      * intros x. rewrite filter_In, <- S'. split.
        -- intros X. apply in_map_iff in X. destruct X as (q & <- & X). apply (aremove_in eqb D) in X.
           destruct X as [X Y]. split; [apply in_map; exact X|]. rewrite (eqb_ne eqb D) by exact Y. reflexivity.
        -- intros [X Y]. apply in_map_iff in X. destruct X as (q & EQ & X). subst x. apply in_map.
           apply (aremove_in eqb D). split; [exact X|]. intros EK. rewrite EK, (eqb_rfl eqb D) in Y. discriminate.
Qed.
Lemma bs_history n os :
  0 < n -> no_collisions n h (map sop_key os) ->
  exists l, bs_run eqb h os (bs_make n) = Ok l /\
    forall k, bs_exists eqb h l k = Ok (existsb (eqb k) (set_ops eqb os [])).
Proof.
  intros H J.
  destruct (bs_run_home n (map sop_key os) os (bs_make n) [] []) as (l & m & E & L & R & S'); auto.
  - intros o X. apply in_map. exact X.
  - apply repeat_length.
  - apply at_home_none.
  - unfold bs_make. rewrite contents_none. constructor.
  - reflexivity.
  - exists l. split; [exact E|]. intros k. unfold bs_exists. subst n.
    rewrite (hs_exists_repr eqb D h l m k H R). f_equal. apply eq_iff_eq_true.
    rewrite (has_in eqb D), (existsb_in eqb D). apply S'.
Qed.

(** ** Two keys with the same home slot. *)
Lemma probe_empty {V} n s (k : K) : s < n -> probe_from eqb (@repeat (option (K * V)) None n) s k = Some s.
Proof.
  intros L. apply (probe_from_intro eqb D); [|intros j _ B; destruct (before_self _ _ B)].
  left. rewrite nth_error_repeat by exact L. reflexivity.
Qed.
Lemma probe_first {V} (l : @slots K V) s k : stop l k s -> probe_from eqb l s k = Some s.
Proof. intros S'. apply (probe_from_intro eqb D); [exact S'|intros j _ B; destruct (before_self _ _ B)]. Qed.
(** After two inserts, the second key is at another slot [i], the next one searched. *)
Lemma two_keys {V} n s (a b : K) (va vb : V) :
  s < n -> 2 <= n -> a <> b ->
  exists i, i < n /\ i <> s /\
    probe_from eqb (upd (repeat None n) s (Some (a, va))) s b = Some i /\
    forall j, j < n -> before s j i -> j = s.
Proof.
  intros L N AB. set (l := upd (repeat None n) s (Some (a, va))).
  assert (Ln : length l = n) by (unfold l; rewrite upd_length, repeat_length; reflexivity).
  assert (Es : nth_error l s = Some (Some (a, va))) by (apply nth_error_upd_eq; rewrite repeat_length; exact L).
  assert (Eo : forall j, j < n -> j <> s -> nth_error l j = Some None).
  { intros j J' NJ. unfold l. rewrite nth_error_upd_ne by exact NJ. apply nth_error_repeat. exact J'. }
  destruct (probe_from eqb l s b) as [i|] eqn:E.
  - apply (probe_from_some eqb D) in E. destruct E as [S' B]. exists i.
    split; [rewrite <- Ln; exact (stop_lt _ _ _ S')|]. split; [|split; [reflexivity|]].
    + intros ->. destruct S' as [X|[v X]]; rewrite Es in X; congruence.
    + intros j J' BJ. destruct (Nat.eq_dec j s) as [EJ|NJ]; [exact EJ|]. exfalso.
      apply (B j); [lia|exact BJ|]. left. apply Eo; assumption.
  - exfalso. pose proof (probe_from_none eqb D _ _ _ E) as X.
    destruct (Nat.eq_dec s 0) as [->|NS].
    + apply (X 1). left. apply Eo; lia.
    + apply (X 0). left. apply Eo; lia.
Qed.
Lemma bs_erase_loses n a b :
  2 <= n -> a <> b -> home n (h a) = home n (h b) ->
  exists l, bs_run eqb h [SInsert a; SInsert b; SErase a] (bs_make n) = Ok l /\ bs_exists eqb h l b = Ok false.
Proof.
  intros N AB HE. set (s := home n (h a)) in *. assert (L : s < n) by (apply home_lt; lia).
  destruct (two_keys n s a b tt tt L N AB) as (i & Li & NI & P & _).
  cbn [bs_run]. rewrite (bs_insert_hs eqb D). unfold hs_insert at 1, bs_make.
  rewrite find_index_home by (rewrite repeat_length; lia). rewrite repeat_length. fold s.
  rewrite (probe_empty n s a L). cbn [bind]. set (l1 := upd (repeat None n) s (Some (a, tt))) in *.
  assert (L1 : length l1 = n) by (unfold l1; rewrite upd_length, repeat_length; reflexivity).
  rewrite (bs_insert_hs eqb D). unfold hs_insert at 1. rewrite find_index_home by lia. rewrite L1, <- HE, P. cbn [bind].
  set (l2 := upd l1 i (Some (b, tt))). assert (L2 : length l2 = n) by (unfold l2; rewrite upd_length; exact L1).
  assert (E2 : nth_error l2 s = Some (Some (a, tt))).
  { unfold l2. rewrite nth_error_upd_ne by congruence. apply nth_error_upd_eq. rewrite repeat_length. exact L. }
  unfold bs_erase. rewrite find_index_home by lia. rewrite L2. fold s.
  rewrite (probe_first l2 s a) by (right; exists tt; exact E2). cbn [bind].
  exists (upd l2 s None). split; [reflexivity|]. unfold bs_exists, hs_exists.
  rewrite find_index_home by (rewrite upd_length; lia). rewrite upd_length, L2, <- HE.
  assert (E3 : nth_error (upd l2 s None) s = Some None) by (apply nth_error_upd_eq; lia).
  rewrite (probe_first _ s b) by (left; exact E3). cbn [bind]. rewrite (rd_some _ _ _ E3). reflexivity.
Qed.
Lemma bs_erase_returns n a b :
  2 <= n -> a <> b -> home n (h a) = home n (h b) ->
  exists l, bs_run eqb h [SInsert a; SInsert b; SErase a; SInsert b; SErase b; SInsert a] (bs_make n) = Ok l /\
            bs_exists eqb h l b = Ok true.
Proof.
  intros N AB HE. set (s := home n (h a)) in *. assert (L : s < n) by (apply home_lt; lia).
  destruct (two_keys n s a b tt tt L N AB) as (i & Li & NI & P & Bf).
  cbn [bs_run]. rewrite (bs_insert_hs eqb D). unfold hs_insert at 1, bs_make.
  rewrite find_index_home by (rewrite repeat_length; lia). rewrite repeat_length. fold s.
  rewrite (probe_empty n s a L). cbn [bind]. set (l1 := upd (repeat None n) s (Some (a, tt))) in *.
  assert (L1 : length l1 = n) by (unfold l1; rewrite upd_length, repeat_length; reflexivity).
  rewrite (bs_insert_hs eqb D). unfold hs_insert at 1. rewrite find_index_home by lia. rewrite L1, <- HE, P. cbn [bind].
  set (l2 := upd l1 i (Some (b, tt))). assert (L2 : length l2 = n) by (unfold l2; rewrite upd_length; exact L1).
  assert (E2 : nth_error l2 s = Some (Some (a, tt))).
  { unfold l2. rewrite nth_error_upd_ne by congruence. apply nth_error_upd_eq. rewrite repeat_length. exact L. }
  assert (Ei : nth_error l2 i = Some (Some (b, tt))) by (apply nth_error_upd_eq; lia).
  unfold bs_erase at 1. rewrite find_index_home by lia. rewrite L2. fold s.
  rewrite (probe_first l2 s a) by (right; exists tt; exact E2). cbn [bind].
  set (l3 := upd l2 s None). assert (L3 : length l3 = n) by (unfold l3; rewrite upd_length; exact L2).
  assert (E3 : nth_error l3 s = Some None) by (apply nth_error_upd_eq; lia).
  rewrite (bs_insert_hs eqb D). unfold hs_insert at 1. rewrite find_index_home by lia. rewrite L3, <- HE.
  rewrite (probe_first l3 s b) by (left; exact E3). cbn [bind].
  set (l4 := upd l3 s (Some (b, tt))). assert (L4 : length l4 = n) by (unfold l4; rewrite upd_length; exact L3).
  assert (E4 : nth_error l4 s = Some (Some (b, tt))) by (apply nth_error_upd_eq; lia).
  unfold bs_erase at 1. rewrite find_index_home by lia. rewrite L4, <- HE.
  rewrite (probe_first l4 s b) by (right; exists tt; exact E4). cbn [bind].
  set (l5 := upd l4 s None). assert (L5 : length l5 = n) by (unfold l5; rewrite upd_length; exact L4).
  assert (E5 : nth_error l5 s = Some None) by (apply nth_error_upd_eq; lia).
  rewrite (bs_insert_hs eqb D). unfold hs_insert at 1. rewrite find_index_home by lia. rewrite L5. fold s.
  rewrite (probe_first l5 s a) by (left; exact E5). cbn [bind].
  set (l6 := upd l5 s (Some (a, tt))). assert (L6 : length l6 = n) by (unfold l6; rewrite upd_length; exact L5).
  assert (E6 : nth_error l6 s = Some (Some (a, tt))) by (apply nth_error_upd_eq; lia).
  assert (Ei6 : nth_error l6 i = Some (Some (b, tt))).
  { unfold l6, l5, l4, l3. rewrite !nth_error_upd_ne by exact NI. exact Ei. }
  exists l6. split; [reflexivity|]. unfold bs_exists, hs_exists. rewrite find_index_home by lia. rewrite L6, <- HE.
  rewrite (probe_from_intro eqb D l6 s b i).
  - cbn [bind]. rewrite (rd_some _ _ _ Ei6). reflexivity.
  - right. exists tt. exact Ei6.
  - intros j J' B. rewrite L6 in J'. rewrite (Bf j J' B). intros [X|[v X]]; rewrite E6 in X; congruence.
Qed.

(** ** find and erase of keys that are not there. *)
Lemma bs_find_repr (l : set_slots) m k :
  0 < length l -> repr eqb (hm (length l)) l m ->
  (has eqb m k = true -> exists p, bs_find eqb h l k = Ok p /\ p <> length l /\ it_get l p = Ok (k, tt)) /\
  (has eqb m k = false -> length m < length l ->
     exists p l', bs_find eqb h l k = Ok p /\ p <> length l /\ rd l p = Ok None /\ bs_erase eqb h l k = Ok (Some p, l')).
Proof.
  intros H R. unfold bs_find, bs_erase. rewrite find_index_home by exact H. change (home (length l) (h k)) with (hm (length l) k).
  pose proof (repr_value eqb D _ l m k R) as X. unfold value in X. unfold has. rewrite <- X. cbn [bind].
  pose proof (repr_full eqb D (hm (length l)) l m k R) as FU.
  destruct (probe_from eqb l (hm (length l) k) k) as [i|] eqn:E.
  - apply (probe_from_some eqb D) in E. destruct E as [S' _]. pose proof (stop_lt _ _ _ S') as Li.
    destruct S' as [Y|[[] Y]]; rewrite Y.
    + split; [discriminate|]. intros _ _. exists i, (upd l i None). split; [reflexivity|]. split; [lia|].
      split; [apply rd_some; exact Y|reflexivity].
    + split; [|discriminate]. intros _. exists i. split; [reflexivity|]. split; [lia|].
      unfold it_get. rewrite (rd_some _ _ _ Y). reflexivity.
  - split; [discriminate|]. intros _ Lt. specialize (FU eq_refl). apply orb_false_iff in FU. destruct FU as [_ FU].
    apply Nat.ltb_ge in FU. lia.
Qed.
Lemma bs_finds n ks l :
  0 < n -> bs_run eqb h (map SInsert ks) (bs_make n) = Ok l ->
  (forall k, In k ks -> exists p, bs_find eqb h l k = Ok p /\ p <> length l /\ it_get l p = Ok (k, tt)) /\
  (forall k, ~ In k ks -> length (distinct eqb ks) < n ->
     exists p l', bs_find eqb h l k = Ok p /\ p <> length l /\ rd l p = Ok None /\ bs_erase eqb h l k = Ok (Some p, l')) /\
  (forall past xs, visits (it_range past l (length l)) xs <-> ks = [] /\ xs = []) /\
  bs_empty l = match ks with [] => true | _ => false end.
Proof.
  intros H E. rewrite (bs_run_inserts eqb D) in E.
  pose proof (hs_run_repr eqb D h ks (hs_make n) [] n H (repeat_length _ _) (repr_none eqb _ n)) as P.
  pose proof (puts_keys eqb D n (map (fun k => (k, tt)) ks) [] ltac:(constructor) ltac:(cbn; lia)) as Q.
  change (bs_make n) with (@hs_make K n) in E.
  destruct (puts eqb n (map (fun k => (k, tt)) ks) []) as [m|]; [|rewrite P in E; discriminate].
  destruct P as (l' & E' & L & R). rewrite E in E'. injection E' as <-. destruct Q as (ND & Lm & KS).
  rewrite keys_tt in KS.
  assert (HI : forall k, has eqb m k = true <-> In k ks).
  { intros k. rewrite (has_in eqb D), KS. cbn. tauto. }
  assert (CE : contents l = [] <-> ks = []).
  { destruct R as [_ P]. split; intros X.
    - rewrite X in P. apply Permutation_nil in P. subst m. destruct ks as [|k ks]; [reflexivity|].
      destruct (proj2 (KS k)). left. left. reflexivity.
    - subst ks. cbn in KS. destruct m as [|q m]; [apply Permutation_nil; symmetry; exact P|].
      destruct (proj1 (KS (fst q))) as [[]|[]]. left. reflexivity. }
  assert (DL : length m = length (distinct eqb ks)).
  { rewrite <- (map_length fst m). apply Nat.le_antisymm; apply NoDup_incl_length; auto.
    - intros x X. apply (distinct_in eqb D). apply KS in X. cbn in X. tauto.
    - apply distinct_nodup. exact D.
    - intros x X. apply KS. left. apply (distinct_in eqb D). exact X. }
  clear E. subst n. split; [|split; [|split]].
  - intros k I'. apply (bs_find_repr l m k H R). apply HI. exact I'.
  - intros k I' Lt. apply (bs_find_repr l m k H R); [|lia].
    destruct (has eqb m k) eqn:X; [apply HI in X; contradiction|reflexivity].
  - intros past xs. rewrite set_loop, CE. reflexivity.
  - rewrite empty_contents. destruct ks as [|k ks].
    + rewrite (proj2 CE eq_refl). reflexivity.
    + destruct (contents l) as [|q qs] eqn:C; [discriminate (proj1 CE eq_refl)|reflexivity].
Qed.
End SetErase.

(** * bounded_hash_map. *)
Section Maps.
Context {K V : Type}.
Variable eqb : K -> K -> bool.
Hypothesis D : decides eqb.
Variable h : K -> Z.
Variable dflt : V.
Let hm (n : nat) (k : K) : nat := home n (h k).
Implicit Types (b : @map_slots K V).

Lemma cap_app b : mp_capacity (b ++ [None]) = length b.
Proof. unfold mp_capacity. rewrite app_length. cbn. lia. Qed.
Lemma firstn_cap b : firstn (mp_capacity (b ++ [None])) (b ++ [None]) = b.
Proof. rewrite cap_app, firstn_app, firstn_all, Nat.sub_diag. cbn. apply app_nil_r. Qed.
Lemma mp_find_index_home b k :
  0 < length b -> mp_find_index eqb h (b ++ [None]) k = Ok (probe_from eqb b (hm (length b) k) k).
Proof. intros H. unfold mp_find_index. rewrite firstn_cap. apply find_index_home. exact H. Qed.
Lemma rd_app_l {A} (l l' : list A) i : i < length l -> rd (l ++ l') i = rd l i.
Proof. intros H. unfold rd. rewrite nth_error_app1 by exact H. reflexivity. Qed.
Lemma wr_app_l {A} (l l' : list A) i x : i < length l -> wr (l ++ l') i x = Ok (upd l i x ++ l').
Proof. intros H. rewrite wr_ok by (rewrite app_length; lia). rewrite upd_app_l by exact H. reflexivity. Qed.
Lemma make_app n : @mp_make K V n = repeat None n ++ [None].
Proof. unfold mp_make. symmetry. exact (eq_sym (repeat_cons n (@None (K * V)))). Qed.

Lemma mp_insert_probe b k v :
  0 < length b ->
  mp_insert eqb h (b ++ [None]) k v =
  match probe_from eqb b (hm (length b) k) k with Some i => Ok (upd b i (Some (k, v)) ++ [None]) | None => UB end.
Proof.
  intros H. unfold mp_insert. rewrite mp_find_index_home by exact H. cbn [bind].
  destruct (probe_from eqb b (hm (length b) k) k) as [i|] eqn:E; [|reflexivity].
  apply (probe_from_some eqb D) in E. destruct E as [S' _]. apply wr_app_l. exact (stop_lt _ _ _ S').
Qed.
Lemma mp_set_probe b k v :
  0 < length b ->
  mp_set eqb h dflt (b ++ [None]) k v =
  match probe_from eqb b (hm (length b) k) k with Some i => Ok (upd b i (Some (k, v)) ++ [None]) | None => UB end.
Proof.
  intros H. unfold mp_set, mp_index. rewrite mp_find_index_home by exact H. cbn [bind].
  destruct (probe_from eqb b (hm (length b) k) k) as [i|] eqn:E; [|reflexivity].
  apply (probe_from_some eqb D) in E. destruct E as [S' _]. pose proof (stop_lt _ _ _ S') as L.
  rewrite rd_app_l by exact L. destruct S' as [X|[w X]]; rewrite (rd_some _ _ _ X); cbn [bind].
  - rewrite upd_app_l by exact L. rewrite rd_app_l by (rewrite upd_length; exact L).
    rewrite (rd_some _ _ _ (nth_error_upd_eq _ _ _ L)). cbn [bind].
    rewrite wr_app_l by (rewrite upd_length; exact L). rewrite upd_upd. reflexivity.
  - rewrite rd_app_l by exact L. rewrite (rd_some _ _ _ X). cbn [bind]. apply wr_app_l. exact L.
Qed.
Lemma mp_erase_probe b k :
  0 < length b ->
  mp_erase eqb h (b ++ [None]) k =
  match probe_from eqb b (hm (length b) k) k with Some i => Ok (upd b i None ++ [None]) | None => Ok (b ++ [None]) end.
Proof.
  intros H. unfold mp_erase. rewrite mp_find_index_home by exact H. cbn [bind].
  destruct (probe_from eqb b (hm (length b) k) k) as [i|] eqn:E; [|reflexivity].
  apply (probe_from_some eqb D) in E. destruct E as [S' _]. apply wr_app_l. exact (stop_lt _ _ _ S').
Qed.
Lemma list_ext {A} (x y : list A) : (forall j, nth_error x j = nth_error y j) -> x = y.
Proof.
  revert y. induction x as [|a x IH]; intros [|c y] H; [reflexivity|discriminate (H 0)|discriminate (H 0)|].
  pose proof (H 0) as H0. cbn in H0. injection H0 as ->. f_equal. apply IH. intros j. exact (H (S j)).
Qed.
Lemma size_from_app init b b' : mp_size_from init (b ++ b') = mp_size_from (mp_size_from init b) b'.
Proof. revert init. induction b as [|[p|] b IH]; intros init; cbn; auto. Qed.
Lemma size_contents b : forall init, (0 <= init)%Z -> (init + Z.of_nat (length b) < 2 ^ 64)%Z ->
  mp_size_from init b = (init + Z.of_nat (length (contents b)))%Z.
Proof.
  induction b as [|[p|] b IH]; intros init H0 H; cbn [mp_size_from contents length] in *.
  - change (Z.of_nat 0) with 0%Z. lia.
  - assert (E : sz (init + 1) = (init + 1)%Z) by (unfold sz, wrap; apply Z.mod_small; lia).
    rewrite E. rewrite IH by lia. lia.
  - apply IH; lia.
Qed.

Lemma shows_repr b m n :
  0 < n -> (Z.of_nat n < 2 ^ 64)%Z -> length b = n -> repr eqb (hm n) b m -> shows eqb h n (b ++ [None]) m.
Proof.
  intros H H64 L R. assert (Hb : 0 < length b) by lia.
  assert (VL : forall k, value eqb (hm n) b k = alookup eqb m k) by (intros k; apply (repr_value eqb D); exact R).
  assert (G : forall k,
    match probe_from eqb b (hm n k) k with
    | Some i => i < length b /\ ((nth_error b i = Some None /\ alookup eqb m k = None) \/
                                 exists v, nth_error b i = Some (Some (k, v)) /\ alookup eqb m k = Some v)
    | None => alookup eqb m k = None /\ (length m <? n) = false
    end).
  { intros k. specialize (VL k). unfold value in VL.
    pose proof (repr_full eqb D (hm n) b m k R) as F.
    destruct (probe_from eqb b (hm n k) k) as [i|] eqn:E.
    - apply (probe_from_some eqb D) in E. destruct E as [S' _]. split; [exact (stop_lt _ _ _ S')|].
      destruct S' as [X|[v X]]; rewrite X in VL; [left|right; exists v]; auto.
    - specialize (F eq_refl). rewrite L in F. apply orb_false_iff in F. split; [symmetry; exact VL|apply F]. }
  assert (TG : forall k, mp_try_get eqb h (b ++ [None]) k = Ok (alookup eqb m k)).
  { intros k. unfold mp_try_get. rewrite mp_find_index_home by exact Hb. rewrite L. cbn [bind]. specialize (G k).
    destruct (probe_from eqb b (hm n k) k) as [i|].
    - destruct G as [Li [[X Y]|(v & X & Y)]]; rewrite rd_app_l by exact Li; rewrite (rd_some _ _ _ X), Y; reflexivity.
    - destruct G as [-> _]. reflexivity. }
  assert (EX : forall k, mp_exists eqb h (b ++ [None]) k = Ok (has eqb m k)).
  { intros k. unfold mp_exists, has. rewrite mp_find_index_home by exact Hb. rewrite L. cbn [bind]. specialize (G k).
    destruct (probe_from eqb b (hm n k) k) as [i|].
    - destruct G as [Li [[X Y]|(v & X & Y)]]; rewrite rd_app_l by exact Li; rewrite (rd_some _ _ _ X), Y; reflexivity.
    - destruct G as [-> _]. reflexivity. }
  assert (RM : forall k, alookup eqb m k = None ->
     (length m <? n) = match probe_from eqb b (hm n k) k with Some _ => true | None => false end).
  { intros k A. pose proof (repr_room eqb D (hm n) b m k) as F. pose proof (G k) as Gk.
    destruct (probe_from eqb b (hm n k) k) as [i|].
    - specialize (F i R eq_refl). unfold has in F. rewrite A, L in F. exact F.
    - apply Gk. }
  constructor.
  - exact TG.
  - exact EX.
  - intros k. unfold mp_count. rewrite EX. reflexivity.
  - intros k v A. unfold mp_at. rewrite mp_find_index_home by exact Hb. rewrite L. cbn [bind]. specialize (G k).
    destruct (probe_from eqb b (hm n k) k) as [i|].
    + destruct G as [Li [[X Y]|(w & X & Y)]]; rewrite rd_app_l by exact Li; rewrite (rd_some _ _ _ X); cbn [bind]; congruence.
    + destruct G as [Y _]. congruence.
  - intros k A. rewrite (RM k A). unfold mp_at. rewrite mp_find_index_home by exact Hb. rewrite L. cbn [bind]. specialize (G k).
    destruct (probe_from eqb b (hm n k) k) as [i|]; [|reflexivity].
    destruct G as [Li [[X Y]|(w & X & Y)]]; [|congruence]. rewrite rd_app_l by exact Li. rewrite (rd_some _ _ _ X). reflexivity.
  - intros k v A. unfold mp_find. rewrite mp_find_index_home by exact Hb. rewrite L. cbn [bind]. specialize (G k).
    destruct (probe_from eqb b (hm n k) k) as [i|]; [|destruct G as [Y _]; congruence].
    destruct G as [Li [[X Y]|(w & X & Y)]]; [congruence|]. exists i. split; [reflexivity|]. split; [rewrite cap_app; lia|].
    unfold it_get. rewrite rd_app_l by exact Li. rewrite (rd_some _ _ _ X). cbn [bind]. congruence.
  - unfold mp_size. rewrite size_from_app. cbn [mp_size_from]. rewrite size_contents by lia. unfold zlen.
    destruct R as [_ P]. rewrite (Permutation_length P). lia.
  - rewrite empty_contents, contents_app. cbn [contents]. rewrite app_nil_r. destruct R as [_ P].
    destruct (contents b) as [|q qs].
    + apply Permutation_nil in P. subst m. reflexivity.
    + destruct m as [|q' m]; [symmetry in P; apply Permutation_nil in P; discriminate|reflexivity].
  - exists (contents b). split; [|symmetry; apply R]. unfold visits, mp_range. cbn [it_range forward cur].
    rewrite firstn_cap, cap_app. exact (loop_sentinel b []).
Qed.

Lemma mp_run_repr n os : forall b m,
  0 < n -> forallb (fun o => negb (erases o)) os = true -> length b = n -> repr eqb (hm n) b m ->
  match map_ops eqb n os m with
  | Some m' => exists b', mp_run eqb h dflt os (b ++ [None]) = Ok (b' ++ [None]) /\ length b' = n /\ repr eqb (hm n) b' m'
  | None => mp_run eqb h dflt os (b ++ [None]) = UB
  end.
Proof.
  induction os as [|o os IH]; intros b m H NE L R; cbn [map_ops mp_run].
  - exists b. auto.
  - cbn [forallb] in NE. apply andb_true_iff in NE. destruct NE as [N1 N2].
    assert (X : forall k v,
      match put eqb n k v m with
      | Some m1 => exists i, probe_from eqb b (hm n k) k = Some i /\ repr eqb (hm n) (upd b i (Some (k, v))) m1
      | None => probe_from eqb b (hm n k) k = None
      end).
    { intros k v. pose proof (repr_put eqb D (hm n) b m k v R) as P. rewrite L in P.
      destruct (probe_from eqb b (hm n k) k) as [i|].
      - destruct P as (_ & E & R1). rewrite E. exists i. auto.
      - rewrite P. reflexivity. }
    destruct o as [k v|k v|k]; [| |discriminate]; cbn [map_op mp_step]; specialize (X k v).
    + rewrite mp_insert_probe by lia. rewrite L. destruct (put eqb n k v m) as [m1|].
      * destruct X as (i & E & R1). rewrite E. cbn [bind]. apply IH; auto. rewrite upd_length. exact L.
      * rewrite X. reflexivity.
    + rewrite mp_set_probe by lia. rewrite L. destruct (put eqb n k v m) as [m1|].
      * destruct X as (i & E & R1). rewrite E. cbn [bind]. apply IH; auto. rewrite upd_length. exact L.
      * rewrite X. reflexivity.
Qed.
Lemma mp_history n os :
  0 < n -> (Z.of_nat n < 2 ^ 64)%Z -> forallb (fun o => negb (erases o)) os = true ->
  match map_ops eqb n os [] with
  | Some m => exists l, mp_run eqb h dflt os (mp_make n) = Ok l /\ shows eqb h n l m
  | None => mp_run eqb h dflt os (mp_make n) = UB
  end.
Proof.
  intros H H64 NE. rewrite make_app.
  pose proof (mp_run_repr n os (repeat None n) [] H NE (repeat_length _ _) (repr_none eqb _ n)) as P.
  destruct (map_ops eqb n os []) as [m|]; [|exact P].
  destruct P as (b & E & L & R). exists (b ++ [None]). split; [exact E|]. apply shows_repr; assumption.
Qed.
Lemma mp_run_home n U os : forall b m,
  0 < n -> no_collisions n h U -> (forall o, In o os -> In (op_key o) U) ->
  length b = n -> at_home (hm n) U b -> Permutation (contents b) m ->
  exists b' m', map_ops eqb n os m = Some m' /\ mp_run eqb h dflt os (b ++ [None]) = Ok (b' ++ [None]) /\ length b' = n /\
    repr eqb (hm n) b' m'.
Proof.
  induction os as [|o os IH]; intros b m H J I' L A P.
  - exists b, m. split; [reflexivity|]. split; [reflexivity|]. split; [exact L|]. split; [|exact P].
    eapply at_home_found; eassumption.
  - assert (IU : In (op_key o) U) by (apply I'; left; reflexivity).
    assert (I2 : forall o, In o os -> In (op_key o) U) by (intros o' X; apply I'; right; exact X).
    assert (R : repr eqb (hm n) b m) by (split; [eapply at_home_found; eassumption|exact P]).
    assert (Hl : forall k, hm n k < length b) by (intros k; rewrite L; apply home_lt; exact H).
    assert (PR : probe_from eqb b (hm n (op_key o)) (op_key o) = Some (hm n (op_key o)))
      by (apply (at_home_probe eqb D (hm n) U J b _ A IU (Hl _))).
    assert (X : forall v, put eqb n (op_key o) v m = Some (aset eqb (op_key o) v m) /\
      at_home (hm n) U (upd b (hm n (op_key o)) (Some (op_key o, v))) /\
      Permutation (contents (upd b (hm n (op_key o)) (Some (op_key o, v)))) (aset eqb (op_key o) v m)).
    { intros v. pose proof (repr_put eqb D (hm n) b m (op_key o) v R) as Q. rewrite PR, L in Q.
      destruct Q as (_ & Q & R1). split; [exact Q|]. split; [apply at_home_some; auto|apply R1]. }
    destruct o as [k v|k v|k]; cbn [op_key map_ops map_op mp_run mp_step] in *.
    + destruct (X v) as (E & A1 & P1). rewrite E, mp_insert_probe by lia. rewrite L, PR. cbn [bind].
      apply IH; auto. rewrite upd_length. exact L.
    + destruct (X v) as (E & A1 & P1). rewrite E, mp_set_probe by lia. rewrite L, PR. cbn [bind].
      apply IH; auto. rewrite upd_length. exact L.
    + rewrite mp_erase_probe by lia. rewrite L, PR. cbn [bind].
      destruct (repr_drop eqb D (hm n) U J b m k A P IU (Hl k)) as [A1 P1].
      apply IH; auto. rewrite upd_length. exact L.
Qed.
Lemma mp_history_erase n os :
  0 < n -> (Z.of_nat n < 2 ^ 64)%Z -> no_collisions n h (map op_key os) ->
  exists l m, map_ops eqb n os [] = Some m /\ mp_run eqb h dflt os (mp_make n) = Ok l /\ shows eqb h n l m.
Proof.
  intros H H64 J. rewrite make_app.
  destruct (mp_run_home n (map op_key os) os (repeat None n) []) as (b & m & E1 & E2 & L & R); auto.
  - intros o X. apply in_map. exact X.
  - apply repeat_length.
  - apply at_home_none.
  - rewrite contents_none. constructor.
  - exists (b ++ [None]), m. split; [exact E1|]. split; [exact E2|]. apply shows_repr; assumption.
Qed.
Lemma mp_zero k (v : V) : mp_insert eqb h (mp_make 0) k v = UB /\ mp_exists eqb h (@mp_make K V 0) k = UB.
Proof. split; reflexivity. Qed.
Lemma mp_erase_loses n (a b : K) (va vb : V) :
  2 <= n -> a <> b -> home n (h a) = home n (h b) ->
  exists l, mp_run eqb h dflt [MInsert a va; MInsert b vb; MErase a] (mp_make n) = Ok l /\
            mp_try_get eqb h l b = Ok None /\ mp_size l = 1%Z.
Proof.
  intros N AB HE. set (s := home n (h a)) in *. assert (L : s < n) by (apply home_lt; lia).
  destruct (two_keys eqb D n s a b va vb L N AB) as (i & Li & NI & P & _).
  rewrite make_app. cbn [mp_run mp_step].
  rewrite mp_insert_probe by (rewrite repeat_length; lia). unfold hm. rewrite repeat_length. fold s.
  rewrite (probe_empty eqb D n s a L). cbn [bind]. set (l1 := upd (repeat None n) s (Some (a, va))) in *.
  assert (L1 : length l1 = n) by (unfold l1; rewrite upd_length, repeat_length; reflexivity).
  rewrite mp_insert_probe by lia. unfold hm. rewrite L1, <- HE, P. cbn [bind].
  set (l2 := upd l1 i (Some (b, vb))). assert (L2 : length l2 = n) by (unfold l2; rewrite upd_length; exact L1).
  assert (E1 : nth_error l1 s = Some (Some (a, va))) by (apply nth_error_upd_eq; rewrite repeat_length; exact L).
  assert (E2 : nth_error l2 s = Some (Some (a, va))) by (unfold l2; rewrite nth_error_upd_ne by congruence; exact E1).
  rewrite mp_erase_probe by lia. unfold hm. rewrite L2. fold s.
  rewrite (probe_first eqb D l2 s a) by (right; exists va; exact E2). cbn [bind].
  exists (upd l2 s None ++ [None]). split; [reflexivity|]. split.
  - unfold mp_try_get. rewrite mp_find_index_home by (rewrite upd_length; lia). unfold hm. rewrite upd_length, L2, <- HE.
    assert (E3 : nth_error (upd l2 s None) s = Some None) by (apply nth_error_upd_eq; lia).
    rewrite (probe_first eqb D _ s b) by (left; exact E3). cbn [bind].
    rewrite rd_app_l by (rewrite upd_length; lia). rewrite (rd_some _ _ _ E3). reflexivity.
  - assert (E0 : upd l2 s None = upd (repeat None n) i (Some (b, vb))).
    { apply list_ext. intros j. destruct (Nat.eq_dec j s) as [->|NS].
      - rewrite nth_error_upd_eq by lia. rewrite nth_error_upd_ne by congruence. rewrite nth_error_repeat by exact L. reflexivity.
      - rewrite nth_error_upd_ne by exact NS. unfold l2. destruct (Nat.eq_dec j i) as [->|NJ].
        + rewrite !nth_error_upd_eq by (rewrite ?L1, ?repeat_length; lia). reflexivity.
        + rewrite (nth_error_upd_ne l1) by exact NJ. rewrite (nth_error_upd_ne (repeat None n) i) by exact NJ.
          unfold l1. rewrite nth_error_upd_ne by exact NS. reflexivity. }
    rewrite E0. unfold mp_size. rewrite size_from_app. cbn [mp_size_from].
    assert (Ei : nth_error (repeat (@None (K * V)) n) i = Some None) by (apply nth_error_repeat; exact Li).
    destruct (split_at _ _ _ Ei) as (x & y & EX & LX). rewrite EX, <- LX, upd_mid, size_from_app.
    assert (Z0 : forall (q : @map_slots K V) z, (forall o, In o q -> o = None) -> mp_size_from z q = z).
    { induction q as [|o q IH]; intros z Q; cbn; [reflexivity|]. rewrite (Q o) by (left; reflexivity).
      apply IH. intros o' X. apply Q. right. exact X. }
    assert (AN : forall o, In o (x ++ None :: y) -> o = None) by (intros o X; rewrite <- EX in X; apply repeat_spec in X; exact X).
    rewrite (Z0 x) by (intros o X; apply AN; apply in_or_app; left; exact X). cbn [mp_size_from].
    rewrite Z0 by (intros o X; apply AN; apply in_or_app; right; right; exact X). reflexivity.
Qed.
(** find does not return end( ) for a key that is not there, while there is room. *)
Lemma mp_find_absent n os (m : list (K * V)) l k :
  0 < n -> (Z.of_nat n < 2 ^ 64)%Z -> forallb (fun o => negb (erases o)) os = true ->
  map_ops eqb n os [] = Some m -> mp_run eqb h dflt os (mp_make n) = Ok l ->
  alookup eqb m k = None -> length m < n ->
  exists p, mp_find eqb h l k = Ok p /\ p <> mp_capacity l /\ rd l p = Ok None.
Proof.
  intros H H64 NE E1 E2 A Lt.
  pose proof (mp_run_repr n os (repeat None n) [] H NE (repeat_length _ _) (repr_none eqb _ n)) as P.
  rewrite <- make_app, E1, E2 in P. destruct P as (b & E & L & R). injection E as ->.
  unfold mp_find. rewrite mp_find_index_home by lia. rewrite L. cbn [bind].
  pose proof (repr_value eqb D _ b m k R) as X. unfold value in X. rewrite A in X.
  pose proof (repr_full eqb D (hm n) b m k R) as FU.
  destruct (probe_from eqb b (hm n k) k) as [i|] eqn:E.
  - apply (probe_from_some eqb D) in E. destruct E as [S' _]. pose proof (stop_lt _ _ _ S') as Li.
    exists i. split; [reflexivity|]. split; [rewrite cap_app; lia|]. rewrite rd_app_l by exact Li.
    destruct S' as [Y|[v Y]]; rewrite Y in X; [apply rd_some; exact Y|discriminate].
  - specialize (FU eq_refl). apply orb_false_iff in FU. destruct FU as [_ FU]. apply Nat.ltb_ge in FU. lia.
Qed.
End Maps.

(** * The tables that keep hashes. *)
Lemma puts_keys_in {K V} (eqb : K -> K -> bool) (D : decides eqb) U n (items m : list (K * V)) : puts eqb n items [] = Some m -> incl (map fst items) U -> incl (map fst m) U.
Proof.
  intros E I'. pose proof (puts_keys eqb D n items [] ltac:(constructor) ltac:(cbn; lia)) as P. rewrite E in P.
  intros x X. apply P in X. cbn in X. apply I'. tauto.
Qed.
Section MapKeys.
Context {K V : Type}.
Variable eqb : K -> K -> bool.
Hypothesis D : decides eqb.
Variable f : K -> Z.
Variable U : list K.
Hypothesis J : inj_on f U.
Let fm (m : list (K * V)) : list (Z * V) := map (fun p => (f (fst p), snd p)) m.
Lemma zeq_decides : decides Z.eqb.
Proof. intros a b. apply Z.eqb_eq. Qed.
Lemma feq a b : In a U -> In b U -> (f a =? f b)%Z = eqb a b.
Proof.
  intros A B. destruct (eqb_case eqb D a b) as [->|N].
  - rewrite Z.eqb_refl, (eqb_rfl eqb D). reflexivity.
  - rewrite (eqb_ne eqb D) by exact N. apply Z.eqb_neq. intros E. apply N. apply J; assumption.
Qed.
Lemma alookup_map (m : list (K * V)) k : incl (map fst m) U -> In k U -> alookup Z.eqb (fm m) (f k) = alookup eqb m k.
Proof.
  induction m as [|[a v] m IH]; intros I' IK; cbn; [reflexivity|]. rewrite feq; [|apply I'; left; reflexivity|exact IK].
  destruct (eqb a k); [reflexivity|]. apply IH; [|exact IK]. intros x X. apply I'. right. exact X.
Qed.
Lemma aremove_map (m : list (K * V)) k : incl (map fst m) U -> In k U -> aremove Z.eqb (f k) (fm m) = fm (aremove eqb k m).
Proof.
  unfold aremove. induction m as [|[a v] m IH]; intros I' IK; [reflexivity|].
  change (fm ((a, v) :: m)) with ((f a, v) :: fm m). cbn [filter fst].
  rewrite feq; [|apply I'; left; reflexivity|exact IK].
  assert (I2 : incl (map fst m) U) by (intros x X; apply I'; right; exact X).
  destruct (eqb a k); cbn [negb]; rewrite IH by assumption; reflexivity.
Qed.
Lemma puts_map n (items : list (K * V)) : forall m, incl (map fst items) U -> incl (map fst m) U ->
  puts Z.eqb n (fm items) (fm m) = option_map fm (puts eqb n items m).
Proof.
  induction items as [|[k v] items IH]; intros m I1 I2; [reflexivity|].
  assert (IK : In k U) by (apply I1; left; reflexivity).
  assert (I3 : incl (map fst items) U) by (intros x X; apply I1; right; exact X).
  change (fm ((k, v) :: items)) with ((f k, v) :: fm items). cbn [puts]. unfold put, has.
  rewrite alookup_map by assumption. replace (length (fm m)) with (length m) by (unfold fm; rewrite map_length; reflexivity).
  destruct (_ || _); [|reflexivity].
  replace (aset Z.eqb (f k) v (fm m)) with (fm (aset eqb k v m))
    by (unfold aset; rewrite aremove_map by assumption; reflexivity).
  apply IH; [exact I3|]. intros x X. apply (aset_keys eqb D) in X. destruct X as [->|X]; [exact IK|apply I2; exact X].
Qed.
End MapKeys.

Section HashKeyed.
Context {K V : Type}.
Variable h : K -> Z.
Variable dflt : V.
Let hm (n : nat) (z : Z) : nat := home n z.
Implicit Types (l : @slots Z V).

Lemma hash_range (a s : Z) : (0 < s < 2 ^ 64 - 1)%Z -> (s <= a mod (2 ^ 64 - 1 - s) + s < 2 ^ 64)%Z.
Proof. intros H. pose proof (Z.mod_pos_bound a (2 ^ 64 - 1 - s) ltac:(lia)). lia. Qed.
Lemma st_hash_range k : (1 <= st_hash h k < 2 ^ 64)%Z.
Proof.
  unfold st_hash. pose proof (hash_range (h k) 1 ltac:(lia)) as R. unfold sz, wrap. rewrite Z.mod_small by lia. exact R.
Qed.
Lemma fl_hash_range k : (2 <= fl_hash h k < 2 ^ 64)%Z.
Proof.
  unfold fl_hash. pose proof (hash_range (h k) 2 ltac:(lia)) as R. unfold sz, wrap. rewrite Z.mod_small by lia. exact R.
Qed.
Lemma st_set_probe l k v :
  0 < length l ->
  st_set h l k v =
  match probe_from Z.eqb l (hm (length l) (st_hash h k)) (st_hash h k) with
  | Some i => Ok (upd l i (Some (st_hash h k, v))) | None => UB end.
Proof.
  intros H. unfold st_set, st_find. rewrite find_index_home by exact H. cbn [bind]. unfold hm.
  destruct (probe_from Z.eqb l (home (length l) (st_hash h k)) (st_hash h k)) as [i|] eqn:E.
  - apply (probe_from_some Z.eqb zeq_decides) in E. destruct E as [S' _]. apply wr_ok. exact (stop_lt _ _ _ S').
  - unfold wr. rewrite Nat.ltb_irrefl. reflexivity.
Qed.
Lemma st_from_repr items : forall l m n,
  0 < n -> length l = n -> repr Z.eqb (hm n) l m ->
  match puts Z.eqb n (map (fun p => (st_hash h (fst p), snd p)) items) m with
  | Some m' => exists l', st_from h l items = Ok l' /\ length l' = n /\ repr Z.eqb (hm n) l' m'
  | None => st_from h l items = UB
  end.
Proof.
  induction items as [|[k v] items IH]; intros l m n H L R; cbn [map puts st_from fst snd].
  - exists l. auto.
  - rewrite st_set_probe by lia. rewrite L.
    pose proof (repr_put Z.eqb zeq_decides (hm n) l m (st_hash h k) v R) as P. rewrite L in P.
    destruct (probe_from Z.eqb l (hm n (st_hash h k)) (st_hash h k)) as [i|].
    + destruct P as (_ & E & R1). rewrite E. cbn [bind]. apply IH; auto. rewrite upd_length. exact L.
    + rewrite P. reflexivity.
Qed.
Lemma st_get_repr l m k :
  0 < length l -> repr Z.eqb (hm (length l)) l m ->
  st_get h dflt l k =
  match alookup Z.eqb m (st_hash h k) with
  | Some v => Ok v
  | None => if length m <? length l then Ok dflt else UB
  end.
Proof.
  intros H R. unfold st_get, st_find, slot_value. rewrite find_index_home by exact H. cbn [bind].
  change (home (length l) (st_hash h k)) with (hm (length l) (st_hash h k)).
  pose proof (repr_value Z.eqb zeq_decides _ l m (st_hash h k) R) as X. unfold value in X. rewrite <- X.
  pose proof (repr_full Z.eqb zeq_decides (hm (length l)) l m (st_hash h k) R) as F.
  pose proof (repr_room Z.eqb zeq_decides (hm (length l)) l m (st_hash h k)) as G.
  destruct (probe_from Z.eqb l (hm (length l) (st_hash h k)) (st_hash h k)) as [i|] eqn:E.
  - specialize (G i R eq_refl). unfold has in G. apply (probe_from_some Z.eqb zeq_decides) in E.
    destruct E as [[Y|[v Y]] _]; rewrite (rd_some _ _ _ Y); rewrite Y in X |- *; cbn [bind].
    + rewrite <- X in G. cbn [orb] in G. rewrite G. reflexivity.
    + reflexivity.
  - specialize (F eq_refl). apply orb_false_iff in F. destruct F as [_ F]. rewrite F.
    unfold rd. rewrite (proj2 (nth_error_None l (length l))) by lia. reflexivity.
Qed.
(** What the const operator[] of a built table returns, by keys. *)
Lemma st_table (eqb : K -> K -> bool) n (items : list (K * V)) U :
  decides eqb -> 0 < n -> inj_on (st_hash h) U -> incl (map fst items) U ->
  match puts eqb n items [] with
  | Some m => exists l, st_make h n items = Ok l /\
      forall k, In k U -> st_get h dflt l k =
        match alookup eqb m k with Some v => Ok v | None => if length m <? n then Ok dflt else UB end
  | None => st_make h n items = UB
  end.
Proof.
  intros D H J I'. pose proof (st_from_repr items (repeat None n) [] n H (repeat_length _ _) (repr_none _ _ n)) as P.
  pose proof (puts_map eqb D (st_hash h) U J n items [] I' ltac:(intros x [])) as Q. cbn [map] in Q. rewrite Q in P.
  pose proof (puts_keys_in eqb D U n items) as KI.
  destruct (puts eqb n items []) as [m|]; cbn [option_map] in P; [|exact P].
  destruct P as (l & E & L & R). exists l. split; [exact E|]. intros k IK.
  rewrite (st_get_repr l _ k ltac:(lia)) by (rewrite L; exact R).
  rewrite (alookup_map eqb D (st_hash h) U J) by (auto). rewrite map_length, L. reflexivity.
Qed.
Lemma puts_one (f : K -> Z) n a (v : V) :
  0 < n -> puts Z.eqb n (map (fun p => (f (fst p), snd p)) [(a, v)]) [] = Some [(f a, v)].
Proof. intros H. destruct n; [lia|reflexivity]. Qed.
Lemma st_same_hash n a b (v : V) : 0 < n -> st_hash h a = st_hash h b ->
  exists l, st_make h n [(a, v)] = Ok l /\ st_get h dflt l b = Ok v.
Proof.
  intros H E. unfold st_make. pose proof (st_from_repr [(a, v)] (repeat None n) [] n H (repeat_length _ _) (repr_none _ _ n)) as P.
  rewrite puts_one in P by exact H. destruct P as (l & P & L & R). exists l. split; [exact P|].
  rewrite (st_get_repr l _ b ltac:(lia)) by (rewrite L; exact R). cbn [alookup]. rewrite E, Z.eqb_refl. reflexivity.
Qed.

(** ** fixed_lookup *)
Lemma fl_lookup_repr l m z :
  0 < length l -> repr Z.eqb (hm (length l)) l m ->
  exists i, fl_lookup l z = Ok (i, has Z.eqb m z) /\
    match probe_from Z.eqb l (hm (length l) z) z with
    | Some j => i = j /\ i < length l | None => i = length l end.
Proof.
  intros H R. unfold fl_lookup. rewrite find_index_home by exact H. cbn [bind].
  change (home (length l) z) with (hm (length l) z).
  pose proof (repr_value Z.eqb zeq_decides _ l m z R) as X. unfold value in X. unfold has. rewrite <- X.
  destruct (probe_from Z.eqb l (hm (length l) z) z) as [i|] eqn:E.
  - apply (probe_from_some Z.eqb zeq_decides) in E. destruct E as [S' _]. exists i.
    split; [|split; [reflexivity|exact (stop_lt _ _ _ S')]].
    destruct S' as [Y|[v Y]]; rewrite (rd_some _ _ _ Y), Y; reflexivity.
  - exists (length l). auto.
Qed.
Lemma fl_insert_repr l m k v n :
  0 < n -> length l = n -> repr Z.eqb (hm n) l m ->
  match put Z.eqb n (fl_hash h k) v m with
  | Some m' => exists i l', fl_insert h l k v = Ok (i, l') /\ length l' = n /\ repr Z.eqb (hm n) l' m' /\
      i < n /\ nth_error l' i = Some (Some (fl_hash h k, v)) /\ forall j, j <> i -> nth_error l' j = nth_error l j
  | None => fl_insert h l k v = Throw
  end.
Proof.
  intros H L R. subst n. pose proof (repr_put Z.eqb zeq_decides _ l m (fl_hash h k) v R) as P.
  destruct (fl_lookup_repr l m (fl_hash h k) H R) as (i & E & Q). unfold fl_insert. rewrite E. cbn [bind].
  pose proof (repr_full Z.eqb zeq_decides _ l m (fl_hash h k) R) as F.
  destruct (probe_from Z.eqb l (hm (length l) (fl_hash h k)) (fl_hash h k)) as [j|] eqn:PE.
  - destruct Q as [<- Li]. destruct P as (_ & P & R1). rewrite P.
    rewrite (proj2 (Nat.eqb_neq i (length l))), andb_false_r by lia. rewrite wr_ok by exact Li. cbn [bind].
    exists i, (upd l i (Some (fl_hash h k, v))). rewrite upd_length.
    split; [reflexivity|]. split; [reflexivity|]. split; [exact R1|]. split; [exact Li|].
    split; [apply nth_error_upd_eq; exact Li|]. intros j N. apply nth_error_upd_ne. exact N.
  - subst i. rewrite P. specialize (F eq_refl). apply orb_false_iff in F. destruct F as [F _].
    rewrite F, Nat.eqb_refl. reflexivity.
Qed.
Lemma fl_run_repr items : forall l m n,
  0 < n -> length l = n -> repr Z.eqb (hm n) l m ->
  match puts Z.eqb n (map (fun p => (fl_hash h (fst p), snd p)) items) m with
  | Some m' => exists l', fl_run h items l = Ok l' /\ length l' = n /\ repr Z.eqb (hm n) l' m'
  | None => fl_run h items l = Throw
  end.
Proof.
  induction items as [|[k v] items IH]; intros l m n H L R; cbn [map puts fl_run fst snd].
  - exists l. auto.
  - pose proof (fl_insert_repr l m k v n H L R) as P. destruct (put Z.eqb n (fl_hash h k) v m) as [m1|].
    + destruct P as (i & l1 & E & L1 & R1 & _). rewrite E. cbn [bind]. apply IH; assumption.
    + rewrite P. reflexivity.
Qed.
Lemma fl_get_repr l m k :
  0 < length l -> repr Z.eqb (hm (length l)) l m ->
  fl_exists h l k = Ok (has Z.eqb m (fl_hash h k)) /\
  fl_get h dflt l k = match alookup Z.eqb m (fl_hash h k) with Some v => Ok v | None => Throw end.
Proof.
  intros H R. destruct (fl_lookup_repr l m (fl_hash h k) H R) as (i & E & Q).
  unfold fl_exists, fl_get, fl_find_existing. rewrite E. cbn [bind]. split; [reflexivity|].
  pose proof (repr_value Z.eqb zeq_decides _ l m (fl_hash h k) R) as X. unfold value in X. unfold has. rewrite <- X.
  destruct (probe_from Z.eqb l (hm (length l) (fl_hash h k)) (fl_hash h k)) as [j|] eqn:PE; [|reflexivity].
  destruct Q as [-> Lj]. apply (probe_from_some Z.eqb zeq_decides) in PE.
  destruct PE as [[Y|[v Y]] _]; rewrite Y; cbn [bind]; [reflexivity|].
  unfold slot_value. rewrite (rd_some _ _ _ Y). reflexivity.
Qed.
Lemma fl_size_repr l m : (Z.of_nat (length l) < 2 ^ 64)%Z -> repr Z.eqb (hm (length l)) l m -> fl_size l = zlen m.
Proof.
  intros H [_ P]. unfold fl_size. rewrite size_contents by lia. rewrite (Permutation_length P). unfold zlen. lia.
Qed.
Lemma fl_table (eqb : K -> K -> bool) n (items : list (K * V)) U :
  decides eqb -> 0 < n -> (Z.of_nat n < 2 ^ 64)%Z -> inj_on (fl_hash h) U -> incl (map fst items) U ->
  match puts eqb n items [] with
  | Some m => exists l, fl_run h items (repeat None n) = Ok l /\ fl_size l = zlen m /\
      forall k, In k U -> fl_exists h l k = Ok (has eqb m k) /\
        fl_get h dflt l k = match alookup eqb m k with Some v => Ok v | None => Throw end
  | None => fl_run h items (repeat None n) = Throw
  end.
Proof.
  intros D H H64 J I'. pose proof (fl_run_repr items (repeat None n) [] n H (repeat_length _ _) (repr_none _ _ n)) as P.
  pose proof (puts_map eqb D (fl_hash h) U J n items [] I' ltac:(intros x [])) as Q. cbn [map] in Q. rewrite Q in P.
  pose proof (puts_keys_in eqb D U n items) as KI.
  destruct (puts eqb n items []) as [m|]; cbn [option_map] in P; [|exact P].
  destruct P as (l & E & L & R). exists l. split; [exact E|]. subst n.
  split; [rewrite (fl_size_repr l _ H64 R); unfold zlen; rewrite map_length; reflexivity|].
  intros k IK. destruct (fl_get_repr l _ k H R) as [A B]. rewrite A, B. unfold has.
  rewrite (alookup_map eqb D (fl_hash h) U J) by auto. auto.
Qed.
(** The index returned by insert stays valid. *)
Lemma fl_index_stays items : forall l l' m n i z v,
  0 < n -> length l = n -> repr Z.eqb (hm n) l m -> nth_error l i = Some (Some (z, v)) ->
  (forall p, In p items -> fl_hash h (fst p) <> z) ->
  fl_run h items l = Ok l' -> nth_error l' i = Some (Some (z, v)).
Proof.
  induction items as [|[k w] items IH]; intros l l' m n i z v H L R E NI; cbn [fl_run].
  - intros X. injection X as <-. exact E.
  - pose proof (fl_insert_repr l m k w n H L R) as P. destruct (put Z.eqb n (fl_hash h k) w m) as [m1|]; [|rewrite P; discriminate].
    destruct P as (j & l1 & E1 & L1 & R1 & Lj & Nj & Oj). rewrite E1. cbn [bind]. intros X.
    refine (IH l1 l' m1 n i z v H L1 R1 _ _ X); [|intros p Y; apply NI; right; exact Y].
    destruct (Nat.eq_dec i j) as [EJ|N]; [|rewrite Oj by exact N; exact E]. exfalso. subst j.
    pose proof (NI (k, w) (or_introl eq_refl)) as NK. cbn in NK.
    unfold fl_insert in E1. destruct (fl_lookup_repr l m (fl_hash h k) ltac:(lia)) as (i' & E2 & Q).
    { rewrite L. exact R. }
    rewrite E2 in E1. cbn [bind] in E1.
    destruct (probe_from Z.eqb l (hm (length l) (fl_hash h k)) (fl_hash h k)) as [j|] eqn:PE.
    + destruct Q as [-> Lt]. rewrite (proj2 (Nat.eqb_neq j (length l))), andb_false_r, wr_ok in E1 by lia. cbn [bind] in E1.
      injection E1 as -> _. apply (probe_from_some Z.eqb zeq_decides) in PE. destruct PE as [[Y|[u Y]] _]; rewrite E in Y; congruence.
    + subst i'. destruct (has Z.eqb m (fl_hash h k)) eqn:HS.
      * pose proof (repr_full Z.eqb zeq_decides (hm n) l m (fl_hash h k) R) as F. rewrite <- L in F. specialize (F PE).
        rewrite HS in F. discriminate.
      * rewrite Nat.eqb_refl in E1. discriminate.
Qed.
Lemma fl_insert_index n items l k v i l1 items' l2 :
  0 < n -> fl_run h items (repeat None n) = Ok l -> fl_insert h l k v = Ok (i, l1) ->
  (forall p, In p items' -> fl_hash h (fst p) <> fl_hash h k) -> fl_run h items' l1 = Ok l2 ->
  fl_get_existing dflt l2 i = Ok v.
Proof.
  intros H E1 E2 NI E3. pose proof (fl_run_repr items (repeat None n) [] n H (repeat_length _ _) (repr_none _ _ n)) as P.
  destruct (puts Z.eqb n (map (fun p => (fl_hash h (fst p), snd p)) items) []) as [m|]; [|congruence].
  destruct P as (l0 & E & L & R). rewrite E1 in E. injection E as <-.
  pose proof (fl_insert_repr l m k v n H L R) as P. destruct (put Z.eqb n (fl_hash h k) v m) as [m1|]; [|congruence].
  destruct P as (i0 & l0 & E & L1 & R1 & Li & Ni & _). rewrite E2 in E. injection E as <- <-.
  pose proof (fl_index_stays items' l1 l2 m1 n i _ v H L1 R1 Ni NI E3) as X.
  unfold fl_get_existing, slot_value. rewrite (rd_some _ _ _ X). reflexivity.
Qed.
Lemma fl_same_hash n a b (v : V) : 0 < n -> fl_hash h a = fl_hash h b ->
  exists l, fl_run h [(a, v)] (repeat None n) = Ok l /\ fl_exists h l b = Ok true /\ fl_get h dflt l b = Ok v.
Proof.
  intros H E. pose proof (fl_run_repr [(a, v)] (repeat None n) [] n H (repeat_length _ _) (repr_none _ _ n)) as P.
  rewrite puts_one in P by exact H. destruct P as (l & P & L & R). exists l. split; [exact P|]. subst n.
  destruct (fl_get_repr l _ b H R) as [A B]. rewrite A, B. unfold has. cbn [alookup]. rewrite E, Z.eqb_refl. auto.
Qed.
End HashKeyed.

(** * operator[] and the constructors in terms of the other operations. *)
Lemma mp_from_run {K V} (eqb : K -> K -> bool) h (dflt : V) items : forall l,
  mp_from eqb h l items = mp_run eqb h dflt (map (fun p => MInsert (fst p) (snd p)) items) l.
Proof.
  induction items as [|[k v] items IH]; intros l; cbn [mp_from map mp_run mp_step fst snd]; [reflexivity|].
  destruct (mp_insert eqb h l k v); cbn [bind]; auto.
Qed.
Lemma rd_wr {A} (l : list A) n x y : rd l n = Ok x -> wr l n y = Ok (upd l n y) /\ rd (upd l n y) n = Ok y.
Proof.
  intros R. apply rd_inv in R. apply nth_error_some_lt in R. split; [apply wr_ok; exact R|].
  apply rd_some. apply nth_error_upd_eq. exact R.
Qed.
Lemma st_index_get {K V} (h : K -> Z) (dflt : V) l k v : st_get h dflt l k = Ok v ->
  exists n l', st_index h dflt l k = Ok (n, l') /\ st_set h l k v = Ok l' /\ slot_value dflt l' n = Ok v.
Proof.
  unfold st_get, st_index, st_set. intros H. destruct (st_find h l k) as [n| | |]; cbn [bind] in *; try discriminate.
  rewrite H. cbn [bind]. unfold slot_value in *. destruct (rd l n) as [s| | |] eqn:R; cbn [bind] in H; try discriminate.
  destruct (rd_wr l n s (Some (st_hash h k, v)) R) as [W1 W2]. rewrite W1. cbn [bind].
  eexists _, _. split; [reflexivity|]. split; [reflexivity|]. rewrite W2. reflexivity.
Qed.
Lemma fl_index_present {K V} (h : K -> Z) (dflt : V) l k v : fl_get h dflt l k = Ok v ->
  fl_index h dflt l k = fl_insert h l k v.
Proof.
  unfold fl_get, fl_find_existing, fl_index, fl_insert. destruct (fl_lookup l (fl_hash h k)) as [[n []]| | |]; cbn; try discriminate.
  intros ->. reflexivity.
Qed.
Lemma fl_index_absent {K V} (h : K -> Z) (dflt : V) l k : fl_exists h l k = Ok false ->
  fl_index h dflt l k = fl_insert h l k dflt.
Proof.
  unfold fl_exists, fl_index, fl_insert, fl_lookup. destruct (find_index Z.eqb l (fl_hash h k) (fl_hash h k)) as [[n|]| | |];
    cbn [bind]; try discriminate.
  - unfold slot_value. destruct (rd l n) as [[s|]| | |] eqn:R; cbn [bind]; try discriminate. intros _. cbn [negb andb].
    pose proof R as R2. apply rd_inv in R2. apply nth_error_some_lt in R2.
    destruct (n =? length l)%nat eqn:E; [apply Nat.eqb_eq in E; lia|]. rewrite R. reflexivity.
  - intros _. cbn [negb andb]. rewrite Nat.eqb_refl. reflexivity.
Qed.

(** * Statements split for the properties. *)
Lemma bs_inserts {K} (eqb : K -> K -> bool) (D : decides eqb) h n ks : 0 < n ->
  (length (distinct eqb ks) <= n -> exists l, bs_run eqb h (map SInsert ks) (bs_make n) = Ok l /\
     forall k, bs_exists eqb h l k = Ok (existsb (eqb k) ks)) /\
  (n < length (distinct eqb ks) -> bs_run eqb h (map SInsert ks) (bs_make n) = Throw).
Proof.
  intros H. rewrite bs_run_inserts by exact D. split; intros L.
  - destruct (hs_inserts eqb D h n ks H L) as (l & E & F). exists l. split; [exact E|]. intros k. apply (F k).
  - apply (hs_full eqb D h n ks H L).
Qed.
Lemma bs_finds_present {K} (eqb : K -> K -> bool) (D : decides eqb) h n ks l :
  0 < n -> bs_run eqb h (map SInsert ks) (bs_make n) = Ok l ->
  (forall k, In k ks -> exists p, bs_find eqb h l k = Ok p /\ p <> length l /\ it_get l p = Ok (k, tt)) /\
  bs_empty l = match ks with [] => true | _ => false end.
Proof. intros H E. destruct (bs_finds eqb D h n ks l H E) as (A & _ & _ & B). auto. Qed.
Lemma bs_finds_absent {K} (eqb : K -> K -> bool) (D : decides eqb) h n ks l :
  0 < n -> bs_run eqb h (map SInsert ks) (bs_make n) = Ok l ->
  forall k, ~ In k ks -> length (distinct eqb ks) < n ->
  exists p l', bs_find eqb h l k = Ok p /\ p <> length l /\ rd l p = Ok None /\ bs_erase eqb h l k = Ok (Some p, l').
Proof. intros H E. apply (bs_finds eqb D h n ks l H E). Qed.
Lemma bs_finds_loop {K} (eqb : K -> K -> bool) (D : decides eqb) h n ks l :
  0 < n -> bs_run eqb h (map SInsert ks) (bs_make n) = Ok l ->
  forall past xs, visits (it_range past l (length l)) xs <-> ks = [] /\ xs = [].
Proof. intros H E. apply (bs_finds eqb D h n ks l H E). Qed.
Lemma mp_history_ok {K V} (eqb : K -> K -> bool) (D : decides eqb) h (dflt : V) n os m :
  0 < n -> (Z.of_nat n < 2 ^ 64)%Z -> forallb (fun o => negb (erases o)) os = true -> map_ops eqb n os [] = Some m ->
  exists l, mp_run eqb h dflt os (mp_make n) = Ok l /\ shows eqb h n l m.
Proof. intros A B C E. pose proof (mp_history eqb D h dflt n os A B C) as P. rewrite E in P. exact P. Qed.
Lemma mp_history_full {K V} (eqb : K -> K -> bool) (D : decides eqb) h (dflt : V) n os :
  0 < n -> (Z.of_nat n < 2 ^ 64)%Z -> forallb (fun o => negb (erases o)) os = true -> map_ops eqb n os [] = None ->
  mp_run eqb h dflt os (mp_make n) = UB.
Proof. intros A B C E. pose proof (mp_history eqb D h dflt n os A B C) as P. rewrite E in P. exact P. Qed.
Lemma bs_run_app {K} (eqb : K -> K -> bool) h os os' l :
  bs_run eqb h (os ++ os') l = (l <- bs_run eqb h os l ;; bs_run eqb h os' l).
Proof.
  revert l. induction os as [|[k|k] os IH]; intros l; cbn [app bs_run bind]; [reflexivity| |].
  - destruct (bs_insert eqb h l k) as [[i l']| | |]; cbn [bind]; [apply IH|reflexivity..].
  - destruct (bs_erase eqb h l k) as [[i l']| | |]; cbn [bind]; [apply IH|reflexivity..].
Qed.
Lemma bs_finds_full {K} (eqb : K -> K -> bool) (D : decides eqb) h n ks l :
  0 < n -> bs_run eqb h (map SInsert ks) (bs_make n) = Ok l ->
  forall k, ~ In k ks -> length (distinct eqb ks) = n ->
  bs_find eqb h l k = Ok (length l) /\ bs_erase eqb h l k = Ok (None, l).
Proof.
  intros H E k N L. destruct (bs_inserts eqb D h n (ks ++ [k]) H) as [_ F].
  assert (n < length (distinct eqb (ks ++ [k]))) as G.
  { enough (length (k :: distinct eqb ks) <= length (distinct eqb (ks ++ [k]))) as Z by (cbn [length] in Z; lia).
    apply NoDup_incl_length.
    - constructor; [rewrite distinct_in by exact D; exact N|apply distinct_nodup; exact D].
    - intros x X. apply (distinct_in eqb D), in_app_iff. destruct X as [<-|X]; [right; left; reflexivity|left; apply (distinct_in eqb D); exact X]. }
  specialize (F G). rewrite map_app, bs_run_app, E in F. cbn [bind map bs_run] in F. unfold bs_insert in F.
  destruct l as [|s l]; [rewrite find_index_zero in F; discriminate|].
  unfold bs_find, bs_erase. rewrite find_index_home in * by (cbn; lia). cbn [bind] in *.
  destruct (probe_from eqb (s :: l) (home (length (s :: l)) (h k)) k) as [i|]; [|split; reflexivity].
  unfold rd in F. destruct (nth_error (s :: l) i) as [[[]|]|]; discriminate F.
Qed.

Lemma c166_same_hash_l :
  forall (K : Type) (h : K -> Z) a b,
  (1 <= st_hash h a <= 2 ^ 64 - 2)%Z /\
  (st_hash h a = st_hash h b <-> h a mod (2 ^ 64 - 2) = h b mod (2 ^ 64 - 2))%Z.
Proof.
  intros K h a b. unfold st_hash, sz, wrap.
  change (2 ^ 64 - 1 - 1)%Z with (2 ^ 64 - 2)%Z.
  pose proof (Z.mod_pos_bound (h a) (2 ^ 64 - 2) ltac:(lia)) as Ra.
  pose proof (Z.mod_pos_bound (h b) (2 ^ 64 - 2) ltac:(lia)) as Rb.
  rewrite (Z.mod_small (h a mod (2 ^ 64 - 2) + 1)), (Z.mod_small (h b mod (2 ^ 64 - 2) + 1)) by lia. lia.
Qed.

Lemma c167_same_hash_l :
  forall (K : Type) (h : K -> Z) a b,
  (2 <= fl_hash h a <= 2 ^ 64 - 2)%Z /\
  (fl_hash h a = fl_hash h b <-> h a mod (2 ^ 64 - 3) = h b mod (2 ^ 64 - 3))%Z.
Proof.
  intros K h a b. unfold fl_hash, sz, wrap.
  change (2 ^ 64 - 1 - 2)%Z with (2 ^ 64 - 3)%Z.
  pose proof (Z.mod_pos_bound (h a) (2 ^ 64 - 3) ltac:(lia)) as Ra.
  pose proof (Z.mod_pos_bound (h b) (2 ^ 64 - 3) ltac:(lia)) as Rb.
  rewrite (Z.mod_small (h a mod (2 ^ 64 - 3) + 2)), (Z.mod_small (h b mod (2 ^ 64 - 3) + 2)) by lia. lia.
Qed.
