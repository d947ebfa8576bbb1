(** Proofs about ordered_map and quick_sort. *)
From Coq Require Import Lia Permutation Bool.
From Verif Require Import Common CommonProofs AlgSearch OldMap SpecOldMap.
Open Scope nat_scope.

Section MapProofs.
  Context {K V : Type} (comp : K -> K -> bool) (dflt : V) (SW : strict_weak comp).
  Notation om := (list (K * V)).
  Notation same := (same_key comp).
  Lemma same_refl a : same a a = true.
  Proof. unfold same_key. now rewrite (swo_irrefl _ SW). Qed.
  Lemma same_sym a b : same a b = same b a.
  Proof. unfold same_key. apply andb_comm. Qed.
  Lemma same_split a b : same a b = true <-> comp a b = false /\ comp b a = false.
  Proof. unfold same_key. rewrite andb_true_iff, !negb_true_iff. tauto. Qed.
  Lemma same_trans a b c : same a b = true -> same b c = true -> same a c = true.
  Proof. rewrite !same_split. intros [A B] [C D]. exact (swo_incomp _ SW a b c A B C D). Qed.
  Lemma same_cong a b c : same a b = true -> same c a = same c b.
  Proof.
    intros H. destruct (same c a) eqn:E, (same c b) eqn:F; auto.
    - rewrite (same_trans c a b E H) in F. discriminate F.
    - rewrite same_sym in H. rewrite (same_trans c b a F H) in E. discriminate E.
  Qed.
  Lemma om_find_cons k' v (m : om) x : om_find comp ((k', v) :: m) x = if same k' x then 0 else S (om_find comp m x).
  Proof. reflexivity. Qed.
  Lemma om_find_le (m : om) x : om_find comp m x <= length m.
  Proof. induction m as [|[k v] m IH]; [apply Nat.le_refl|]. rewrite om_find_cons. cbn [length]. destruct (same k x); lia. Qed.
  Lemma om_find_some (m : om) x : om_find comp m x < length m -> exists k v, nth_error m (om_find comp m x) = Some (k, v) /\ same k x = true.
  Proof.
    induction m as [|[k v] m IH]; cbn [length]; [lia|]. rewrite om_find_cons. destruct (same k x) eqn:E; intros H.
    - exists k, v. auto.
    - apply IH. lia.
  Qed.
  Lemma om_find_first (m : om) x i k v : i < om_find comp m x -> nth_error m i = Some (k, v) -> same k x = false.
  Proof.
    revert i. induction m as [|[k' v'] m IH]; intros i H Q; [destruct i; discriminate Q|]. rewrite om_find_cons in H.
    destruct (same k' x) eqn:E; [lia|]. destruct i as [|i]; cbn in Q; [congruence|]. apply (IH i); [lia|exact Q].
  Qed.
  Lemma om_find_cong (m : om) x y : same x y = true -> om_find comp m x = om_find comp m y.
  Proof. intros H. induction m as [|[k v] m IH]; [reflexivity|]. rewrite !om_find_cons, IH. now rewrite (same_cong x y k H). Qed.
  Lemma om_find_app (m : om) k v x : om_find comp (m ++ [(k, v)]) x =
    if om_find comp m x =? length m then (if same k x then length m else S (length m)) else om_find comp m x.
  Proof.
    induction m as [|[k' v'] m IH]; [cbn [app]; rewrite om_find_cons; reflexivity|]. cbn [app length]. rewrite !om_find_cons, IH.
    destruct (same k' x); [reflexivity|]. cbn [Nat.eqb]. destruct (om_find comp m x =? length m); destruct (same k x); reflexivity.
  Qed.
  Lemma om_find_keys (m m' : om) x : map fst m = map fst m' -> om_find comp m x = om_find comp m' x.
  Proof.
    revert m'. induction m as [|[k v] m IH]; intros [|[k' v'] m'] H; try discriminate H; [reflexivity|]. cbn in H. injection H as -> H.
    rewrite !om_find_cons. now rewrite (IH m' H).
  Qed.
  Definition look (m : om) (x : K) : option V := option_map snd (nth_error m (om_find comp m x)).
  Lemma look_none (m : om) x : look m x = None <-> om_find comp m x = length m.
  Proof.
    unfold look. pose proof (om_find_le m x) as L. destruct (nth_error m (om_find comp m x)) as [p|] eqn:E.
    - apply nth_error_some_lt in E. split; [discriminate|lia].
    - apply nth_error_None in E. split; [lia|reflexivity].
  Qed.
  Lemma look_cong m x y : same x y = true -> look m x = look m y.
  Proof. intros H. unfold look. now rewrite (om_find_cong m x y H). Qed.
  Lemma look_append m k v x : look m k = None -> look (m ++ [(k, v)]) x = set_key comp (look m) k v x.
  Proof.
    intros N. unfold set_key. destruct (same x k) eqn:E.
    - rewrite (look_cong _ x k E). unfold look. rewrite om_find_app. apply look_none in N. rewrite N, Nat.eqb_refl, same_refl.
      rewrite nth_error_app2, Nat.sub_diag by lia. reflexivity.
    - unfold look. rewrite om_find_app. destruct (om_find comp m x =? length m) eqn:Q.
      + apply Nat.eqb_eq in Q. rewrite same_sym, E. pose proof (proj2 (look_none m x) Q) as Z. unfold look in Z. rewrite Z.
        rewrite (proj2 (nth_error_None _ _)); [reflexivity|]. rewrite app_length. cbn. lia.
      + apply Nat.eqb_neq in Q. pose proof (om_find_le m x). rewrite nth_error_app1 by lia. reflexivity.
  Qed.
  Lemma keys_upd (m : om) p k v v' : nth_error m p = Some (k, v) -> map fst (upd m p (k, v')) = map fst m.
  Proof. revert p. induction m as [|[a b] m IH]; intros [|p] H; cbn in *; try discriminate; [congruence|]. now rewrite IH. Qed.
  Lemma look_assign m k v x : look m k <> None ->
    exists m', om_assign m (om_find comp m k) v = Ok m' /\ map fst m' = map fst m /\ look m' x = set_key comp (look m) k v x /\
      forall y, look m' y = set_key comp (look m) k v y.
  Proof.
    intros N. pose proof (om_find_le m k) as L. assert (Lt : om_find comp m k < length m).
    { destruct (Nat.eq_dec (om_find comp m k) (length m)) as [E|]; [|lia]. apply look_none in E. congruence. }
    destruct (om_find_some m k Lt) as (k' & v' & Q & E). unfold om_assign. rewrite (rd_some _ _ _ Q). cbn [bind fst]. rewrite wr_ok by exact Lt.
    eexists. split; [reflexivity|]. split; [eapply keys_upd; exact Q|].
    assert (G : forall y, look (upd m (om_find comp m k) (k', v)) y = set_key comp (look m) k v y).
    { intros y. unfold set_key. unfold look at 1. rewrite (om_find_keys (upd m (om_find comp m k) (k', v)) m y) by (eapply keys_upd; exact Q). destruct (same y k) eqn:S.
      - rewrite (om_find_cong m y k S), nth_error_upd_eq by exact Lt. reflexivity.
      - rewrite nth_error_upd_ne; [reflexivity|]. intros Z. assert (Lt' : om_find comp m y < length m) by lia.
        destruct (om_find_some m y Lt') as (k2 & v2 & Q2 & E2). rewrite Z, Q in Q2. injection Q2 as <- <-.
        rewrite same_sym in E2. rewrite (same_trans y k' k E2 E) in S. discriminate S. }
    split; [apply G|exact G].
  Qed.
  Definition minv (m : om) (s : mspec K V) : Prop := map fst m = fst s /\ distinct comp (map fst m) /\ forall k, look m k = snd s k.
  Lemma distinct_append (m : om) k : distinct comp (map fst m) -> look m k = None -> distinct comp (map fst m ++ [k]).
  Proof.
    intros D N i j a b Hi Hj E. apply look_none in N.
    assert (G : forall i a, i < length (map fst m) -> nth_error (map fst m ++ [k]) i = Some a -> same a k = false).
    { intros i0 a0 L H. rewrite nth_error_app1 in H by exact L. rewrite nth_error_map in H. destruct (nth_error m i0) as [[q w]|] eqn:F; [|discriminate H].
      injection H as <-. rewrite map_length in L. apply (om_find_first m k i0 q w); [lia|exact F]. }
    assert (B : forall i a, nth_error (map fst m ++ [k]) i = Some a -> i < length (map fst m) \/ i = length (map fst m) /\ a = k).
    { intros i0 a0 H. pose proof (nth_error_some_lt _ _ _ H) as L. rewrite app_length in L. cbn in L.
      destruct (Nat.eq_dec i0 (length (map fst m))) as [->|]; [right|left; lia]. rewrite nth_error_app2, Nat.sub_diag in H by lia. cbn in H. split; congruence. }
    destruct (B i a Hi) as [Li|[-> ->]], (B j b Hj) as [Lj|[-> ->]]; auto.
    - rewrite nth_error_app1 in Hi, Hj by assumption. exact (D i j a b Hi Hj E).
    - rewrite (G i a Li Hi) in E. discriminate E.
    - rewrite same_sym in E. rewrite (G j b Lj Hj) in E. discriminate E.
  Qed.
  Lemma insert_new (m : om) k v : look m k = None -> om_insert comp m k v = (m ++ [(k, v)], length m, true).
  Proof. intros N. apply look_none in N. unfold om_insert. rewrite N, Nat.eqb_refl, firstn_all, skipn_all. reflexivity. Qed.
  Lemma insert_old (m : om) k v : look m k <> None -> om_insert comp m k v = (m, om_find comp m k, false).
  Proof. intros N. unfold om_insert. destruct (_ =? _) eqn:E; [|reflexivity]. apply Nat.eqb_eq in E. apply look_none in E. congruence. Qed.
  Lemma index_new (m : om) k : look m k = None -> om_index comp dflt m k = (m ++ [(k, dflt)], length m).
  Proof. intros N. unfold om_index. rewrite (insert_new m k dflt N). apply look_none in N. now rewrite N, Nat.eqb_refl. Qed.
  Lemma index_old (m : om) k : look m k <> None -> om_index comp dflt m k = (m, om_find comp m k).
  Proof. intros N. unfold om_index. destruct (_ =? _) eqn:E; [|reflexivity]. apply Nat.eqb_eq in E. apply look_none in E. congruence. Qed.
  Lemma append_inv m s k v : minv m s -> snd s k = None -> minv (m ++ [(k, v)]) (add_key s k, set_key comp (snd s) k v).
  Proof.
    intros (A & B & C) N. assert (Lk : look m k = None) by (rewrite C; exact N). split; [|split].
    - cbn [fst]. unfold add_key. rewrite N, map_app, A. reflexivity.
    - rewrite map_app. apply distinct_append; assumption.
    - intros x. cbn [snd]. rewrite (look_append m k v x Lk). unfold set_key. destruct (same x k); [reflexivity|apply C].
  Qed.
  Lemma assign_inv m s k v : minv m s -> snd s k <> None ->
    exists m', om_assign m (om_find comp m k) v = Ok m' /\ minv m' (fst s, set_key comp (snd s) k v).
  Proof.
    intros (A & B & C) N. rewrite <- C in N. destruct (look_assign m k v k N) as (m' & E & F & _ & G). exists m'. split; [exact E|]. split; [|split].
    - cbn [fst]. congruence.
    - rewrite F. exact B.
    - intros x. rewrite (G x). cbn [snd]. unfold set_key. destruct (same x k); [reflexivity|apply C].
  Qed.
  Lemma om_step_ok m s o : minv m s -> exists m', om_step comp dflt m o = Ok m' /\ minv m' (spec_step comp dflt s o).
  Proof.
    intros H. pose proof H as (A & B & C). destruct o as [k v|k|k v|k v|]; cbn [om_step spec_step].
    - destruct (snd s k) as [w|] eqn:E.
      + rewrite insert_old by (rewrite C; congruence). eauto.
      + rewrite insert_new by (rewrite C; exact E). eexists. split; [reflexivity|]. now apply append_inv.
    - destruct (snd s k) as [w|] eqn:E.
      + rewrite index_old by (rewrite C; congruence). eauto.
      + rewrite index_new by (rewrite C; exact E). eexists. split; [reflexivity|]. now apply append_inv.
    - destruct (snd s k) as [w|] eqn:E.
      + rewrite index_old by (rewrite C; congruence). unfold add_key. rewrite E. apply assign_inv; [exact H|congruence].
      + assert (Lk : look m k = None) by (rewrite C; exact E). rewrite (index_new m k Lk).
        pose proof (append_inv m s k dflt H E) as H1. unfold om_assign.
        rewrite (rd_some _ _ (k, dflt)) by (rewrite nth_error_app2, Nat.sub_diag by lia; reflexivity). cbn [bind fst].
        rewrite wr_ok by (rewrite app_length; cbn; lia).
        assert (U : upd (m ++ [(k, dflt)]) (length m) (k, v) = m ++ [(k, v)]) by (clear; induction m as [|q m IH]; cbn; congruence).
        rewrite U. eexists. split; [reflexivity|]. exact (append_inv m s k v H E).
    - unfold om_at. destruct (snd s k) as [w|] eqn:E.
      + destruct (om_find comp m k =? length m) eqn:Q; [apply Nat.eqb_eq in Q; apply look_none in Q; rewrite C in Q; congruence|].
        apply assign_inv; [exact H|congruence].
      + assert (Lk : look m k = None) by (rewrite C; exact E). apply look_none in Lk. rewrite Lk, Nat.eqb_refl. eauto.
    - eexists. split; [reflexivity|]. split; [reflexivity|]. split; [|reflexivity]. intros [|i] j a b Hi; discriminate Hi.
  Qed.
  Lemma om_run_ok os : forall m s, minv m s -> exists m', om_run comp dflt os m = Ok m' /\ minv m' (fold_left (spec_step comp dflt) os s).
  Proof.
    induction os as [|o os IH]; intros m s H; cbn [om_run fold_left]; [eauto|].
    destruct (om_step_ok m s o H) as (m1 & E & H1). rewrite E. cbn [bind]. exact (IH m1 _ H1).
  Qed.
  Lemma minv_nil : minv [] ([], fun _ => None).
  Proof. split; [reflexivity|]. split; [|reflexivity]. intros [|i] j a b Hi; discriminate Hi. Qed.
  Lemma read_look (m : om) k : read_key comp m k = match look m k with Some v => Ok v | None => Throw end.
  Proof.
    unfold read_key, om_at. pose proof (om_find_le m k) as L. destruct (om_find comp m k =? length m) eqn:E.
    - apply Nat.eqb_eq in E. apply look_none in E. rewrite E. reflexivity.
    - apply Nat.eqb_neq in E. destruct (om_find_some m k) as (k' & v & Q & _); [lia|]. cbn [bind]. unfold om_value, look. rewrite Q, (rd_some _ _ _ Q). reflexivity.
  Qed.
  Lemma om_history os : exists m, om_run comp dflt os [] = Ok m /\ map fst m = fst (spec_run comp dflt os) /\ distinct comp (map fst m) /\
    forall k, read_key comp m k = match snd (spec_run comp dflt os) k with Some v => Ok v | None => Throw end.
  Proof.
    destruct (om_run_ok os [] _ minv_nil) as (m & E & A & B & C). exists m. split; [exact E|]. split; [exact A|]. split; [exact B|].
    intros k. rewrite read_look, C. reflexivity.
  Qed.
  Lemma om_insert_result os m k v : om_run comp dflt os [] = Ok m ->
    exists m' p b, om_insert comp m k v = (m', p, b) /\ b = (match snd (spec_run comp dflt os) k with None => true | Some _ => false end) /\
      exists k' v', nth_error m' p = Some (k', v') /\ same k' k = true /\ (b = true -> k' = k /\ v' = v /\ m' = m ++ [(k, v)]) /\ (b = false -> m' = m).
  Proof.
    intros R. destruct (om_run_ok os [] _ minv_nil) as (m0 & E & A & B & C). rewrite R in E. injection E as <-.
    fold (spec_run comp dflt os) in C. destruct (snd (spec_run comp dflt os) k) as [w|] eqn:Q; rewrite <- C in Q.
    - rewrite insert_old by congruence. do 3 eexists. split; [reflexivity|]. split; [reflexivity|].
      pose proof (om_find_le m k) as L. destruct (om_find_some m k) as (k' & v' & F & S).
      { destruct (Nat.eq_dec (om_find comp m k) (length m)) as [Z|]; [|lia]. apply look_none in Z. congruence. }
      exists k', v'. split; [exact F|]. split; [exact S|]. split; [discriminate|reflexivity].
    - rewrite insert_new by exact Q. do 3 eexists. split; [reflexivity|]. split; [reflexivity|]. exists k, v.
      split; [rewrite nth_error_app2, Nat.sub_diag by lia; reflexivity|]. split; [apply same_refl|]. split; [auto|discriminate].
  Qed.
  Lemma spec_keeps_order (os : list (@mop K V)) : Forall (fun o => o <> MClear) os -> forall s, exists t, fst (fold_left (spec_step comp dflt) os s) = fst s ++ t.
  Proof.
    induction 1 as [|o os N F IH]; intros s; cbn [fold_left]; [exists []; now rewrite app_nil_r|].
    destruct (IH (spec_step comp dflt s o)) as (t & ->). assert (G : exists u, fst (spec_step comp dflt s o) = fst s ++ u).
    { destruct o as [k v|k|k v|k v|]; [| | | |congruence]; cbn [spec_step]; unfold add_key; destruct (snd s k); cbn [fst];
        try (exists []; now rewrite app_nil_r); eexists; reflexivity. }
    destruct G as (u & ->). exists (u ++ t). now rewrite app_assoc.
  Qed.
  Lemma om_order os os' : Forall (fun o => o <> MClear) os' -> exists m m' t,
    om_run comp dflt os [] = Ok m /\ om_run comp dflt (os ++ os') [] = Ok m' /\ map fst m' = map fst m ++ t.
  Proof.
    intros F. destruct (om_history os) as (m & E & A & _). destruct (om_history (os ++ os')) as (m' & E' & A' & _).
    unfold spec_run in A'. rewrite fold_left_app in A'. destruct (spec_keeps_order os' F (fold_left (spec_step comp dflt) os ([], fun _ => None))) as (t & T).
    exists m, m', t. split; [exact E|]. split; [exact E'|]. rewrite A', T, A. reflexivity.
  Qed.
End MapProofs.

Section SortProofs.
  Context {T : Type}.
  Lemma pick_app (l : list T) a b : pick l (a ++ b) = pick l a ++ pick l b.
  Proof. apply flat_map_app. Qed.
  Lemma pick_perm (l : list T) a b : Permutation a b -> Permutation (pick l a) (pick l b).
  Proof. intros H. apply Permutation_flat_map. exact H. Qed.
  Lemma pick_seq (pre l : list T) : pick (pre ++ l) (seq (length pre) (length l)) = l.
  Proof.
    revert pre. induction l as [|x l IH]; intros pre; [reflexivity|]. cbn [length seq]. unfold pick. cbn [flat_map].
    rewrite nth_error_app2, Nat.sub_diag by lia. cbn [nth_error app]. f_equal.
    specialize (IH (pre ++ [x])). rewrite <- app_assoc in IH. cbn [app] in IH. rewrite app_length in IH. cbn in IH. rewrite Nat.add_1_r in IH. exact IH.
  Qed.
  Lemma pick_all (l : list T) : pick l (seq 0 (length l)) = l.
  Proof. exact (pick_seq [] l). Qed.
  Lemma pick_answers (pred : T -> bool) (l : list T) is : Forall (fun i => i < length l) is ->
    map pred (pick l is) = map (fun i => nth i (map pred l) false) is.
  Proof.
    induction 1 as [|i is H F IH]; [reflexivity|]. unfold pick. cbn [flat_map]. rewrite map_app. fold (pick l is). rewrite IH.
    destruct (nth_error_ex l i H) as (x & X). rewrite X. cbn. f_equal. symmetry. apply nth_error_nth.
    rewrite nth_error_map, X. reflexivity.
  Qed.
  Lemma repeat_split (pred : T -> bool) s : forall n m, map pred s = repeat true n ++ repeat false m ->
    length (filter pred s) = n /\ Forall (fun x => pred x = true) (firstn n s) /\ Forall (fun x => pred x = false) (skipn n s).
  Proof.
    induction s as [|x s IH]; intros n m H.
    - destruct n; [|discriminate H]. cbn. auto.
    - destruct n as [|n].
      + destruct m as [|m]; [discriminate H|]. cbn in H. injection H as H1 H2. destruct (IH 0 m H2) as (A & _ & C). cbn [filter skipn]. rewrite H1. split; [exact A|].
        split; [constructor|]. constructor; assumption.
      + cbn in H. injection H as H1 H2. destruct (IH n m H2) as (A & B & C). cbn [filter firstn skipn]. rewrite H1. cbn [length]. split; [congruence|].
        split; [constructor; assumption|exact C].
  Qed.
  Lemma filter_perm (f : T -> bool) l m : Permutation l m -> length (filter f l) = length (filter f m).
  Proof. induction 1; cbn; repeat (destruct (f _)); cbn; congruence. Qed.
  Lemma partition_ok order (l : list T) pred : partitions order ->
    exists A B, partition order l pred = (A ++ B, length A) /\ Permutation (A ++ B) l /\
      Forall (fun x => pred x = true) A /\ Forall (fun x => pred x = false) B.
  Proof.
    intros P. destruct (P (map pred l)) as (P1 & n & m & P2). rewrite map_length in P1.
    assert (Q : Permutation (pick l (order (map pred l))) l).
    { rewrite (pick_perm l _ _ P1), pick_all. reflexivity. }
    rewrite <- pick_answers in P2.
    - destruct (repeat_split pred _ n m P2) as (A & B & C).
      exists (firstn n (pick l (order (map pred l)))), (skipn n (pick l (order (map pred l)))). unfold partition. rewrite firstn_skipn.
      split; [|split; [exact Q|split; assumption]]. f_equal. rewrite <- (filter_perm pred _ _ Q), A, firstn_length.
      assert (L : n <= length (pick l (order (map pred l)))).
      { apply (f_equal (@length bool)) in P2. rewrite map_length, app_length, repeat_length in P2. lia. }
      lia.
    - apply Forall_forall. intros i Hi. rewrite P1 in Hi. apply in_seq in Hi. lia.
  Qed.
  Lemma part_at_ok order (a s b : list T) pred : partitions order ->
    exists A B, part_at order (a ++ s ++ b) (length a) (length a + length s) pred = (a ++ (A ++ B) ++ b, length a + length A) /\
      Permutation (A ++ B) s /\ Forall (fun x => pred x = true) A /\ Forall (fun x => pred x = false) B.
  Proof.
    intros P. destruct (partition_ok order s pred P) as (A & B & E & Q). exists A, B. split; [|exact Q]. unfold part_at, slice.
    rewrite skipn_app, Nat.sub_diag, skipn_all. cbn [app skipn]. replace (length a + length s - length a) with (length s) by lia.
    rewrite firstn_app, Nat.sub_diag, firstn_all. cbn [firstn]. rewrite app_nil_r, E.
    rewrite firstn_app, Nat.sub_diag, firstn_all. cbn [firstn]. rewrite app_nil_r.
    assert (Z : skipn (length a + length s) (a ++ s ++ b) = b).
    { rewrite app_assoc, <- app_length, skipn_app, skipn_all, Nat.sub_diag. reflexivity. }
    rewrite Z. reflexivity.
  Qed.

  Context (comp : T -> T -> bool) (SW : strict_weak comp).
  Lemma asym x y : comp x y = true -> comp y x = false.
  Proof.
    intros H. destruct (comp y x) eqn:E; [|reflexivity]. pose proof (swo_trans _ SW x y x H E) as Z. rewrite (swo_irrefl _ SW) in Z. discriminate Z.
  Qed.
  Lemma neg_trans x y z : comp x y = false -> comp y z = false -> comp x z = false.
  Proof.
    intros A B. destruct (comp x z) eqn:E; [|reflexivity]. destruct (comp y x) eqn:C.
    - rewrite (swo_trans _ SW y x z C E) in B. discriminate B.
    - destruct (comp z y) eqn:D.
      + rewrite (swo_trans _ SW x z y E D) in A. discriminate A.
      + destruct (swo_incomp _ SW x y z A C B D) as [F _]. congruence.
  Qed.
  Lemma filter_two (f : T -> bool) l : forall i j x y, i <> j -> nth_error l i = Some x -> nth_error l j = Some y -> f x = false -> f y = false ->
    length (filter f l) + 2 <= length l.
  Proof.
    assert (One : forall l i x, nth_error l i = Some x -> f x = false -> length (filter f l) + 1 <= length l).
    { clear. induction l as [|z l IH]; intros [|i] x H F; cbn in H; try discriminate H; cbn [filter length].
      - injection H as ->. rewrite F. assert (length (filter f l) <= length l) by (clear; induction l as [|q l IH]; cbn; [lia|]; destruct (f q); cbn; lia). lia.
      - specialize (IH i x H F). destruct (f z); cbn [length]; lia. }
    induction l as [|z l IH]; intros i j x y N Hi Hj Fx Fy; [destruct i; discriminate Hi|]. cbn [filter length]. destruct i as [|i], j as [|j]; cbn in Hi, Hj; [congruence| | |].
    - injection Hi as ->. rewrite Fx. specialize (One l j y Hj Fy). lia.
    - injection Hj as ->. rewrite Fy. specialize (One l i x Hi Fx). lia.
    - assert (Z : length (filter f l) + 2 <= length l) by (apply (IH i j x y); auto). destruct (f z); cbn [length]; lia.
  Qed.
  Lemma median_in a b c : median comp a b c = a \/ median comp a b c = b \/ median comp a b c = c.
  Proof. unfold median. destruct (negb _); [auto|]. destruct (negb _); auto. Qed.
  (** Two of the three are not below the median and two are not above. *)
  Lemma median_two a b c : let p := median comp a b c in
    (comp a p = false /\ comp b p = false \/ comp a p = false /\ comp c p = false \/ comp b p = false /\ comp c p = false) /\
    (comp p a = false /\ comp p b = false \/ comp p a = false /\ comp p c = false \/ comp p b = false /\ comp p c = false).
  Proof.
    cbv zeta. unfold median. destruct (comp a b) eqn:AB, (comp a c) eqn:AC; cbn [Bool.eqb negb]; try (destruct (comp c b) eqn:CB; cbn [Bool.eqb negb]);
      rewrite ?(swo_irrefl _ SW), ?AB, ?AC, ?CB;
      repeat match goal with H : comp ?x ?y = true |- _ => rewrite (asym x y H) in *; clear H end; auto 10.
  Qed.
  Lemma filter_Forall (f : T -> bool) A B : Forall (fun x => f x = true) A -> Forall (fun x => f x = false) B -> length (filter f (A ++ B)) = length A.
  Proof.
    intros HA HB. rewrite filter_app, app_length.
    assert (E1 : filter f A = A) by (clear - HA; induction HA as [|x A H F IH]; cbn; [reflexivity|]; now rewrite H, IH).
    assert (E2 : filter f B = []) by (clear - HB; induction HB as [|x B H F IH]; cbn; [reflexivity|]; now rewrite H).
    rewrite E1, E2. cbn. lia.
  Qed.
  (** One round. *)
  Lemma round order n st lo hi : partitions order -> 2 <= length lo ->
    exists A B C p, Permutation (A ++ B ++ C) lo /\ B <> [] /\
      Forall (fun x => comp x p = true) A /\ Forall (fun x => comp x p = false /\ comp p x = false) B /\ Forall (fun x => comp p x = true) C /\
      length A < length lo /\ (3 <= length lo -> length A + 2 <= length lo /\ length C + 2 <= length lo) /\
      qs_loop comp order (S n) ((0, length lo) :: st) (lo ++ hi) =
        (st <- push st (length A + length B, length lo) ;; st <- push st (0, length A) ;; qs_loop comp order n st (A ++ B ++ C ++ hi)).
  Proof.
    intros P L. set (N := length lo) in *.
    assert (Hm : N / 2 < N) by (apply Nat.div_lt; lia).
    destruct (nth_error_ex lo 0) as (a & Ha); [lia|]. destruct (nth_error_ex lo (N / 2)) as (b & Hb); [exact Hm|]. destruct (nth_error_ex lo (N - 1)) as (c & Hc); [lia|].
    set (p := median comp a b c).
    destruct (part_at_ok order [] lo hi (fun v => comp v p) P) as (A & R & E1 & Q1 & FA & FR). cbn [app length Nat.add] in E1.
    destruct (part_at_ok order A R hi (fun v => negb (comp p v)) P) as (B & C & E2 & Q2 & FB & FC).
    assert (LN : N = length A + length R) by (rewrite <- app_length; symmetry; apply Permutation_length; exact Q1).
    assert (QQ : Permutation (A ++ B ++ C) lo) by (rewrite <- Q1; apply Permutation_app_head; exact Q2).
    assert (FB' : Forall (fun x => comp x p = false /\ comp p x = false) B).
    { apply Forall_forall. intros x Hx. rewrite Forall_forall in FB, FR. split.
      - apply FR. eapply Permutation_in; [exact Q2|]. apply in_or_app. now left.
      - apply negb_true_iff. now apply FB. }
    assert (FC' : Forall (fun x => comp p x = true) C).
    { eapply Forall_impl; [|exact FC]. intros x H. apply negb_false_iff. exact H. }
    assert (Pin : In p lo).
    { destruct (median_in a b c) as [E|[E|E]]; unfold p; rewrite E; eapply nth_error_In; eassumption. }
    assert (PB : In p B).
    { assert (I1 : In p (A ++ B ++ C)) by (eapply Permutation_in; [symmetry; exact QQ|exact Pin]).
      apply in_app_or in I1. destruct I1 as [I1|I1].
      - rewrite Forall_forall in FA. specialize (FA p I1). cbn in FA. rewrite (swo_irrefl _ SW) in FA. discriminate FA.
      - apply in_app_or in I1. destruct I1 as [I1|I1]; [exact I1|]. rewrite Forall_forall in FC'. specialize (FC' p I1). cbn in FC'. rewrite (swo_irrefl _ SW) in FC'. discriminate FC'. }
    exists A, B, C, p. split; [exact QQ|]. split; [intros ->; contradiction|]. split; [exact FA|]. split; [exact FB'|]. split; [exact FC'|].
    assert (LA : length A = length (filter (fun v => comp v p) lo)).
    { rewrite <- (filter_perm _ _ _ Q1). symmetry. apply filter_Forall; assumption. }
    assert (LC : length C = length (filter (fun v => comp p v) lo)).
    { rewrite <- (filter_perm _ _ _ QQ). assert (Z : Permutation (A ++ B ++ C) (C ++ A ++ B)) by (rewrite app_assoc; apply Permutation_app_comm).
      rewrite (filter_perm _ _ _ Z). symmetry. apply filter_Forall; [exact FC'|]. apply Forall_app. split.
      - eapply Forall_impl; [|exact FA]. intros x H. apply asym. exact H.
      - eapply Forall_impl; [|exact FB']. intros x (_ & H). exact H. }
    assert (LB : 0 < length B) by (destruct B; [contradiction|cbn; lia]).
    assert (LQ : N = length A + (length B + length C)) by (rewrite <- !app_length; symmetry; apply Permutation_length; exact QQ).
    split; [lia|]. split.
    - intros L3. assert (M1 : 0 < N / 2) by (apply Nat.div_str_pos; lia).
      assert (M2 : N / 2 <> N - 1).
      { assert (Z : N / 2 < N - 1) by (apply Nat.div_lt_upper_bound; lia). lia. }
      destruct (median_two a b c) as (U & W). fold p in U, W. rewrite LA, LC. split.
      + destruct U as [(U1 & U2)|[(U1 & U2)|(U1 & U2)]].
        * apply (filter_two _ lo 0 (N / 2) a b); auto; lia.
        * apply (filter_two _ lo 0 (N - 1) a c); auto; lia.
        * apply (filter_two _ lo (N / 2) (N - 1) b c); auto.
      + destruct W as [(U1 & U2)|[(U1 & U2)|(U1 & U2)]].
        * apply (filter_two _ lo 0 (N / 2) a b); auto; lia.
        * apply (filter_two _ lo 0 (N - 1) a c); auto; lia.
        * apply (filter_two _ lo (N / 2) (N - 1) b c); auto.
    - cbn [qs_loop]. rewrite Nat.sub_0_r. replace (N <=? 1) with false by (symmetry; apply Nat.leb_gt; lia).
      rewrite (rd_some (lo ++ hi) 0 a) by (rewrite nth_error_app1 by lia; exact Ha). cbn [bind Nat.add].
      rewrite (rd_some (lo ++ hi) (N / 2) b) by (rewrite nth_error_app1 by exact Hm; exact Hb). cbn [bind].
      rewrite (rd_some (lo ++ hi) (N - 1) c) by (rewrite nth_error_app1 by (unfold N in *; lia); exact Hc). cbn [bind].
      fold p. unfold N. rewrite E1. fold N. rewrite <- app_assoc. rewrite LN, E2. rewrite <- !app_assoc. reflexivity.
  Qed.

  Lemma push_ok (st : list (nat * nat)) x : length st < stack_room -> push st x = Ok (x :: st).
  Proof. intros H. unfold push. apply Nat.ltb_lt in H. now rewrite H. Qed.
  Lemma spine order : partitions order -> forall k lo hi st n, length lo <= k -> length lo < n -> length st + length lo / 2 < stack_room ->
    (forall x y, In x lo -> In y hi -> comp y x = false) -> (lo = [] -> least_first comp hi) ->
    exists l, qs_loop comp order n ((0, length lo) :: st) (lo ++ hi) = Ok l /\ Permutation l (lo ++ hi) /\ least_first comp l.
  Proof.
    intros P. induction k as [|k IH]; intros lo hi st n Lk Ln Ls Hx Hn.
    - destruct lo; [|cbn in Lk; lia]. destruct n as [|n]; [cbn in Ln; lia|]. exists hi. cbn. auto.
    - destruct (Nat.le_gt_cases (length lo) 1) as [L1|L2].
      + destruct n as [|n]; [lia|]. exists (lo ++ hi). split.
        * cbn [qs_loop]. rewrite Nat.sub_0_r. now replace (length lo <=? 1) with true by (symmetry; apply Nat.leb_le; lia).
        * split; [reflexivity|]. destruct lo as [|x [|? ?]]; [auto| |cbn in L1; lia]. cbn. constructor; [apply (swo_irrefl _ SW)|].
          apply Forall_forall. intros y Hy. apply Hx; [now left|exact Hy].
      + destruct n as [|n]; [lia|]. destruct (round order n st lo hi P L2) as (A & B & C & p & Q & NB & FA & FB & FC & LA & L3 & E).
        assert (D1 : 0 < length lo / 2) by (apply Nat.div_str_pos; lia).
        rewrite E. rewrite push_ok by lia. cbn [bind]. rewrite push_ok by (cbn [length]; lia). cbn [bind].
        assert (LT : length A + 2 <= length lo \/ length A <= 1 /\ length lo = 2).
        { destruct (Nat.eq_dec (length lo) 2); [right; lia|]. left. apply L3. lia. }
        assert (SB : forall x, In x lo <-> In x A \/ In x B \/ In x C).
        { intros x. rewrite <- !in_app_iff. split; apply Permutation_in; [symmetry; exact Q|exact Q]. }
        rewrite Forall_forall in FA, FB, FC.
        destruct (IH A (B ++ C ++ hi) ((length A + length B, length lo) :: st) n) as (l & E' & Q' & Ml).
        * lia.
        * lia.
        * cbn [length]. assert (length A / 2 + 1 <= length lo / 2); [|lia]. destruct LT as [LT|[LT LT2]].
          -- replace (length A / 2 + 1) with ((length A + 1 * 2) / 2) by (rewrite Nat.div_add; lia). apply Nat.div_le_mono; lia.
          -- rewrite LT2. rewrite (Nat.div_small (length A) 2) by lia. cbn. lia.
        * intros x y Hxx Hy. apply in_app_or in Hy. destruct Hy as [Hy|Hy]; [|apply in_app_or in Hy; destruct Hy as [Hy|Hy]].
          -- destruct (FB y Hy) as (Y & _). exact (neg_trans y p x Y (asym _ _ (FA x Hxx))).
          -- exact (neg_trans y p x (asym _ _ (FC y Hy)) (asym _ _ (FA x Hxx))).
          -- apply Hx; [apply SB; now left|exact Hy].
        * intros ->. destruct B as [|h B]; [congruence|]. cbn [least_first app]. rewrite app_comm_cons.
          destruct (FB h (or_introl eq_refl)) as (H1 & H2). apply Forall_forall. intros y Hy.
          apply in_app_or in Hy. destruct Hy as [Hy|Hy]; [|apply in_app_or in Hy; destruct Hy as [Hy|Hy]].
          -- destruct (FB y Hy) as (Y & _). exact (neg_trans y p h Y H2).
          -- exact (neg_trans y p h (asym _ _ (FC y Hy)) H2).
          -- apply Hx; [|exact Hy]. apply SB. right. left. now left.
        * exists l. split; [exact E'|]. split; [|exact Ml]. rewrite Q'. rewrite !app_assoc. apply Permutation_app_tail. rewrite <- app_assoc. exact Q.
  Qed.
  Lemma quick_sort_partial order l : partitions order -> length l < 2 * stack_room ->
    exists l', quick_sort comp order l = Ok l' /\ Permutation l' l /\ least_first comp l'.
  Proof.
    intros P L. unfold quick_sort. rewrite push_ok by (unfold stack_room; cbn; lia). cbn [bind].
    destruct (spine order P (length l) l [] [] (S (length l))) as (l' & E & Q & M).
    - lia.
    - lia.
    - cbn [length Nat.add]. apply Nat.div_lt_upper_bound; lia.
    - contradiction.
    - reflexivity.
    - rewrite app_nil_r in *. exists l'. auto.
  Qed.
  Lemma quick_sort_small order l : partitions order -> length l <= 3 ->
    exists l', quick_sort comp order l = Ok l' /\ Permutation l' l /\ sorted_by comp l'.
  Proof.
    intros P L. unfold quick_sort. rewrite push_ok by (unfold stack_room; cbn; lia). cbn [bind].
    destruct (Nat.le_gt_cases (length l) 1) as [L1|L2].
    - exists l. split; [cbn [qs_loop]; rewrite Nat.sub_0_r; now replace (length l <=? 1) with true by (symmetry; apply Nat.leb_le; lia)|].
      split; [reflexivity|]. destruct l as [|x [|? ?]]; [constructor|constructor; constructor|cbn in L1; lia].
    - destruct (round order (length l) [] l [] P L2) as (A & B & C & p & Q & NB & FA & FB & FC & LA & L3 & E). rewrite !app_nil_r in E. rewrite E.
      rewrite push_ok by (unfold stack_room; cbn; lia). cbn [bind]. rewrite push_ok by (unfold stack_room; cbn; lia). cbn [bind].
      assert (LQ : length l = length A + (length B + length C)) by (rewrite <- !app_length; symmetry; apply Permutation_length; exact Q).
      assert (LB : 0 < length B) by (destruct B; [congruence|cbn; lia]).
      assert (LA1 : length A <= 1 /\ length C <= 1).
      { destruct (Nat.eq_dec (length l) 2); [lia|]. assert (Z : 3 <= length l) by lia. specialize (L3 Z). lia. }
      destruct l as [|z l0] eqn:El; [cbn in L2; lia|]. rewrite <- El in *. clear El. destruct (length l) as [|m] eqn:Em; [lia|].
      exists (A ++ B ++ C). split.
      + cbn [qs_loop]. rewrite Nat.sub_0_r. now replace (length A <=? 1) with true by (symmetry; apply Nat.leb_le; lia).
      + split; [exact Q|]. rewrite Forall_forall in FA, FB, FC. destruct LA1 as [LA1 LC1].
        assert (SC : sorted_by comp C) by (destruct C as [|x [|? ?]]; [constructor|constructor; constructor|cbn in LC1; lia]).
        assert (SBC : sorted_by comp (B ++ C)).
        { clear LB NB LQ Q E. induction B as [|x B IH]; [exact SC|]. cbn. constructor.
          - apply IH. intros y Hy. apply FB. now right.
          - apply Forall_forall. intros y Hy. destruct (FB x (or_introl eq_refl)) as (X1 & X2). apply in_app_or in Hy. destruct Hy as [Hy|Hy].
            + destruct (FB y (or_intror Hy)) as (Y1 & Y2). exact (neg_trans y p x Y1 X2).
            + exact (neg_trans y p x (asym _ _ (FC y Hy)) X2). }
        destruct A as [|x [|? ?]]; [exact SBC| |cbn in LA1; lia]. cbn. constructor; [exact SBC|].
        apply Forall_forall. intros y Hy. assert (X : comp p x = false) by (apply asym; apply FA; now left). apply in_app_or in Hy. destruct Hy as [Hy|Hy].
        * destruct (FB y Hy) as (Y1 & _). exact (neg_trans y p x Y1 X).
        * exact (neg_trans y p x (asym _ _ (FC y Hy)) X).
  Qed.
End SortProofs.

(** std::partition exists: the stable one. *)
Lemma filter_both {A} (f : A -> bool) l : Permutation (filter f l ++ filter (fun x => negb (f x)) l) l.
Proof.
  induction l as [|x l IH]; [reflexivity|]. cbn. destruct (f x); cbn.
  - constructor. exact IH.
  - rewrite <- Permutation_middle. constructor. exact IH.
Qed.
Lemma filter_answers {A} (f : A -> bool) l : map f (filter f l) = repeat true (length (filter f l)).
Proof. induction l as [|x l IH]; [reflexivity|]. cbn. destruct (f x) eqn:E; [|exact IH]. cbn. now rewrite E, IH. Qed.
Lemma filter_answers_not {A} (f : A -> bool) l : map f (filter (fun x => negb (f x)) l) = repeat false (length (filter (fun x => negb (f x)) l)).
Proof. induction l as [|x l IH]; [reflexivity|]. cbn. destruct (f x) eqn:E; cbn; [exact IH|]. now rewrite E, IH. Qed.
Lemma stable_partitions : partitions stable.
Proof.
  intros bs. split; [apply filter_both|]. exists (length (filter (fun i => nth i bs false) (seq 0 (length bs)))), (length (filter (fun i => negb (nth i bs false)) (seq 0 (length bs)))).
  unfold stable. rewrite map_app. f_equal; [apply filter_answers|apply filter_answers_not].
Qed.
Lemma pick_filter {T} (pred : T -> bool) g l : forall pre,
  pick (pre ++ l) (filter (fun i => g (nth i (map pred (pre ++ l)) false)) (seq (length pre) (length l))) = filter (fun x => g (pred x)) l.
Proof.
  induction l as [|x l IH]; intros pre; [reflexivity|]. cbn [length seq filter].
  specialize (IH (pre ++ [x])). rewrite <- app_assoc in IH. cbn [app] in IH. rewrite app_length in IH. cbn [length] in IH. rewrite Nat.add_1_r in IH.
  assert (N : nth (length pre) (map pred (pre ++ x :: l)) false = pred x).
  { rewrite map_app, app_nth2 by (rewrite map_length; lia). rewrite map_length, Nat.sub_diag. reflexivity. }
  rewrite N. destruct (g (pred x)); [|exact IH]. unfold pick. cbn [flat_map]. rewrite nth_error_app2, Nat.sub_diag by lia. cbn [nth_error app].
  f_equal. exact IH.
Qed.
Lemma pick_stable {T} (pred : T -> bool) l : pick l (stable (map pred l)) = filter pred l ++ filter (fun x => negb (pred x)) l.
Proof.
  unfold stable. rewrite pick_app, map_length. f_equal.
  - exact (pick_filter pred (fun b => b) l []).
  - exact (pick_filter pred negb l []).
Qed.

Lemma killer_length k : length (killer k) = 2 * k.
Proof. induction k as [|k IH]; [reflexivity|]. cbn [killer length]. rewrite app_length, IH. cbn. lia. Qed.
Lemma killer_lt k x : In x (killer k) -> x < 2 * k.
Proof.
  induction k as [|k IH]; [contradiction|]. cbn [killer]. intros [<-|H]; [lia|]. apply in_app_or in H. destruct H as [H|[<-|[]]]; [specialize (IH H)|]; lia.
Qed.
Lemma filter_all {A} (f : A -> bool) l : (forall x, In x l -> f x = true) -> filter f l = l.
Proof. induction l as [|x l IH]; intros H; [reflexivity|]. cbn. rewrite (H x (or_introl eq_refl)). f_equal. apply IH. intros y Hy. apply H. now right. Qed.

Lemma killer_run k : forall st hi n, 1 <= k -> k <= n -> length st < stack_room -> stack_room <= length st + k ->
  qs_loop Nat.ltb stable n ((0, 2 * k) :: st) (killer k ++ hi) = UB.
Proof.
  induction k as [|k IH]; intros st hi n K1 Kn Ls Lk; [lia|]. destruct n as [|n]; [lia|].
  cbn [qs_loop]. rewrite Nat.sub_0_r. replace (2 * S k <=? 1) with false by (symmetry; apply Nat.leb_gt; lia).
  replace (0 + 2 * S k / 2) with (S k) by (rewrite (Nat.mul_comm 2), Nat.div_mul; lia).
  assert (L : length (killer (S k)) = 2 * S k) by apply killer_length.
  assert (Ha : rd (killer (S k) ++ hi) 0 = Ok (2 * k)) by reflexivity. rewrite Ha. cbn [bind].
  destruct (nth_error_ex (killer (S k)) (S k)) as (b & Hb); [lia|].
  rewrite (rd_some (killer (S k) ++ hi) (S k) b) by (rewrite nth_error_app1 by lia; exact Hb). cbn [bind].
  assert (Hc : nth_error (killer (S k)) (2 * S k - 1) = Some (2 * k + 1)).
  { cbn [killer]. replace (2 * S k - 1) with (S (2 * k)) by lia. cbn [nth_error]. rewrite nth_error_app2; rewrite killer_length; [|lia]. now rewrite Nat.sub_diag. }
  rewrite (rd_some (killer (S k) ++ hi) (2 * S k - 1) (2 * k + 1)) by (rewrite nth_error_app1 by lia; exact Hc). cbn [bind].
  set (p := median Nat.ltb (2 * k) b (2 * k + 1)).
  destruct (part_at stable (killer (S k) ++ hi) 0 (2 * S k) (fun v => v <? p)) as [l1 less] eqn:E1.
  destruct (part_at stable l1 less (2 * S k) (fun v => negb (p <? v))) as [l2 split2] eqn:E2.
  rewrite push_ok by exact Ls. cbn [bind]. unfold push at 1. cbn [length]. destruct (S (length st) <? stack_room) eqn:Z; [|reflexivity].
  apply Nat.ltb_lt in Z. cbn [bind].
  assert (K2 : 1 <= k) by lia.
  assert (Bk : b < 2 * k).
  { cbn [killer nth_error] in Hb. rewrite nth_error_app1 in Hb by (rewrite killer_length; lia). apply killer_lt. eapply nth_error_In. exact Hb. }
  assert (Ep : p = 2 * k).
  { unfold p, median. replace (2 * k <? b) with false by (symmetry; apply Nat.ltb_ge; lia). now replace (2 * k <? 2 * k + 1) with true by (symmetry; apply Nat.ltb_lt; lia). }
  assert (F1 : filter (fun v => v <? p) (killer (S k)) = killer k).
  { cbn [killer filter]. rewrite Ep. rewrite Nat.ltb_irrefl. rewrite filter_app, filter_all.
    - cbn [filter]. replace (2 * k + 1 <? 2 * k) with false by (symmetry; apply Nat.ltb_ge; lia). apply app_nil_r.
    - intros x Hx. apply Nat.ltb_lt. now apply killer_lt. }
  assert (G1 : less = 2 * k /\ exists r, l1 = killer k ++ r).
  { unfold part_at, slice in E1. cbn [skipn firstn app Nat.add] in E1. rewrite Nat.sub_0_r in E1. rewrite firstn_app, L, Nat.sub_diag in E1. cbn [firstn] in E1.
    rewrite app_nil_r, firstn_all2 in E1 by lia. unfold partition in E1. rewrite pick_stable, F1 in E1. injection E1 as <- <-. split; [apply killer_length|].
    eexists. rewrite <- app_assoc. reflexivity. }
  destruct G1 as (-> & r & ->).
  assert (G2 : exists r', l2 = killer k ++ r').
  { unfold part_at in E2. destruct (partition _ _ _) as [s m]. injection E2 as <- <-. eexists.
    rewrite firstn_app, killer_length, Nat.sub_diag. cbn [firstn]. rewrite app_nil_r, firstn_all2 by (rewrite killer_length; lia). reflexivity. }
  destruct G2 as (r' & ->). apply IH; cbn [length]; lia.
Qed.
Lemma quick_sort_killer k : stack_room <= k -> quick_sort Nat.ltb stable (killer k) = UB.
Proof.
  intros H. unfold quick_sort. rewrite push_ok by (unfold stack_room; cbn; lia). cbn [bind]. rewrite killer_length.
  pose proof (killer_run k [] [] (S (2 * k))) as R. rewrite app_nil_r in R. apply R; cbn [length]; unfold stack_room in *; cbn in *; lia.
Qed.

(** Every std::partition leaves some list of five unsorted. *)
Lemma pick_map {T} (f : T -> T) l is : pick (map f l) is = map f (pick l is).
Proof.
  unfold pick. induction is as [|i is IH]; [reflexivity|]. cbn [flat_map]. rewrite map_app, IH, nth_error_map. now destruct (nth_error l i).
Qed.
Lemma part_at_map {T} order (f : T -> T) l a b pred : (forall x, pred (f x) = pred x) ->
  part_at order (map f l) a b pred = (map f (fst (part_at order l a b pred)), snd (part_at order l a b pred)).
Proof.
  intros H. unfold part_at, slice. rewrite skipn_map, firstn_map. set (s := firstn (b - a) (skipn a l)).
  unfold partition. cbn [fst snd]. rewrite map_map, (map_ext _ pred H), pick_map, firstn_map, skipn_map, !map_app. f_equal. f_equal.
  clearbody s. induction s as [|x s IH]; [reflexivity|]. cbn. rewrite H. destruct (pred x); cbn; congruence.
Qed.
Definition swap34 (x : nat) : nat := match x with 3 => 4 | 4 => 3 | _ => x end.
Lemma quick_sort_unsorted order : partitions order -> exists l l', length l = 5 /\ quick_sort Nat.ltb order l = Ok l' /\ ~ sorted_by Nat.ltb l'.
Proof.
  intros P. set (L := [1; 3; 0; 4; 5]).
  assert (S1 : forall l, In l [L; map swap34 L] -> exists l1 l2, part_at order l 0 5 (fun v => v <? 1) = (l1, 1) /\
    part_at order l1 1 5 (fun v => negb (1 <? v)) = (l2, 2) /\ quick_sort Nat.ltb order l = Ok l2).
  { intros l Hl. assert (Ll : length l = 5) by (destruct Hl as [<-|[<-|[]]]; reflexivity).
    destruct (part_at_ok order [] l [] (fun v => v <? 1) P) as (A & R & E1 & Q1 & FA & FR). cbn [app length Nat.add] in E1. rewrite !app_nil_r in E1.
    assert (LA : length A = 1).
    { rewrite <- (filter_Forall (fun v => v <? 1) A R FA FR), (filter_perm _ _ _ Q1). destruct Hl as [<-|[<-|[]]]; reflexivity. }
    destruct (part_at_ok order A R [] (fun v => negb (1 <? v)) P) as (B & C & E2 & Q2 & FB & FC). rewrite !app_nil_r in E2.
    assert (LR : length R = 4) by (apply Permutation_length in Q1; rewrite app_length in Q1; lia).
    assert (LB : length B = 1).
    { rewrite <- (filter_Forall (fun v => negb (1 <? v)) B C FB FC), (filter_perm _ _ _ Q2).
      assert (Z : length (filter (fun v => negb (1 <? v)) A) + length (filter (fun v => negb (1 <? v)) R) = 2).
      { rewrite <- app_length, <- filter_app, (filter_perm _ _ _ Q1). destruct Hl as [<-|[<-|[]]]; reflexivity. }
      assert (Y : filter (fun v => negb (1 <? v)) A = A).
      { apply filter_all. intros x Hx. rewrite Forall_forall in FA. specialize (FA x Hx). cbn beta in FA. apply Nat.ltb_lt in FA. destruct x; [reflexivity|lia]. }
      rewrite Y in Z. lia. }
    rewrite LA, LR, LB in *. exists (A ++ R), (A ++ B ++ C). rewrite Ll in E1. split; [exact E1|]. split; [exact E2|].
    unfold quick_sort. rewrite Ll. rewrite push_ok by (unfold stack_room; cbn; lia). cbn [bind].
    assert (M : exists a b c, rd l 0 = Ok a /\ rd l 2 = Ok b /\ rd l 4 = Ok c /\ median Nat.ltb a b c = 1).
    { exists 1, 0, 5. destruct Hl as [<-|[<-|[]]]; repeat split. }
    destruct M as (a & b & c & Ra & Rb & Rc & Md). cbn [qs_loop]. change (5 - 0) with 5. change (5 <=? 1) with false. change (0 + 5 / 2) with 2. change (5 - 1) with 4. cbv iota.
    rewrite Ra, Rb, Rc. cbn [bind]. rewrite Md, E1. change (1 + 4) with 5 in E2. change (1 + 1) with 2 in E2. rewrite E2.
    rewrite push_ok by (unfold stack_room; cbn; lia). cbn [bind]. rewrite push_ok by (unfold stack_room; cbn; lia). cbn [bind]. reflexivity. }
  destruct (S1 L) as (l1 & l2 & E1 & E2 & E3); [now left|]. destruct (S1 (map swap34 L)) as (m1 & m2 & F1 & F2 & F3); [right; now left|].
  rewrite part_at_map in F1 by (intros [|[|[|[|[|x]]]]]; reflexivity). rewrite E1 in F1. cbn [fst snd] in F1. injection F1 as <-.
  rewrite part_at_map in F2 by (intros [|[|[|[|[|x]]]]]; reflexivity). rewrite E2 in F2. cbn [fst snd] in F2. injection F2 as <-.
  destruct (in_dec (list_eq_dec Nat.eq_dec) l2 [[0; 1; 3; 4; 5]]) as [[Eq|[]]|Ne].
  - exists (map swap34 L), (map swap34 l2). split; [reflexivity|]. split; [exact F3|]. rewrite <- Eq. cbn. intros S. inversion S as [|? ? S2 _]; subst. inversion S2 as [|? ? S3 _]; subst.
    inversion S3 as [|? ? _ S4]; subst. inversion S4 as [|? ? X _]; subst. discriminate X.
  - exists L, l2. split; [reflexivity|]. split; [exact E3|]. intros S. apply Ne. left.
    assert (Pm : Permutation l2 L).
    { destruct (quick_sort_partial Nat.ltb) with (order := order) (l := L) as (l' & E' & Q' & _).
      - split; [apply Nat.ltb_irrefl| |]; intros x y z; rewrite ?Nat.ltb_lt, ?Nat.ltb_ge; lia.
      - exact P.
      - unfold stack_room. cbn. lia.
      - congruence. }
    assert (U : forall l m : list nat, StronglySorted (fun x y => (y <? x) = false) l -> StronglySorted (fun x y => (y <? x) = false) m -> Permutation l m -> l = m).
    { clear. induction l as [|x l IH]; intros m Sl Sm Q.
      - apply Permutation_nil in Q. now subst.
      - destruct m as [|y m]; [symmetry in Q; apply Permutation_nil in Q; discriminate Q|].
        inversion Sl as [|? ? Sl' Fl]; subst. inversion Sm as [|? ? Sm' Fm]; subst. rewrite Forall_forall in Fl, Fm.
        assert (x = y).
        { assert (I1 : In x (y :: m)) by (eapply Permutation_in; [exact Q|now left]). assert (I2 : In y (x :: l)) by (eapply Permutation_in; [symmetry; exact Q|now left]).
          destruct I1 as [->|I1]; [reflexivity|]. destruct I2 as [->|I2]; [reflexivity|]. specialize (Fl y I2). specialize (Fm x I1). apply Nat.ltb_ge in Fl, Fm. lia. }
        subst y. f_equal. apply IH; auto. eapply Permutation_cons_inv. exact Q. }
    apply U; [|exact S|].
    + repeat constructor.
    + rewrite Pm. unfold L. symmetry. 
      apply Permutation_trans with (0 :: [1; 3] ++ [4; 5]); [|reflexivity]. symmetry. exact (Permutation_middle [1; 3] [4; 5] 0).
Qed.
