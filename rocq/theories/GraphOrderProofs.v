(** Proofs about the ordered walks. *)
From Coq Require Import Sorted ZifyBool.
From Verif Require Import Common CommonProofs Ints Graph SpecGraph GraphProofs GraphWalkProofs GraphTopoProofs
  GraphMstProofs GraphBfsProofs GraphEndProofs GraphOrder SpecGraphOrder.
Open Scope Z_scope.
Local Arguments Z.mul : simpl never.
Local Arguments Z.add : simpl never.
Local Arguments Z.sub : simpl never.
Local Arguments Z.pow : simpl never.
Local Arguments Z.of_nat : simpl never.

Lemma no_clash lt l :
  (forall x y, In x l -> In y l -> x <> y -> lt x y = true -> lt y x = false) -> clash lt l = false.
Proof.
  intros H. unfold clash. apply not_true_is_false. intros C. apply existsb_exists in C.
  destruct C as (x & Hx & C). apply existsb_exists in C. destruct C as (y & Hy & C).
  apply andb_prop in C. destruct C as (C & C3). apply andb_prop in C. destruct C as (C1 & C2).
  apply negb_true_iff, Z.eqb_neq in C1. rewrite (H x y Hx Hy C1 C2) in C3. discriminate.
Qed.

Lemma sorted_snoc {A} (P : A -> A -> Prop) l x : StronglySorted P l -> Forall (fun y => P y x) l -> StronglySorted P (l ++ [x]).
Proof.
  induction l as [|y l IH]; intros S F; cbn.
  - constructor; constructor.
  - inversion S as [|? ? S1 S2]; subst. inversion F as [|? ? F1 F2]; subst. constructor; [auto|].
    apply Forall_app. split; [assumption|]. constructor; [assumption | constructor].
Qed.

Lemma sorted_rev {A} (P Q : A -> A -> Prop) l : NoDup l -> StronglySorted P l ->
  (forall x y, In x l -> In y l -> x <> y -> P x y -> Q y x) -> StronglySorted Q (rev l).
Proof.
  induction l as [|y l IH]; intros N S H; cbn; [constructor|].
  inversion S as [|? ? S1 S2]; subst. inversion N as [|? ? N1 N2]; subst.
  apply sorted_snoc.
  - apply IH; auto. intros a b Ha Hb. apply H; now right.
  - apply Forall_forall. intros z Hz. apply in_rev in Hz. apply H.
    + now left.
    + now right.
    + intros ->. contradiction.
    + rewrite Forall_forall in S2. auto.
Qed.

Lemma insert_perm lt x l : Permutation (x :: l) (insert_in lt x l).
Proof.
  induction l as [|y l IH]; cbn; [constructor; constructor|]. destruct (lt y x); [|reflexivity].
  transitivity (y :: x :: l); [apply perm_swap | now apply perm_skip].
Qed.

Lemma isort_sorter : sorter isort.
Proof.
  intros k lt l. assert (P : forall q, Permutation q (isort k lt q)).
  { induction q as [|x q IH]; cbn; [constructor|]. transitivity (x :: isort k lt q); [now apply perm_skip | apply insert_perm]. }
  split; [apply P|]. induction l as [|x l IH]; intros N A NT; cbn; [constructor|].
  inversion N as [|? ? N1 N2]; subst.
  assert (S : ascending lt (isort k lt l)).
  { apply IH; [assumption| |]; intros; [apply A | eapply NT]; cbn; eauto. }
  assert (IN : forall z, In z (isort k lt l) -> In z l).
  { intros z. apply Permutation_in, Permutation_sym, P. }
  clear IH. unfold ascending in *. induction (isort k lt l) as [|y q IH]; cbn; [repeat constructor|].
  inversion S as [|? ? S1 S2]; subst.
  assert (Iy : In y l) by (apply IN; now left).
  destruct (lt y x) eqn:Q.
  - constructor; [apply IH; [assumption|]; intros; apply IN; now right|].
    apply Forall_forall. intros z Hz. apply (Permutation_in z (Permutation_sym (insert_perm lt x q))) in Hz.
    destruct Hz as [<- | Hz].
    + apply A; [now right | now left | | assumption]. intros ->. contradiction.
    + rewrite Forall_forall in S2. auto.
  - constructor; [assumption|]. apply Forall_forall. intros z Hz. destruct Hz as [<- | Hz]; [assumption|].
    destruct (lt z x) eqn:Q2; [|reflexivity].
    assert (Iz : In z l) by (apply IN; now right).
    rewrite Forall_forall in S2. specialize (S2 z Hz).
    destruct (NT z x y) as [Q3 | Q3]; cbn; auto; try congruence.
Qed.

Section Order.
Context {T : Type}.
Implicit Types (g : graph T) (a : agraph T).

Lemma node_less_eq g a comp i j : grep g a -> node_less comp g i j = node_lt a comp i j.
Proof.
  intros (_ & _ & _ & R4 & R5 & _). unfold node_less, node_lt.
  assert (V : forall k, match map_find (gnodes g) k with Some n => a_node a k = Some (gval n) | None => a_node a k = None end).
  { intros k. destruct (map_find (gnodes g) k) as [n|] eqn:F; [apply (R4 k n F) | auto]. }
  pose proof (V i) as Vi. pose proof (V j) as Vj.
  destruct (map_find (gnodes g) i); rewrite Vi; [|reflexivity].
  destruct (map_find (gnodes g) j); now rewrite Vj.
Qed.

Lemma value_less_eq g a ord i j : grep g a -> value_less ord g i j = value_lt a ord i j.
Proof. intros R. unfold value_less. rewrite (node_less_eq g a _ i j R). reflexivity. Qed.

Lemma node_lt_asym a comp i j : strict_weak comp -> node_lt a comp i j = true -> node_lt a comp j i = false.
Proof.
  intros (A & _). unfold node_lt. destruct (a_node a i), (a_node a j); intros H; try congruence. now apply A.
Qed.

Lemma node_lt_neg a comp i j k : strict_weak comp -> a_has a k = true ->
  node_lt a comp i j = true -> node_lt a comp i k = true \/ node_lt a comp k j = true.
Proof.
  intros (_ & N). unfold node_lt, a_has. destruct (a_node a i), (a_node a j), (a_node a k); intros K H; try congruence.
  now apply N.
Qed.

Lemma value_lt_node a ord i j : value_lt a ord i j = node_lt a (fun x y => ord (snd x) (snd y)) i j.
Proof. reflexivity. Qed.

Lemma strict_weak_snd (ord : T -> T -> bool) : strict_weak ord ->
  strict_weak (fun x y : Z * T => ord (snd x) (snd y)).
Proof. intros (A & N). split; intros; auto. Qed.

(** ** Breadth and depth first *)
Section Loop.
Variables (dbg : bool) (g : graph T) (a : agraph T) (push : list Z -> list Z -> list Z)
  (srt : nat -> (Z -> Z -> bool) -> list Z -> list Z) (lt : Z -> Z -> bool).
Hypothesis R : grep g a.
Hypothesis PI : forall r c x, In x (push r c) -> In x r \/ In x c.
Hypothesis HS : sorter srt.
Variable start : Z.
Hypothesis AS : forall u c d, reaches a start u -> a_edge a u c = true -> a_edge a u d = true -> c <> d ->
  lt c d = true -> lt d c = false.

Lemma sorter_order k : any_order (srt k lt).
Proof. intros l. apply HS. Qed.

Lemma ordered_eq : forall fuel visited path trace,
  (forall x, In x path -> a_has a x = true /\ reaches a start x) ->
  ordered_loop push srt lt dbg g fuel visited path trace =
  walk_loop push (fun k => srt k lt) dbg g fuel visited path trace.
Proof.
  induction fuel as [|fuel IH]; intros visited path trace H; destruct path as [|cur rest]; try reflexivity.
  cbn [ordered_loop walk_loop].
  destruct (H cur (or_introl eq_refl)) as (Hc & Rc). apply has_some in Hc.
  destruct (get_ok dbg g a cur R Hc) as (n & G & _ & _ & NO & _ & EO & _).
  rewrite (require_ok dbg g a cur R Hc). cbn [bind]. rewrite G. cbn [bind].
  unfold std_sort. rewrite no_clash.
  2:{ intros x y Hx Hy. apply filter_In in Hx, Hy. destruct Hx as (Hx & _), Hy as (Hy & _). apply EO in Hx, Hy.
      exact (AS cur x y Rc Hx Hy). }
  cbn [bind]. apply IH. intros x Hx. apply PI in Hx. destruct Hx as [Hx | Hx]; [apply H; now right|].
  rewrite (ord_in (srt (length trace) lt) _ x (sorter_order _)) in Hx. apply filter_In in Hx. destruct Hx as (Hx & _). apply EO in Hx.
  split; [apply (edge_has g a R _ _ Hx)|]. exact (reach_step a start cur x Rc Hx).
Qed.
End Loop.

Lemma kids_of a lt' visited trace cur n :
  nrep a cur n -> (forall x, In x visited <-> In x trace) ->
  forall cs, Permutation (filter (fun i => negb (set_mem i (set_insert cur visited))) (gout n)) cs ->
  ascending lt' cs -> lists_children a lt' (trace ++ [cur]) cur cs.
Proof.
  intros (_ & NO & _ & EO & _) V cs P A. split; [|split; [|exact A]].
  - apply (Permutation_NoDup P). now apply NoDup_filter.
  - intros c. transitivity (In c (filter (fun i => negb (set_mem i (set_insert cur visited))) (gout n))).
    { split; apply Permutation_in; [now apply Permutation_sym | assumption]. }
    rewrite filter_In, EO, negb_true_iff, set_mem_false, set_insert_in, V, in_app_iff. cbn. intuition.
Qed.

Section Run.
Variables (dbg : bool) (g : graph T) (a : agraph T) (ord : nat -> list Z -> list Z) (lt : Z -> Z -> bool) (start : Z).
Hypothesis R : grep g a.
Hypothesis HO : forall k, any_order (ord k).

(** Sorted children of every reachable node. *)
Hypothesis K : forall k u l, reaches a start u -> NoDup l -> (forall c, In c l -> a_edge a u c = true) ->
  ascending lt (rev (ord k l)).

Lemma deep_split done xs ys t : deep a lt done (xs ++ ys) t ->
  exists t1 t2, t = t1 ++ t2 /\ deep a lt done xs t1 /\ deep a lt (done ++ t1) ys t2.
Proof.
  revert done t. induction xs as [|x xs IH]; intros done t D.
  - exists [], t. rewrite app_nil_r. cbn in *. split; [reflexivity|]. split; [constructor | assumption].
  - cbn [app] in D. inversion D as [|d x' cs t1 xs' t2 KC D1 D2]; subst.
    destruct (IH _ _ D2) as (u1 & u2 & -> & E1 & E2).
    exists (x :: t1 ++ u1), u2. split; [cbn; now rewrite app_assoc|]. split.
    + exact (deep_cons a lt done x cs t1 xs u1 KC D1 E1).
    + replace (done ++ x :: t1 ++ u1) with ((done ++ x :: t1) ++ u1); [assumption|].
      rewrite <- app_assoc. reflexivity.
Qed.

Lemma dfs_deep : forall fuel visited path trace tr,
  (forall x, In x visited <-> In x trace) ->
  (forall x, In x path -> a_has a x = true /\ reaches a start x) ->
  walk_loop (fun rest children => rev children ++ rest) ord dbg g fuel visited path trace = Ok tr ->
  exists t, tr = trace ++ t /\ deep a lt trace path t.
Proof.
  induction fuel as [|fuel IH]; intros visited path trace tr V H E; destruct path as [|cur rest];
    try discriminate; try (injection E as <-; exists []; rewrite app_nil_r; split; [reflexivity | constructor]).
  cbn [walk_loop] in E.
  destruct (H cur (or_introl eq_refl)) as (Hc & Rc). apply has_some in Hc.
  destruct (get_ok dbg g a cur R Hc) as (n & G & _ & NR).
  rewrite (require_ok dbg g a cur R Hc) in E. cbn [bind] in E. rewrite G in E. cbn [bind] in E.
  set (l := filter (fun i => negb (set_mem i (set_insert cur visited))) (gout n)) in *.
  pose proof NR as (_ & NO & _ & EO & _).
  assert (IL : forall c, In c l -> a_edge a cur c = true).
  { intros c Hc'. apply filter_In in Hc'. now apply EO. }
  assert (KC : lists_children a lt (trace ++ [cur]) cur (rev (ord (length trace) l))).
  { apply (kids_of a lt visited trace cur n NR V).
    - transitivity (ord (length trace) l); [apply HO | apply Permutation_rev].
    - apply (K _ cur); auto. now apply NoDup_filter. }
  apply IH in E.
  - destruct E as (t & -> & D). apply deep_split in D. destruct D as (t1 & t2 & -> & D1 & D2).
    exists (cur :: t1 ++ t2). split; [rewrite <- app_assoc; reflexivity|].
    apply (deep_cons a lt trace cur _ t1 rest t2 KC D1). now rewrite <- app_assoc in D2.
  - intros x. rewrite set_insert_in, in_app_iff, V. cbn. intuition.
  - intros x Hx. apply in_app_iff in Hx. destruct Hx as [Hx | Hx]; [|apply H; now right].
    apply KC in Hx. destruct Hx as (Hx & _).
    split; [apply (edge_has g a R _ _ Hx)|]. exact (reach_step a start cur x Rc Hx).
Qed.
End Run.

Section RunB.
Variables (dbg : bool) (g : graph T) (a : agraph T) (ord : nat -> list Z -> list Z) (lt : Z -> Z -> bool) (start : Z).
Hypothesis R : grep g a.
Hypothesis HO : forall k, any_order (ord k).
Hypothesis K : forall k u l, reaches a start u -> NoDup l -> (forall c, In c l -> a_edge a u c = true) ->
  ascending lt (ord k l).

Lemma bfs_broad : forall fuel visited path trace tr css,
  (forall x, In x visited <-> In x trace) ->
  (forall x, In x path -> a_has a x = true /\ reaches a start x) ->
  length css = length trace -> trace ++ path = start :: concat css ->
  (forall i x cs, nth_error trace i = Some x -> nth_error css i = Some cs ->
     lists_children a lt (firstn (S i) trace) x cs) ->
  walk_loop (fun rest children => rest ++ children) ord dbg g fuel visited path trace = Ok tr ->
  broad a lt start tr.
Proof.
  induction fuel as [|fuel IH]; intros visited path trace tr css V H L EQ C E; destruct path as [|cur rest];
    try discriminate; try (injection E as <-; exists css; rewrite app_nil_r in EQ; auto).
  cbn [walk_loop] in E.
  destruct (H cur (or_introl eq_refl)) as (Hc & Rc). apply has_some in Hc.
  destruct (get_ok dbg g a cur R Hc) as (n & G & _ & NR).
  rewrite (require_ok dbg g a cur R Hc) in E. cbn [bind] in E. rewrite G in E. cbn [bind] in E.
  set (l := filter (fun i => negb (set_mem i (set_insert cur visited))) (gout n)) in *.
  pose proof NR as (_ & NO & _ & EO & _).
  assert (IL : forall c, In c l -> a_edge a cur c = true).
  { intros c Hc'. apply filter_In in Hc'. now apply EO. }
  assert (KC : lists_children a lt (trace ++ [cur]) cur (ord (length trace) l)).
  { apply (kids_of a lt visited trace cur n NR V); [apply HO|]. apply (K _ cur); auto. now apply NoDup_filter. }
  refine (IH _ _ _ _ (css ++ [ord (length trace) l]) _ _ _ _ _ E).
  - intros x. rewrite set_insert_in, in_app_iff, V. cbn. intuition.
  - intros x Hx. apply in_app_iff in Hx. destruct Hx as [Hx | Hx]; [apply H; now right|].
    apply KC in Hx. destruct Hx as (Hx & _).
    split; [apply (edge_has g a R _ _ Hx)|]. exact (reach_step a start cur x Rc Hx).
  - rewrite !app_length, L. reflexivity.
  - rewrite concat_app. cbn [concat]. rewrite app_nil_r, app_comm_cons, <- EQ, <- !app_assoc. reflexivity.
  - intros i x cs Hx Hcs. destruct (Nat.lt_ge_cases i (length trace)) as [LT | GE].
    + rewrite nth_error_app1 in Hx by assumption. rewrite nth_error_app1 in Hcs by lia.
      rewrite firstn_app. replace (S i - length trace)%nat with 0%nat by lia. cbn [firstn]. rewrite app_nil_r.
      exact (C i x cs Hx Hcs).
    + rewrite nth_error_app2 in Hx by assumption. rewrite nth_error_app2 in Hcs by lia. rewrite L in Hcs.
      destruct (i - length trace)%nat as [|j] eqn:EJ; cbn in Hx, Hcs; [|destruct j; discriminate].
      injection Hx as <-. injection Hcs as <-. replace i with (length trace) by lia.
      rewrite firstn_all2; [exact KC|]. rewrite app_length. cbn. lia.
Qed.
End RunB.

Lemma start_path a start : a_has a start = true -> forall x, In x [start] -> a_has a x = true /\ reaches a start x.
Proof. intros H x [<- | []]. split; [assumption | constructor]. Qed.

Lemma ordered_bfs_built dbg g a srt (ord : T -> T -> bool) start :
  built dbg g a -> sorter srt -> strict_weak ord -> a_has a start = true ->
  exists k tr, (forall v, In v tr <-> reaches a start v) /\ broad a (value_lt a ord) start tr /\
    forall fuel, (k <= fuel)%nat -> ordered_bfs srt ord dbg g fuel start = Ok tr.
Proof.
  intros B HS SW H. apply built_rep in B. pose proof (strict_weak_snd ord SW) as SW'.
  set (lt := value_less ord g).
  assert (AS : forall u c d, reaches a start u -> a_edge a u c = true -> a_edge a u d = true -> c <> d ->
     lt c d = true -> lt d c = false).
  { intros u c d _ _ _ _. unfold lt. rewrite !(value_less_eq g a ord _ _ B), !value_lt_node. now apply node_lt_asym. }
  destruct (bfs_reach dbg g a (fun k => srt k lt) start B (sorter_order srt lt HS) H) as (k & tr & RE & RUN).
  exists k, tr. split; [exact RE|]. split.
  - refine (bfs_broad dbg g a (fun k => srt k lt) (value_lt a ord) start B (sorter_order srt lt HS) _ k [] [start] [] tr []
      _ (start_path a start H) eq_refl eq_refl _ (RUN k (le_n k))).
    + intros j u l Ru N HL. destruct (HS j lt l) as (_ & A). unfold ascending in *.
      assert (SQ : StronglySorted (fun x y => lt y x = false) (srt j lt l)).
      { apply A; [assumption| |].
        - intros x y Hx Hy. exact (AS u x y Ru (HL x Hx) (HL y Hy)).
        - intros x y z _ _ Hz _. unfold lt. rewrite !(value_less_eq g a ord _ _ B), !value_lt_node.
          apply node_lt_neg; [assumption|]. apply (edge_has g a B _ _ (HL z Hz)). }
      revert SQ. generalize (srt j lt l). intros q SQ. induction SQ as [|x q SQ IH F]; constructor; [assumption|].
      revert F. apply Forall_impl. intros y. unfold lt. now rewrite (value_less_eq g a ord _ _ B).
    + tauto.
    + intros i x cs Hx. destruct i; discriminate.
  - intros fuel L. unfold ordered_bfs. fold lt. rewrite (ordered_eq dbg g a _ srt lt B) with (start := start).
    + exact (RUN fuel L).
    + intros r c x Hx. now apply in_app_iff.
    + assumption.
    + exact AS.
    + now apply start_path.
Qed.

Lemma ordered_dfs_built dbg g a srt (ord : T -> T -> bool) start :
  built dbg g a -> sorter srt -> strict_weak ord -> a_has a start = true ->
  (forall u, reaches a start u -> children_differ a (value_lt a ord) u) ->
  exists k tr, (forall v, In v tr <-> reaches a start v) /\ deep a (value_lt a ord) [] [start] tr /\
    forall fuel, (k <= fuel)%nat -> ordered_dfs srt ord dbg g fuel start = Ok tr.
Proof.
  intros B HS SW H DF. apply built_rep in B. pose proof (strict_weak_snd ord SW) as SW'.
  set (lt := fun i j => negb (value_less ord g i j)).
  assert (LE : forall i j, lt i j = negb (value_lt a ord i j)).
  { intros i j. unfold lt. now rewrite (value_less_eq g a ord _ _ B). }
  assert (ASV : forall c d, value_lt a ord c d = true -> value_lt a ord d c = false).
  { intros c d. rewrite !value_lt_node. now apply node_lt_asym. }
  assert (AS : forall u c d, reaches a start u -> a_edge a u c = true -> a_edge a u d = true -> c <> d ->
     lt c d = true -> lt d c = false).
  { intros u c d Ru Hc Hd NE. rewrite !LE. destruct (DF u Ru c d Hc Hd NE) as [Q | Q]; rewrite Q; [discriminate | reflexivity]. }
  destruct (dfs_reach dbg g a (fun k => srt k lt) start B (sorter_order srt lt HS) H) as (k & tr & RE & RUN).
  exists k, tr. split; [exact RE|]. split.
  - destruct (fun K V => dfs_deep dbg g a (fun k => srt k lt) (value_lt a ord) start B (sorter_order srt lt HS) K
      k [] [start] [] tr V (start_path a start H) (RUN k (le_n k))) as (t & -> & D); [| |exact D].
    + intros j u l Ru N HL. destruct (HS j lt l) as (P & A). unfold ascending in *.
      apply (sorted_rev (fun x y => lt y x = false)).
      * exact (Permutation_NoDup P N).
      * apply A; [assumption| |].
        -- intros x y Hx Hy. exact (AS u x y Ru (HL x Hx) (HL y Hy)).
        -- intros x y z Hx Hy Hz NE. rewrite !LE, !negb_true_iff. intros Q.
           destruct (value_lt a ord x z) eqn:Q1; [|now left]. right.
           assert (value_lt a ord y x = true) as Q2.
           { destruct (DF u Ru x y (HL x Hx) (HL y Hy) NE); [congruence | assumption]. }
           destruct (Z.eq_dec z y) as [-> | NZ].
           { destruct (value_lt a ord y y) eqn:Q3; [|reflexivity]. pose proof (ASV _ _ Q3). congruence. }
           apply ASV. rewrite value_lt_node in Q2 |- *.
           destruct (node_lt_neg a _ y x z SW' (proj2 (edge_has g a B _ _ (HL z Hz))) Q2) as [Q3 | Q3]; [exact Q3|].
           rewrite <- value_lt_node in Q3. apply ASV in Q3. congruence.
      * intros x y _ _ _. rewrite LE, negb_false_iff. apply ASV.
    + tauto.
  - intros fuel L. unfold ordered_dfs. fold lt. rewrite (ordered_eq dbg g a _ srt lt B) with (start := start).
    + exact (RUN fuel L).
    + intros r c x Hx. apply in_app_iff in Hx. rewrite <- in_rev in Hx. tauto.
    + assumption.
    + exact AS.
    + now apply start_path.
Qed.

(** ** Topological *)
Section Topo.
Variables (dbg : bool) (g : graph T) (a : agraph T) (comp : Z * T -> Z * T -> bool)
  (srtr srtc : nat -> (Z -> Z -> bool) -> list Z -> list Z).
Hypothesis R : grep g a.
Hypothesis SW : strict_weak comp.
Hypothesis SR : sorter srtr.
Hypothesis SC : sorter srtc.
Hypothesis DF : forall u, children_differ a (node_lt a comp) u.

Let lt := node_less comp g.
Let ordr (k : nat) (l : list Z) : list Z := rev (srtr k lt (rev l)).
Let ordc (k : nat) (l : list Z) : list Z := srtc k (fun i j => negb (lt i j)) l.

Lemma lt_eq i j : lt i j = node_lt a comp i j.
Proof. exact (node_less_eq g a comp i j R). Qed.

Lemma lt_asym i j : lt i j = true -> lt j i = false.
Proof. rewrite !lt_eq. now apply node_lt_asym. Qed.

Lemma ordr_any k : any_order (ordr k).
Proof.
  intros l. unfold ordr. transitivity (rev l); [apply Permutation_rev|].
  transitivity (srtr k lt (rev l)); [apply SR | apply Permutation_rev].
Qed.

Lemma ordc_any k : any_order (ordc k).
Proof. intros l. apply SC. Qed.

Lemma ordered_topo_eq : forall fuel ex roots trace, tinv a ex roots trace ->
  ordered_topo_loop srtr srtc lt dbg g fuel ex roots trace = topo_loop ordr ordc dbg g fuel ex roots trace.
Proof.
  induction fuel as [|fuel IH]; intros ex roots trace I; destruct roots as [|node rest]; try reflexivity.
  destruct (topo_parts dbg g a R ordr ordc ordr_any ordc_any ex node rest trace I)
    as (n & ex' & roots' & G & NR & Q & C & I').
  cbn [ordered_topo_loop topo_loop]. rewrite G. cbn [bind]. rewrite Q. cbn [bind]. rewrite C. cbn [bind].
  unfold std_sort at 1. rewrite no_clash.
  2:{ destruct NR as (_ & _ & _ & EO & _). intros x y Hx Hy NE. apply EO in Hx, Hy. rewrite !lt_eq.
      destruct (DF node x y Hx Hy NE) as [Z1 | Z1]; rewrite Z1; [discriminate | reflexivity]. }
  cbn [bind]. unfold ordc in C. rewrite C. cbn [bind]. unfold std_sort. rewrite no_clash.
  2:{ intros x y _ _ _. apply lt_asym. }
  cbn [bind]. apply IH. exact I'.
Qed.

Definition top_first (roots : list Z) : Prop :=
  match roots with [] => True | x :: rest => forall y, In y rest -> lt x y = false end.

Lemma ordr_top k l : NoDup l -> (forall x, In x l -> a_has a x = true) -> top_first (ordr k l).
Proof.
  intros N H. destruct (SR k lt (rev l)) as (P & A). unfold ordr.
  assert (S : StronglySorted (fun x y => lt x y = false) (rev (srtr k lt (rev l)))).
  { apply (sorted_rev (fun x y => lt y x = false)).
    - apply (Permutation_NoDup P). now apply NoDup_rev.
    - apply A.
      + now apply NoDup_rev.
      + intros x y _ _ _. apply lt_asym.
      + intros x y z _ _ Hz _. apply in_rev in Hz. rewrite !lt_eq. apply node_lt_neg; auto.
    - auto. }
  destruct S as [|x r S F]; cbn; [exact Logic.I|]. rewrite Forall_forall in F. exact F.
Qed.

Definition greedy (tr : list Z) : Prop :=
  forall l1 x l2 y, tr = l1 ++ x :: l2 -> waiting a l1 y -> node_lt a comp x y = false.

Lemma topo_greedy : forall fuel ex roots trace tr, tinv a ex roots trace -> top_first roots -> greedy trace ->
  topo_loop ordr ordc dbg g fuel ex roots trace = Ok tr -> greedy tr.
Proof.
  induction fuel as [|fuel IH]; intros ex roots trace tr I TF GR E; destruct roots as [|node rest];
    try discriminate; try (now injection E as <-).
  destruct (topo_parts dbg g a R ordr ordc ordr_any ordc_any ex node rest trace I)
    as (n & ex' & roots' & G & NR & Q & C & I').
  cbn [topo_loop] in E. rewrite G in E. cbn [bind] in E. rewrite Q in E. cbn [bind] in E.
  rewrite C in E. cbn [bind] in E.
  refine (IH _ _ _ _ I' _ _ E).
  - destruct I' as (N' & _ & I3 & _). apply ordr_top.
    + apply (Permutation_NoDup (Permutation_sym (ordr_any (S (length trace)) roots'))).
      clear - N'. induction (trace ++ [node]) as [|z q IH]; [assumption|]. inversion N'; auto.
    + intros x Hx. apply I3. rewrite in_app_iff. right. now apply (ord_in _ _ x (ordr_any _)).
  - intros l1 x l2 y. destruct l2 as [|z l3 _] using rev_ind; intros Eq W.
    + apply app_inj_tail in Eq. destruct Eq as (<- & <-). destruct W as (W1 & W2 & W3).
      destruct I as (_ & _ & I3 & _).
      assert (Iy : In y (trace ++ node :: rest)) by (apply I3; split; assumption).
      rewrite in_app_iff in Iy. destruct Iy as [Iy | [<- | Iy]]; [contradiction| |].
      * destruct (node_lt a comp node node) eqn:Z1; [|reflexivity].
        now rewrite <- lt_eq in Z1; pose proof (lt_asym _ _ Z1); congruence.
      * rewrite <- lt_eq. now apply TF.
    + rewrite app_comm_cons, app_assoc in Eq. apply app_inj_tail in Eq. destruct Eq as (Eq & _).
      exact (GR l1 x l3 y Eq W).
Qed.

Variable itr : list Z -> list Z.
Hypothesis HI : any_order itr.

Lemma ordered_topo_ok fuel : (length (gnodes g) <= fuel)%nat ->
  exists tr, ordered_topological_walk itr srtr srtc comp dbg g fuel = Ok tr /\ NoDup tr /\ parents_first a tr /\
    (forall x, In x tr <-> a_has a x = true /\ forall c, reaches a c x -> ~ on_cycle a c) /\ greedy tr.
Proof.
  intros L. destruct (topo_ok dbg g a R itr ordr ordc HI ordr_any ordc_any fuel L) as (tr & Et & N & PF & H).
  exists tr. unfold topological_sorted_walk in Et. unfold ordered_topological_walk.
  destruct (find_roots_ok itr dbg g a HI R) as (r & Er & NR & Hr). rewrite Er in *. cbn [bind] in *.
  rewrite (require_all_ok dbg g a R) in * by (intros i Hi; now apply Hr). cbn [bind] in *.
  unfold std_sort. fold lt. rewrite no_clash by (intros x y _ _ _; apply lt_asym). cbn [bind].
  assert (EQ : ordr 0 (rev r) = rev (srtr 0 lt r)) by (unfold ordr; now rewrite rev_involutive).
  rewrite EQ in Et.
  assert (I0 : tinv a [] (rev (srtr 0 lt r)) []).
  { rewrite <- EQ.
    assert (PM : forall x, In x (ordr O (rev r)) <-> In x r).
    { intros x. rewrite (ord_in _ _ x (ordr_any _)). symmetry. apply in_rev. }
    split; [|split; [|split]].
    + cbn. apply ord_nodup; [apply ordr_any|]. now apply NoDup_rev.
    + intros c f. cbn. tauto.
    + intros x. cbn [app]. rewrite PM, Hr. unfold ready. split; intros (H1 & H2); (split; [assumption|]).
      * intros p Hp. rewrite H2 in Hp. discriminate.
      * intros u. apply not_true_is_false. intros Hu. exact (H2 u Hu).
    + intros l1 x l2 Eq. destruct l1; discriminate. }
  rewrite (ordered_topo_eq _ _ _ _ I0). split; [exact Et|]. split; [assumption|]. split; [assumption|]. split; [assumption|].
  refine (topo_greedy _ _ _ _ _ I0 _ _ Et).
  - rewrite <- EQ. apply ordr_top; [now apply NoDup_rev|]. intros x Hx. apply in_rev in Hx. now apply Hr.
  - intros l1 x l2 y Eq. destruct l1; discriminate.
Qed.
End Topo.

Lemma ordered_topo_built itr srtr srtc (comp : Z * T -> Z * T -> bool) dbg g a :
  any_order itr -> sorter srtr -> sorter srtc -> strict_weak comp -> built dbg g a ->
  (forall u, children_differ a (node_lt a comp) u) ->
  forall fuel, g_size g <= Z.of_nat fuel ->
  exists tr, ordered_topological_walk itr srtr srtc comp dbg g fuel = Ok tr /\ NoDup tr /\ parents_first a tr /\
    (forall x, In x tr <-> a_has a x = true /\ forall c, reaches a c x -> ~ on_cycle a c) /\
    forall l1 x l2 y, tr = l1 ++ x :: l2 -> waiting a l1 y -> node_lt a comp x y = false.
Proof.
  intros H1 H2 H3 H4 B D fuel L. apply built_rep in B. unfold g_size in L. apply ordered_topo_ok; auto. lia.
Qed.
End Order.

Lemma tie_graph {T : Type} (x : T) dbg : exists (g : graph T) a,
  built dbg g a /\ a_has a 0 = true /\ a_edge a 0 1 = true /\ a_edge a 0 2 = true /\
  g = {| gcur := 3; gnodes := [(2, {| gval := x; gin := [0]; gout := [] |}); (1, {| gval := x; gin := [0]; gout := [] |});
                               (0, {| gval := x; gin := []; gout := [2; 1] |})] |}.
Proof.
  pose (os := [GAddNode x; GAddNode x; GAddNode x; GAddDirected 0 1; GAddDirected 0 2]).
  destruct (agraph_run a_empty os) as [[ids a]|] eqn:EA; [|discriminate].
  assert (ids = [0; 1; 2]) as -> by (vm_compute in EA; congruence).
  eexists. exists a. split.
  - exists (fun l => l), os, [0; 1; 2]. split; [intros l; reflexivity|]. split; [assumption|].
    destruct dbg; vm_compute; reflexivity.
  - vm_compute in EA. injection EA as <-. repeat split; reflexivity.
Qed.

Lemma dfs_tie (T : Type) (ord : T -> T -> bool) x dbg : ord x x = false ->
  exists (g : graph T) a start, built dbg g a /\ a_has a start = true /\
    forall srt fuel, (1 <= fuel)%nat -> ordered_dfs srt ord dbg g fuel start = UB.
Proof.
  intros H. destruct (tie_graph x dbg) as (g & a & B & A & _ & _ & ->). eexists _, a, 0. split; [exact B|].
  split; [exact A|]. intros srt [|fuel] L; [lia|]. destruct dbg; vm_compute; rewrite !H; reflexivity.
Qed.

Lemma topo_tie (T : Type) (comp : Z * T -> Z * T -> bool) x dbg : (forall i j, comp (i, x) (j, x) = false) ->
  exists (g : graph T) a, built dbg g a /\ acyclic a /\
    forall itr srtr srtc fuel, any_order itr -> sorter srtr -> (1 <= fuel)%nat ->
      ordered_topological_walk itr srtr srtc comp dbg g fuel = UB.
Proof.
  intros H. destruct (tie_graph x dbg) as (g & a & B & _ & E1 & E2 & Eg). exists g, a. split; [exact B|].
  pose proof (built_rep dbg g a B) as R.
  assert (EI : forall u v, a_edge a u v = true -> u = 0 /\ (v = 1 \/ v = 2)).
  { intros u v Huv. destruct (edge_has g a R u v Huv) as (Hu & _).
    destruct (rep_find g a u R (has_some a u Hu)) as (n & F & _ & _ & _ & EO & _). apply EO in Huv.
    rewrite Eg in F. cbn [gnodes map_find] in F.
    destruct (Z.eqb_spec u 2) as [U2 | U2]; [injection F as <-; destruct Huv|].
    destruct (Z.eqb_spec u 1) as [U1 | U1]; [injection F as <-; destruct Huv|].
    destruct (Z.eqb_spec u 0) as [U0 | U0]; [|discriminate].
    injection F as <-. cbn in Huv. split; [assumption | intuition]. }
  split.
  { intros u v Huv RV. apply EI in Huv. destruct Huv as (-> & Hv).
    assert (forall w, reaches a v w -> w <> 0) as Q.
    { intros w RW. induction RW as [|y z RW IH Hyz]; [lia|]. apply EI in Hyz. lia. }
    exact (Q 0 RV eq_refl). }
  intros itr srtr srtc fuel HI SR L. destruct fuel as [|fuel]; [lia|].
  unfold ordered_topological_walk.
  destruct (find_roots_ok itr dbg g a HI R) as (r & -> & NR & Hr). cbn [bind].
  assert (r = [0]) as ->.
  { assert (I0 : In 0 r).
    { apply Hr. split; [apply (edge_has g a R _ _ E1)|]. intros u. apply not_true_is_false. intros Hu. apply EI in Hu. lia. }
    assert (O0 : forall i, In i r -> i = 0).
    { intros i Hi. apply Hr in Hi. destruct Hi as (Hi & NE).
      destruct (rep_find g a i R (has_some a i Hi)) as (n & F & _). rewrite Eg in F. cbn [gnodes map_find] in F.
      destruct (Z.eqb_spec i 2) as [-> | U2]; [now rewrite (NE 0) in E2|].
      destruct (Z.eqb_spec i 1) as [-> | U1]; [now rewrite (NE 0) in E1|].
      destruct (Z.eqb_spec i 0) as [U0 | U0]; [assumption | discriminate]. }
    destruct r as [|i [|j r]]; [destruct I0| |].
    - now rewrite (O0 i (or_introl eq_refl)).
    - exfalso. inversion NR as [|? ? N1 _]; subst. apply N1. left.
      now rewrite (O0 i (or_introl eq_refl)), (O0 j (or_intror (or_introl eq_refl))). }
  rewrite (require_all_ok dbg g a R) by (intros i Hi; now apply Hr). cbn [bind].
  destruct (SR O (node_less comp g) [0]) as (P & _). apply Permutation_length_1_inv in P.
  unfold std_sort at 1. rewrite P.
  replace (clash (node_less comp g) [0]) with false by reflexivity. cbn [bind rev app]. subst g.
  destruct dbg; vm_compute; rewrite !H; reflexivity.
Qed.

(** The edges a history can leave, for the examples. *)
Fixpoint edge_pairs {T} (os : list (graph_op T)) : list (Z * Z) :=
  match os with
  | [] => []
  | GAddDirected u v :: os => (u, v) :: edge_pairs os
  | GAddUndirected u v :: os => (u, v) :: (v, u) :: edge_pairs os
  | _ :: os => edge_pairs os
  end.

Lemma edge_pairs_ok {T} (os : list (graph_op T)) : forall a ids a' u v, agraph_run a os = Some (ids, a') ->
  a_edge a' u v = true -> a_edge a u v = true \/ In (u, v) (edge_pairs os).
Proof.
  induction os as [|o os IH]; intros a ids a' u v H E.
  - injection H as <- <-. auto.
  - cbn [agraph_run] in H. destruct (agraph_step a o) as [[x a1]|] eqn:S; [|discriminate].
    destruct (agraph_run a1 os) as [[xs a2]|] eqn:R2; [|discriminate]. injection H as <- <-.
    destruct (IH _ _ _ u v R2 E) as [Q | Q].
    2:{ right. destruct o; cbn [edge_pairs In]; auto. }
    destruct o; cbn [agraph_step] in S;
      (match type of S with (if ?b then _ else _) = _ => destruct b; [|discriminate] end);
      injection S as <- <-; cbn [a_edge] in Q; unfold edge_is in Q; cbn [edge_pairs In].
    + auto.
    + destruct ((u =? u0) && (v =? v0)) eqn:B; [|auto]. apply andb_prop in B. rewrite !Z.eqb_eq in B.
      destruct B as [-> ->]. auto.
    + destruct ((u =? u0) && (v =? v0)) eqn:B.
      { apply andb_prop in B. rewrite !Z.eqb_eq in B. destruct B as [-> ->]. auto. }
      destruct ((u =? v0) && (v =? u0)) eqn:B2; [|auto].
      apply andb_prop in B2. rewrite !Z.eqb_eq in B2. destruct B2 as [-> ->]. auto.
    + apply andb_prop in Q. tauto.
    + apply andb_prop in Q. tauto.
    + apply andb_prop in Q. tauto.
Qed.

Lemma children_differ_run {T} (os : list (graph_op T)) ids a lt : agraph_run a_empty os = Some (ids, a) ->
  forallb (fun p => forallb (fun q => negb (fst p =? fst q) || (snd p =? snd q) || lt (snd p) (snd q) || lt (snd q) (snd p))
    (edge_pairs os)) (edge_pairs os) = true ->
  forall u, children_differ a lt u.
Proof.
  intros H F u c d Hc Hd NE.
  destruct (edge_pairs_ok os _ _ _ _ _ H Hc) as [Q | Q1]; [discriminate|].
  destruct (edge_pairs_ok os _ _ _ _ _ H Hd) as [Q | Q2]; [discriminate|].
  rewrite forallb_forall in F. specialize (F _ Q1). cbv beta in F. rewrite forallb_forall in F. specialize (F _ Q2). cbn [fst snd] in F.
  rewrite Z.eqb_refl in F. apply Z.eqb_neq in NE. rewrite NE in F. cbn [negb orb] in F. now apply orb_prop in F.
Qed.

(** * The statements of the properties *)

Lemma c338_greatest_first_partial :
  forall (T : Type) itr srtr srtc (comp : Z * T -> Z * T -> bool) dbg (g : graph T) a,
  any_order itr -> sorter srtr -> sorter srtc -> strict_weak comp -> built dbg g a ->
  (forall u, children_differ a (node_lt a comp) u) ->
  forall fuel, g_size g <= Z.of_nat fuel ->
  exists tr, ordered_topological_walk itr srtr srtc comp dbg g fuel = Ok tr /\ NoDup tr /\ parents_first a tr /\
    (forall x, In x tr <-> a_has a x = true /\ forall c, reaches a c x -> ~ on_cycle a c) /\
    forall l1 x l2 y, tr = l1 ++ x :: l2 -> waiting a l1 y -> node_lt a comp x y = false.
Proof.
  intros T itr srtr srtc comp dbg g a. apply ordered_topo_built.
Qed.

Lemma c338_ties_refuted :
  forall (T : Type) (comp : Z * T -> Z * T -> bool) x dbg, (forall i j, comp (i, x) (j, x) = false) ->
  exists (g : graph T) a, built dbg g a /\ acyclic a /\
    forall itr srtr srtc fuel, any_order itr -> sorter srtr -> (1 <= fuel)%nat ->
      ordered_topological_walk itr srtr srtc comp dbg g fuel = UB.
Proof.
  intros T comp x dbg. apply topo_tie.
Qed.

Lemma c339_preorder_partial :
  forall (T : Type) dbg (g : graph T) a srt (ord : T -> T -> bool) start,
  built dbg g a -> sorter srt -> strict_weak ord -> a_has a start = true ->
  (forall u, reaches a start u -> children_differ a (value_lt a ord) u) ->
  exists k tr, (forall v, In v tr <-> reaches a start v) /\ deep a (value_lt a ord) [] [start] tr /\
    forall fuel, (k <= fuel)%nat -> ordered_dfs srt ord dbg g fuel start = Ok tr.
Proof.
  intros T dbg g a srt ord start. apply ordered_dfs_built.
Qed.

Lemma c339_ties_refuted :
  forall (T : Type) (ord : T -> T -> bool) x dbg, ord x x = false ->
  exists (g : graph T) a start, built dbg g a /\ a_has a start = true /\
    forall srt fuel, (1 <= fuel)%nat -> ordered_dfs srt ord dbg g fuel start = UB.
Proof.
  intros T ord x dbg. apply dfs_tie.
Qed.

Lemma c340_by_levels :
  forall (T : Type) dbg (g : graph T) a srt (ord : T -> T -> bool) start,
  built dbg g a -> sorter srt -> strict_weak ord -> a_has a start = true ->
  exists k tr, (forall v, In v tr <-> reaches a start v) /\ broad a (value_lt a ord) start tr /\
    forall fuel, (k <= fuel)%nat -> ordered_bfs srt ord dbg g fuel start = Ok tr.
Proof.
  intros T dbg g a srt ord start. apply ordered_bfs_built.
Qed.
