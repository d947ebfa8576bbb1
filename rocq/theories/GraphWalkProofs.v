(** Proofs about the graph walks. *)
From Coq Require Import ZifyBool.
From Verif Require Import Common CommonProofs Ints Graph SpecGraph GraphProofs.
Open Scope Z_scope.
Local Arguments Z.mul : simpl never.
Local Arguments Z.add : simpl never.
Local Arguments Z.sub : simpl never.
Local Arguments Z.pow : simpl never.
Local Arguments Z.of_nat : simpl never.

Section Walk.
Context {T : Type}.
Implicit Types (g : graph T) (a : agraph T) (n : gnode T).

Lemma reaches_left a u v w : a_edge a u v = true -> reaches a v w -> reaches a u w.
Proof.
  intros E R. induction R as [|x y R IH E2].
  - apply (reach_step a u u v); [constructor | assumption].
  - exact (reach_step a u x y IH E2).
Qed.

Lemma reaches_trans a u v w : reaches a u v -> reaches a v w -> reaches a u w.
Proof. intros R1 R2. induction R2 as [|x y R IH E2]; [assumption|]. exact (reach_step a u x y IH E2). Qed.

Lemma NoDup_app_intro {A} (l1 l2 : list A) :
  NoDup l1 -> NoDup l2 -> (forall x, In x l2 -> ~ In x l1) -> NoDup (l1 ++ l2).
Proof.
  induction l1 as [|x l1 IH]; intros N1 N2 H; cbn; [assumption|].
  inversion N1 as [|y l H1 H2]; subst. constructor.
  - rewrite in_app_iff. intros [I | I]; [auto|]. apply (H x I). now left.
  - apply IH; auto. intros y Hy I. apply (H y Hy). now right.
Qed.

(** ** Breadth and depth first walks *)

Section Loop.
Variables (dbg : bool) (g : graph T) (a : agraph T) (push : list Z -> list Z -> list Z)
  (ord : nat -> list Z -> list Z).
Hypothesis R : grep g a.
Hypothesis HO : forall k, any_order (ord k).
Hypothesis PP : forall r c, Permutation (r ++ c) (push r c).

(** The number of nodes not yet visited. *)
Definition unvisited (visited : list Z) : nat :=
  length (filter (fun i => negb (set_mem i visited)) (map fst (gnodes g))).

(** The position of the first unvisited entry, or the length. *)
Fixpoint fidx (visited path : list Z) : nat :=
  match path with
  | [] => O
  | x :: path => if set_mem x visited then S (fidx visited path) else O
  end.

Hypothesis PI : forall visited r c, (forall x, In x c -> set_mem x visited = false) ->
  (fidx visited (push r c) <= fidx visited r)%nat.

Lemma filter_le {A} (f h : A -> bool) l :
  (forall x, In x l -> f x = true -> h x = true) -> (length (filter f l) <= length (filter h l))%nat.
Proof.
  induction l as [|x l IH]; intros H; [cbn; lia|]. cbn [filter].
  assert (length (filter f l) <= length (filter h l))%nat by (apply IH; intros; apply H; [now right | assumption]).
  specialize (H x (or_introl eq_refl)). destruct (f x), (h x); cbn [length]; lia.
Qed.

Lemma filter_lt {A} (f h : A -> bool) l y :
  (forall x, In x l -> f x = true -> h x = true) -> In y l -> f y = false -> h y = true ->
  (length (filter f l) < length (filter h l))%nat.
Proof.
  induction l as [|x l IH]; intros H HI F G; [destruct HI|].
  assert (L : (length (filter f l) <= length (filter h l))%nat).
  { apply filter_le. intros z Hz. apply H. now right. }
  cbn [filter]. destruct HI as [-> | HI].
  - rewrite F, G. cbn [length]. lia.
  - assert (length (filter f l) < length (filter h l))%nat.
    { apply IH; auto. intros z Hz. apply H. now right. }
    specialize (H x (or_introl eq_refl)). destruct (f x), (h x); cbn [length]; lia.
Qed.

Lemma unvisited_lt visited x :
  a_has a x = true -> set_mem x visited = false -> (unvisited (set_insert x visited) < unvisited visited)%nat.
Proof.
  intros H M. unfold unvisited. apply filter_lt with (y := x).
  - intros y _. rewrite !negb_true_iff, !set_mem_false, set_insert_in. tauto.
  - now apply (rep_has_keys g a x R).
  - rewrite negb_false_iff, set_mem_spec, set_insert_in. auto.
  - now rewrite M.
Qed.

Variable start : Z.
Hypothesis HS : a_has a start = true.

Definition winv (visited path trace : list Z) : Prop :=
  (forall x, In x visited <-> In x trace) /\
  (forall x, In x path -> a_has a x = true /\ reaches a start x) /\
  (forall x, In x trace -> reaches a start x) /\
  (In start trace \/ In start path) /\
  (forall u v, In u trace -> a_edge a u v = true -> In v trace \/ In v path).

Lemma push_in r c x : In x (push r c) <-> In x r \/ In x c.
Proof.
  rewrite <- in_app_iff. split; apply Permutation_in; [apply Permutation_sym|]; apply PP.
Qed.

Lemma edge_has u v : a_edge a u v = true -> a_has a u = true /\ a_has a v = true.
Proof.
  intros E. destruct R as (_ & _ & _ & _ & _ & R6 & _). apply R6 in E. unfold a_has.
  destruct (a_node a u), (a_node a v); tauto.
Qed.

Definition children (visited : list Z) (cur : Z) (c : list Z) : Prop :=
  forall x, In x c <-> a_edge a cur x = true /\ ~ In x visited.

Lemma walk_step visited cur rest trace :
  a_has a cur = true ->
  exists c, children (set_insert cur visited) cur c /\ NoDup c /\ forall fuel,
    walk_loop push ord dbg g (S fuel) visited (cur :: rest) trace =
    walk_loop push ord dbg g fuel (set_insert cur visited) (push rest c) (trace ++ [cur]).
Proof.
  intros H. apply has_some in H.
  destruct (get_ok dbg g a cur R H) as (n & G & F & NV & NO & NI & EO & EI).
  exists (ord (length trace) (filter (fun i => negb (set_mem i (set_insert cur visited))) (gout n))).
  split; [|split].
  3:{ intros fuel. cbn [walk_loop]. rewrite (require_ok dbg g a cur R H). cbn [bind]. rewrite G. reflexivity. }
  - intros x. rewrite (ord_in _ _ x (HO _)), filter_In, EO, negb_true_iff, set_mem_false. reflexivity.
  - apply ord_nodup; [apply HO|]. now apply NoDup_filter.
Qed.

Lemma winv_step visited cur rest trace c :
  winv visited (cur :: rest) trace -> children (set_insert cur visited) cur c ->
  winv (set_insert cur visited) (push rest c) (trace ++ [cur]).
Proof.
  intros (W1 & W2 & W3 & W4 & W5) HC. unfold winv.
  destruct (W2 cur (or_introl eq_refl)) as (Hc & Rc).
  split; [|split; [|split; [|split]]].
  - intros x. rewrite set_insert_in, in_app_iff, W1. cbn. intuition.
  - intros x. rewrite push_in. intros [H | H]; [apply W2; now right|].
    apply HC in H. destruct H as (H & _). split; [apply (edge_has _ _ H)|]. exact (reach_step a start cur x Rc H).
  - intros x. rewrite in_app_iff. intros [H | [<- | []]]; auto.
  - rewrite in_app_iff, push_in. cbn. destruct W4 as [H | [H | H]]; auto.
  - intros u v. rewrite !in_app_iff, push_in. cbn. intros [H | [<- | []]] E.
    + destruct (W5 u v H E) as [H1 | [H1 | H1]]; auto.
    + destruct (in_dec Z.eq_dec v (set_insert cur visited)) as [I | I].
      * rewrite set_insert_in, W1 in I. destruct I; auto.
      * right. right. apply HC. auto.
Qed.

Lemma winv_done visited trace : winv visited [] trace -> forall v, In v trace <-> reaches a start v.
Proof.
  intros (W1 & W2 & W3 & W4 & W5) v. split; [apply W3|]. intros RV.
  destruct W4 as [W4 | []]. induction RV as [|x y RV IH E]; [assumption|].
  destruct (W5 x y IH E) as [H | []]. assumption.
Qed.

Lemma fidx_insert visited x path : (fidx visited path <= fidx (set_insert x visited) path)%nat.
Proof.
  induction path as [|y path IH]; cbn [fidx]; [lia|].
  destruct (set_mem y visited) eqn:E; [|lia].
  assert (set_mem y (set_insert x visited) = true) as ->; [|lia].
  apply set_mem_spec. apply set_insert_in. right. now apply set_mem_spec.
Qed.

Lemma fidx_same visited x path : In x visited -> fidx (set_insert x visited) path = fidx visited path.
Proof. intros H. unfold set_insert. apply set_mem_spec in H. now rewrite H. Qed.

Lemma walk_ends : forall u i visited path trace,
  (unvisited visited <= u)%nat -> (fidx visited path <= i)%nat -> winv visited path trace ->
  exists k tr, (forall v, In v tr <-> reaches a start v) /\
    forall fuel, (k <= fuel)%nat -> walk_loop push ord dbg g fuel visited path trace = Ok tr.
Proof.
  induction u as [u IHu] using lt_wf_ind. induction i as [i IHi] using lt_wf_ind.
  intros visited path trace LU LI W. destruct path as [|cur rest].
  { exists O, trace. split; [now apply winv_done with (visited := visited)|]. intros [|fuel] _; reflexivity. }
  assert (Hc : a_has a cur = true) by (apply W; now left).
  destruct (walk_step visited cur rest trace Hc) as (c & HC & _ & ST).
  pose proof (winv_step visited cur rest trace c W HC) as W'.
  assert (K : exists k tr, (forall v, In v tr <-> reaches a start v) /\
    forall fuel, (k <= fuel)%nat ->
      walk_loop push ord dbg g fuel (set_insert cur visited) (push rest c) (trace ++ [cur]) = Ok tr).
  { destruct (set_mem cur visited) eqn:M.
    - apply (IHi (fidx visited rest)) with (4 := W').
      + cbn [fidx] in LI. rewrite M in LI. lia.
      + unfold set_insert. now rewrite M.
      + replace (set_insert cur visited) with visited by (unfold set_insert; now rewrite M).
        apply PI. intros x Hx. apply HC in Hx. apply set_mem_false.
        unfold set_insert in Hx. rewrite M in Hx. tauto.
    - apply (IHu (unvisited (set_insert cur visited))) with (i := fidx (set_insert cur visited) (push rest c)) (4 := W'); try lia.
      pose proof (unvisited_lt visited cur Hc M). lia. }
  destruct K as (k & tr & HT & HF). exists (S k), tr. split; [assumption|].
  intros [|fuel] L; [lia|]. rewrite ST. apply HF. lia.
Qed.

Lemma walk_start :
  exists k tr, (forall v, In v tr <-> reaches a start v) /\
    forall fuel, (k <= fuel)%nat -> walk_loop push ord dbg g fuel [] [start] [] = Ok tr.
Proof.
  apply (walk_ends (unvisited []) (fidx [] [start])); try lia.
  unfold winv. cbn. split; [tauto|]. split; [|split; [tauto|split; [tauto|tauto]]].
  intros x [<- | []]. split; [assumption | constructor].
Qed.

(** When no node other than the start is entered by two edges, no node is
    visited twice. *)
Hypothesis HU : forall u v w, w <> start -> reaches a start u -> reaches a start v ->
  a_edge a u w = true -> a_edge a v w = true -> u = v.

Definition oinv (path trace : list Z) : Prop :=
  NoDup (trace ++ path) /\
  (forall x, In x (trace ++ path) -> x = start \/ exists p, In p trace /\ a_edge a p x = true) /\
  (In start trace \/ (trace = [] /\ path = [start])).

Lemma once_loop : forall fuel visited path trace tr,
  winv visited path trace -> oinv path trace ->
  walk_loop push ord dbg g fuel visited path trace = Ok tr -> NoDup tr.
Proof.
  induction fuel as [|fuel IH]; intros visited path trace tr W N E.
  - destruct path; [|discriminate]. injection E as <-. destruct N as (N & _). now rewrite app_nil_r in N.
  - destruct path as [|cur rest].
    { injection E as <-. destruct N as (N & _). now rewrite app_nil_r in N. }
    assert (Hc : a_has a cur = true) by (apply W; now left).
    destruct (walk_step visited cur rest trace Hc) as (c & HC & NC & ST). rewrite ST in E.
    pose proof (winv_step visited cur rest trace c W HC) as W'.
    refine (IH _ _ _ _ W' _ E). clear IH E ST.
    destruct N as (N1 & N2 & N3). destruct W as (W1 & W2 & W3 & W4 & W5).
    assert (PM : Permutation (trace ++ cur :: rest ++ c) ((trace ++ [cur]) ++ push rest c)).
    { rewrite <- app_assoc. cbn. apply Permutation_app_head, perm_skip, PP. }
    assert (ST : In start (trace ++ [cur])).
    { rewrite in_app_iff. cbn. destruct N3 as [N3 | [_ N3]]; [auto|]. injection N3 as -> ->. auto. }
    assert (CN : forall x, In x c -> ~ In x (trace ++ cur :: rest)).
    { intros x Hx HI. pose proof Hx as Hx'. apply HC in Hx. destruct Hx as (Ex & Vx). rewrite set_insert_in, W1 in Vx.
      destruct (N2 x HI) as [-> | (p & Hp & Ep)].
      - rewrite in_app_iff in ST. cbn in ST. intuition.
      - assert (p = cur).
        { apply HU with (w := x); auto.
          - intros ->. rewrite in_app_iff in ST. cbn in ST. intuition.
          - apply W2. now left. }
        subst p. apply NoDup_remove_2 in N1. apply N1. rewrite in_app_iff. auto. }
    split; [|split].
    + apply (Permutation_NoDup PM). rewrite app_comm_cons, app_assoc.
      apply NoDup_app_intro; auto.
    + intros x HI. apply (Permutation_in x (Permutation_sym PM)) in HI.
      rewrite app_comm_cons, app_assoc, in_app_iff in HI. destruct HI as [HI | HI].
      * destruct (N2 x HI) as [H | (p & Hp & Ep)]; [auto|]. right. exists p. rewrite in_app_iff. auto.
      * right. exists cur. rewrite in_app_iff. cbn. split; [auto|]. now apply HC.
    + left. exact ST.
Qed.

Lemma once_start fuel tr : walk_loop push ord dbg g fuel [] [start] [] = Ok tr -> NoDup tr.
Proof.
  apply once_loop.
  - unfold winv. cbn. split; [tauto|]. split; [|split; [tauto|split; [tauto|tauto]]].
    intros x [<- | []]. split; [assumption | constructor].
  - split; [|split]; cbn.
    + constructor; [intros [] | constructor].
    + intros x [<- | []]. auto.
    + auto.
Qed.
End Loop.

Lemma bfs_push_idx visited r c : (forall x, In x c -> set_mem x visited = false) ->
  (fidx visited (r ++ c) <= fidx visited r)%nat.
Proof.
  intros H. induction r as [|x r IH]; cbn.
  - destruct c as [|y c]; cbn; [lia|]. rewrite H; [lia | now left].
  - destruct (set_mem x visited); lia.
Qed.

Lemma dfs_push_idx visited r c : (forall x, In x c -> set_mem x visited = false) ->
  (fidx visited (rev c ++ r) <= fidx visited r)%nat.
Proof.
  intros H. destruct (rev c) as [|y l] eqn:E; cbn; [lia|].
  rewrite H; [lia|]. apply in_rev. rewrite E. now left.
Qed.

Lemma dfs_push_perm (r c : list Z) : Permutation (r ++ c) (rev c ++ r).
Proof.
  transitivity (c ++ r); [apply Permutation_app_comm|]. apply Permutation_app_tail, Permutation_rev.
Qed.

Lemma bfs_reach dbg g a ord start : grep g a -> (forall k, any_order (ord k)) -> a_has a start = true ->
  exists k tr, (forall v, In v tr <-> reaches a start v) /\
    forall fuel, (k <= fuel)%nat -> bfs_walk ord dbg g fuel start = Ok tr.
Proof.
  intros R HO HS. unfold bfs_walk.
  exact (walk_start dbg g a _ ord R HO (fun r c => Permutation_refl _) bfs_push_idx start HS).
Qed.

Lemma dfs_reach dbg g a ord start : grep g a -> (forall k, any_order (ord k)) -> a_has a start = true ->
  exists k tr, (forall v, In v tr <-> reaches a start v) /\
    forall fuel, (k <= fuel)%nat -> dfs_walk ord dbg g fuel start = Ok tr.
Proof.
  intros R HO HS. unfold dfs_walk.
  exact (walk_start dbg g a _ ord R HO dfs_push_perm dfs_push_idx start HS).
Qed.

Lemma bfs_once dbg g a ord start fuel tr : grep g a -> (forall k, any_order (ord k)) -> a_has a start = true ->
  (forall u v w, w <> start -> reaches a start u -> reaches a start v ->
     a_edge a u w = true -> a_edge a v w = true -> u = v) ->
  bfs_walk ord dbg g fuel start = Ok tr -> NoDup tr.
Proof.
  intros R HO HS HU. unfold bfs_walk.
  exact (once_start dbg g a _ ord R HO (fun r c => Permutation_refl _) start HS HU fuel tr).
Qed.

Lemma dfs_once dbg g a ord start fuel tr : grep g a -> (forall k, any_order (ord k)) -> a_has a start = true ->
  (forall u v w, w <> start -> reaches a start u -> reaches a start v ->
     a_edge a u w = true -> a_edge a v w = true -> u = v) ->
  dfs_walk ord dbg g fuel start = Ok tr -> NoDup tr.
Proof.
  intros R HO HS HU. unfold dfs_walk.
  exact (once_start dbg g a _ ord R HO dfs_push_perm start HS HU fuel tr).
Qed.
End Walk.
