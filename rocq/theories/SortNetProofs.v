(** The networks of SortNet.v sort: 0-1 principle for strict weak orders,
    followed by a finite check of each network on boolean vectors. *)
From Verif Require Import Common CommonProofs SortNet.

(** * Boolean compare-exchange, and partially known boolean vectors *)

Definition bcx (i j : nat) (v : list bool) : list bool :=
  let a := nth i v false in
  let b := nth j v false in
  upd (upd v i (a && b)) j (a || b).

Definition brun (net : list (nat * nat)) (v : list bool) : list bool :=
  fold_left (fun v '(i, j) => bcx i j v) net v.

Definition pvec := list (option bool).

Definition choices (o : option bool) : list bool :=
  match o with Some b => [b] | None => [true; false] end.

Definition pstep (i j : nat) (p : pvec) : list pvec :=
  flat_map (fun a =>
    map (fun b => upd (upd p i (Some (a && b))) j (Some (a || b)))
        (choices (nth j p None)))
    (choices (nth i p None)).

(** Sets of partial vectors as tries, to remove duplicates cheaply. *)
Inductive trie := TE | TN (leaf : bool) (n f t : trie).

Fixpoint tinsert (p : pvec) (s : trie) : trie :=
  match s with
  | TE =>
      match p with
      | [] => TN true TE TE TE
      | None :: p' => TN false (tinsert p' TE) TE TE
      | Some false :: p' => TN false TE (tinsert p' TE) TE
      | Some true :: p' => TN false TE TE (tinsert p' TE)
      end
  | TN l n f t =>
      match p with
      | [] => TN true n f t
      | None :: p' => TN l (tinsert p' n) f t
      | Some false :: p' => TN l n (tinsert p' f) t
      | Some true :: p' => TN l n f (tinsert p' t)
      end
  end.

Fixpoint tlist (s : trie) : list pvec :=
  match s with
  | TE => []
  | TN l n f t =>
      (if l then [[]] else []) ++
      map (cons None) (tlist n) ++
      map (cons (Some false)) (tlist f) ++
      map (cons (Some true)) (tlist t)
  end.

Definition sstep (s : list pvec) (c : nat * nat) : list pvec :=
  tlist (fold_left (fun t p =>
            fold_left (fun t q => tinsert q t) (pstep (fst c) (snd c) p) t) s TE).

Fixpoint psorted (p : pvec) : bool :=
  match p with
  | [] => true
  | Some false :: p' => psorted p'
  | Some true :: p' => forallb (fun o => match o with Some true => true | _ => false end) p'
  | None :: _ => false
  end.

Definition netcheck (n : nat) (net : list (nat * nat)) : bool :=
  forallb (fun c => (fst c <? n) && (snd c <? n) && negb (fst c =? snd c)) net &&
  forallb psorted (fold_left sstep net [repeat None n]).

Lemma netcheck_3 : netcheck 3 net_3 = true. Proof. vm_compute. reflexivity. Qed.
Lemma netcheck_4 : netcheck 4 net_4 = true. Proof. vm_compute. reflexivity. Qed.
Lemma netcheck_5 : netcheck 5 net_5 = true. Proof. vm_compute. reflexivity. Qed.
Lemma netcheck_6 : netcheck 6 net_6 = true. Proof. vm_compute. reflexivity. Qed.
Lemma netcheck_7 : netcheck 7 net_7 = true. Proof. vm_compute. reflexivity. Qed.
Lemma netcheck_8 : netcheck 8 net_8 = true. Proof. vm_compute. reflexivity. Qed.
Lemma netcheck_3i : netcheck 3 net_3_impl = true. Proof. vm_compute. reflexivity. Qed.
Lemma netcheck_5i : netcheck 5 net_5_impl = true. Proof. vm_compute. reflexivity. Qed.
Lemma netcheck_16 : netcheck 16 net_16 = true. Proof. vm_compute. reflexivity. Qed.
Lemma netcheck_32 : netcheck 32 net_32 = true. Proof. vm_compute. reflexivity. Qed.

(** * Soundness of the finite check *)

Lemma tinsert_self p s : In p (tlist (tinsert p s)).
Proof.
  revert s; induction p as [|o p IH]; intros [|l n f t]; cbn [tinsert tlist].
  - left; reflexivity.
  - left; reflexivity.
  - destruct o as [[|]|]; cbn [tlist]; rewrite ?app_nil_l, ?app_nil_r; cbn [app map];
      rewrite ?app_nil_r; apply in_map, IH.
  - destruct o as [[|]|]; cbn [tlist]; rewrite !in_app_iff.
    + right; right; right. apply in_map, IH.
    + right; right; left. apply in_map, IH.
    + right; left. apply in_map, IH.
Qed.

Lemma tinsert_keep p q s : In q (tlist s) -> In q (tlist (tinsert p s)).
Proof.
  revert q s; induction p as [|o p IH]; intros q [|l n f t] H; cbn [tinsert tlist] in *;
    try contradiction.
  - rewrite !in_app_iff in *. destruct H as [H|H]; [|tauto].
    left. destruct l; simpl in *; tauto.
  - destruct o as [[|]|]; cbn [tlist]; rewrite !in_app_iff in *;
      destruct H as [H|[H|[H|H]]]; try tauto.
    + right; right; right. apply in_map_iff in H as [r [<- Hr]]. apply in_map; auto.
    + right; right; left. apply in_map_iff in H as [r [<- Hr]]. apply in_map; auto.
    + right; left. apply in_map_iff in H as [r [<- Hr]]. apply in_map; auto.
Qed.

Lemma fold_tinsert_keep ps q s :
  In q (tlist s) -> In q (tlist (fold_left (fun t p => tinsert p t) ps s)).
Proof.
  revert s; induction ps as [|p ps IH]; intros s H; cbn [fold_left]; auto.
  apply IH, tinsert_keep, H.
Qed.

Lemma fold_tinsert_in ps q s :
  In q ps -> In q (tlist (fold_left (fun t p => tinsert p t) ps s)).
Proof.
  revert s; induction ps as [|p ps IH]; intros s H; cbn [fold_left]; [destruct H|].
  destruct H as [->|H]; [|apply IH, H].
  apply fold_tinsert_keep, tinsert_self.
Qed.

Lemma sstep_in s i j p q :
  In p s -> In q (pstep i j p) -> In q (sstep s (i, j)).
Proof.
  unfold sstep. cbn [fst snd]. generalize TE as t.
  assert (keep : forall s t, In q (tlist t) ->
            In q (tlist (fold_left (fun t p =>
              fold_left (fun t q => tinsert q t) (pstep i j p) t) s t))).
  { clear. intros s; induction s as [|r s IH]; intros t H; cbn [fold_left]; auto.
    apply IH, fold_tinsert_keep, H. }
  induction s as [|r s IH]; intros t Hp Hq; [destruct Hp|].
  cbn [fold_left]. destruct Hp as [->|Hp].
  - apply keep, fold_tinsert_in, Hq.
  - apply IH; auto.
Qed.

Definition covers (p : pvec) (v : list bool) : Prop :=
  length p = length v /\
  forall k o b, nth_error p k = Some o -> nth_error v k = Some b ->
                o = None \/ o = Some b.

Lemma choices_in o b : (o = None \/ o = Some b) -> In b (choices o).
Proof. intros [-> | ->]; simpl; auto. destruct b; auto. Qed.

Lemma pstep_covers p v i j :
  covers p v -> i < length v -> j < length v -> i <> j ->
  exists q, In q (pstep i j p) /\ covers q (bcx i j v).
Proof.
  intros [Hl Hc] Hi Hj Hne.
  destruct (nth_error_ex v i Hi) as [a Ea]. destruct (nth_error_ex v j Hj) as [b Eb].
  assert (Hi' : i < length p) by lia. assert (Hj' : j < length p) by lia.
  destruct (nth_error_ex p i Hi') as [oa Eoa]. destruct (nth_error_ex p j Hj') as [ob Eob].
  exists (upd (upd p i (Some (a && b))) j (Some (a || b))). split.
  - unfold pstep. apply in_flat_map. exists a. split.
    + rewrite (nth_error_nth p i None Eoa). apply choices_in. eauto.
    + apply (in_map (fun b0 => upd (upd p i (Some (a && b0))) j (Some (a || b0)))).
      rewrite (nth_error_nth p j None Eob). apply choices_in. eauto.
  - unfold bcx. rewrite (nth_error_nth v i false Ea), (nth_error_nth v j false Eb).
    split; [rewrite !upd_length; exact Hl|].
    intros k o c. rewrite !nth_error_upd, !upd_length.
    rewrite (proj2 (Nat.ltb_lt _ _) Hi), (proj2 (Nat.ltb_lt _ _) Hj),
            (proj2 (Nat.ltb_lt _ _) Hi'), (proj2 (Nat.ltb_lt _ _) Hj'), !andb_true_r.
    destruct (k =? j); [intros; right; congruence|].
    destruct (k =? i); [intros; right; congruence|]. eauto.
Qed.

Lemma bcx_length i j v : length (bcx i j v) = length v.
Proof. unfold bcx. rewrite !upd_length. reflexivity. Qed.

Lemma fold_sstep_covers net : forall s v p n,
  forallb (fun c => (fst c <? n) && (snd c <? n) && negb (fst c =? snd c)) net = true ->
  length v = n -> In p s -> covers p v ->
  exists q, In q (fold_left sstep net s) /\ covers q (brun net v).
Proof.
  induction net as [|[i j] net IH]; intros s v p n Hn Hlv Hin Hc.
  - exists p; auto.
  - cbn [forallb fst snd] in Hn. apply andb_prop in Hn as [H0 Hn].
    apply andb_prop in H0 as [H0 Hij]. apply andb_prop in H0 as [Hi Hj].
    apply Nat.ltb_lt in Hi, Hj. apply negb_true_iff, Nat.eqb_neq in Hij.
    destruct (pstep_covers p v i j Hc) as [q [Hq Hcq]]; try lia.
    cbn [fold_left brun]. apply (IH _ _ q n); auto.
    + rewrite bcx_length. exact Hlv.
    + eapply sstep_in; eauto.
Qed.

Definition bsorted (v : list bool) : Prop :=
  forall i j b, i < j -> nth_error v i = Some true -> nth_error v j = Some b -> b = true.

Lemma psorted_bsorted p v : psorted p = true -> covers p v -> bsorted v.
Proof.
  revert v; induction p as [|o p IH]; intros [|b v] Hp [Hl Hc] i j c Hij Hi Hj;
    try discriminate; try (destruct i; discriminate).
  assert (Hc' : covers p v).
  { split; [simpl in Hl; lia|]. intros k o' b' H1 H2. apply (Hc (S k)); auto. }
  destruct j as [|j]; [lia|]. cbn [nth_error] in Hj.
  cbn [psorted] in Hp. destruct o as [[|]|]; [| |discriminate].
  - rewrite forallb_forall in Hp.
    assert (j < length p) by (simpl in Hl; apply nth_error_some_lt in Hj; lia).
    destruct (nth_error_ex p j) as [o' Eo]; auto.
    assert (Ho : o' = Some true).
    { specialize (Hp o' (nth_error_In _ _ Eo)). destruct o' as [[|]|]; congruence. }
    destruct (proj2 Hc' j o' c Eo Hj); congruence.
  - destruct i as [|i].
    + destruct (Hc 0 (Some false) b) as [H|H]; auto; try discriminate.
      simpl in Hi. congruence.
    + apply (IH v Hp Hc' i j); auto. lia.
Qed.

Lemma netcheck_brun n net v :
  netcheck n net = true -> length v = n -> bsorted (brun net v).
Proof.
  unfold netcheck. intros H Hv. apply andb_prop in H as [H1 H2].
  destruct (fold_sstep_covers net [repeat None n] v (repeat None n) n) as [q [Hq Hc]]; auto.
  - left; reflexivity.
  - split; [rewrite repeat_length; auto|].
    intros k o b H _. apply nth_error_In, repeat_spec in H. auto.
  - rewrite forallb_forall in H2. eapply psorted_bsorted; eauto.
Qed.

(** * The 0-1 principle *)

Section ZeroOne.
  Context {A : Type}.
  Variable comp : A -> A -> bool.
  Hypothesis SW : strict_weak comp.

  (** Effect of one compare-exchange on positions [i], [j]. *)
  Definition cxrel (i j : nat) (l l' : list A) : Prop :=
    exists x y, nth_error l i = Some x /\ nth_error l j = Some y /\
      length l' = length l /\ Permutation l l' /\
      (forall k, k <> i -> k <> j -> nth_error l' k = nth_error l k) /\
      ((nth_error l' i = Some x /\ nth_error l' j = Some y /\ comp y x = false) \/
       (nth_error l' i = Some y /\ nth_error l' j = Some x /\ comp x y = false)).

  Lemma swap_at_cx (l : list A) i j x y :
    nth_error l i = Some x -> nth_error l j = Some y -> i <> j ->
    exists l', swap_at l i j = Ok l' /\ length l' = length l /\ Permutation l l' /\
      (forall k, k <> i -> k <> j -> nth_error l' k = nth_error l k) /\
      nth_error l' i = Some y /\ nth_error l' j = Some x.
  Proof.
    intros Hx Hy Hne.
    destruct (swap_at_ok l i j) as [l' [E [Hl [Hp Hn]]]];
      eauto using nth_error_some_lt.
    exists l'. repeat split; auto.
    - intros k H1 H2. rewrite Hn. unfold tr.
      destruct (Nat.eqb_spec k i), (Nat.eqb_spec k j); congruence.
    - rewrite Hn. unfold tr. rewrite Nat.eqb_refl. exact Hy.
    - rewrite Hn. unfold tr. destruct (Nat.eqb_spec j i); [congruence|].
      rewrite Nat.eqb_refl. exact Hx.
  Qed.

  Lemma swap_if_cx i j (l : list A) :
    i < length l -> j < length l -> i <> j ->
    exists l', swap_if comp i j l = Ok l' /\ cxrel i j l l'.
  Proof.
    intros Hi Hj Hne. unfold swap_if.
    destruct (rd_ok l i Hi) as [x [Rx Ex]]. destruct (rd_ok l j Hj) as [y [Ry Ey]].
    rewrite Rx; cbn [bind]. rewrite Ry; cbn [bind].
    destruct (comp x y) eqn:C; cbn [negb].
    - exists l. split; auto. exists x, y. repeat split; auto.
      left; repeat split; auto. eapply swo_asym; eauto.
    - destruct (swap_at_cx l i j x y) as [l' [E [Hl [Hp [Ho [Hi' Hj']]]]]]; auto.
      exists l'. split; auto. exists x, y. repeat split; auto.
  Qed.

  Lemma swap_if2_cx i j (l : list A) :
    i < length l -> j < length l -> i <> j ->
    exists c l', swap_if2 comp i j l = Ok (c, l') /\ cxrel i j l l'.
  Proof.
    intros Hi Hj Hne. unfold swap_if2.
    destruct (rd_ok l i Hi) as [x [Rx Ex]]. destruct (rd_ok l j Hj) as [y [Ry Ey]].
    rewrite Ry; cbn [bind]. rewrite Rx; cbn [bind].
    destruct (comp y x) eqn:C.
    - destruct (swap_at_cx l j i y x) as [l' [E [Hl [Hp [Ho [Hi' Hj']]]]]]; auto.
      rewrite E; cbn [bind]. exists 1, l'. split; auto. exists x, y. repeat split; auto.
      right; repeat split; auto. eapply swo_asym; eauto.
    - exists 0, l. split; auto. exists x, y. repeat split; auto.
  Qed.

  (** A chain of compare-exchanges through the index map [f]. *)
  Inductive netrel (f : nat -> nat) : list (nat * nat) -> list A -> list A -> Prop :=
  | nr_nil l : netrel f [] l l
  | nr_cons i j net l l1 l2 :
      cxrel (f i) (f j) l l1 -> netrel f net l1 l2 -> netrel f ((i, j) :: net) l l2.

  Definition inj_on (f : nat -> nat) (n : nat) : Prop :=
    forall i j, i < n -> j < n -> f i = f j -> i = j.

  Definition net_ok (n : nat) (net : list (nat * nat)) : Prop :=
    forall i j, In (i, j) net -> i < n /\ j < n /\ i <> j.

  Lemma netrel_frame f n net l l' :
    netrel f net l l' -> net_ok n net ->
    length l' = length l /\ Permutation l l' /\
    (forall k, (forall i, i < n -> k <> f i) -> nth_error l' k = nth_error l k).
  Proof.
    intros H Hok. induction H as [l|i j net l l1 l2 Hc Hn IH].
    - repeat split; auto.
    - destruct IH as [IH1 [IH2 IH3]].
      { intros a b Hab. apply Hok. right; auto. }
      destruct (Hok i j) as [Hi [Hj _]]; [left; auto|].
      destruct Hc as [x [y [_ [_ [Hl [Hp [Ho _]]]]]]].
      split; [congruence|]. split; [eapply perm_trans; eauto|].
      intros k Hk. rewrite IH3 by auto. apply Ho; auto.
  Qed.

  Section Threshold.
    Variable p : A -> bool.
    Hypothesis up : forall x y, comp y x = false -> p x = true -> p y = true.

    Definition view (f : nat -> nat) (l : list A) (v : list bool) : Prop :=
      forall k b, nth_error v k = Some b ->
                  exists x, nth_error l (f k) = Some x /\ b = p x.

    Lemma view_cx f n i j l l' v :
      inj_on f n -> length v = n -> i < n -> j < n -> i <> j ->
      cxrel (f i) (f j) l l' -> view f l v -> view f l' (bcx i j v).
    Proof.
      intros Hinj Hlv Hi Hj Hne (x & y & Hx & Hy & Hl & Hp & Ho & Hcase) Hv k b.
      unfold bcx.
      destruct (nth_error_ex v i) as [a Ea]; [lia|].
      destruct (nth_error_ex v j) as [c Ec]; [lia|].
      rewrite (nth_error_nth v i false Ea), (nth_error_nth v j false Ec).
      destruct (Hv i a Ea) as [x' [Hx' ->]]. destruct (Hv j c Ec) as [y' [Hy' ->]].
      assert (x' = x) by congruence. assert (y' = y) by congruence. subst x' y'.
      rewrite !nth_error_upd, !upd_length.
      rewrite (proj2 (Nat.ltb_lt i _)), (proj2 (Nat.ltb_lt j _)), !andb_true_r by lia.
      destruct (Nat.eqb_spec k j) as [->|Hkj]; [|destruct (Nat.eqb_spec k i) as [->|Hki]].
      - intros E; inv E. destruct Hcase as [[_ [E C]]|[_ [E C]]].
        + exists y. split; auto. destruct (p x) eqn:Px; auto. symmetry. eauto.
        + exists x. split; auto. destruct (p x) eqn:Px; auto.
          destruct (p y) eqn:Py; auto. rewrite (up y x) in Px; auto.
      - intros E; inv E. destruct Hcase as [[E [_ C]]|[E [_ C]]].
        + exists x. split; auto. destruct (p x) eqn:Px; auto. simpl. eauto.
        + exists y. split; auto. destruct (p x) eqn:Px; auto.
          destruct (p y) eqn:Py; auto. rewrite (up y x) in Px; auto.
      - intros E. destruct (Hv k b E) as [z [Hz ->]]. exists z. split; auto.
        assert (k < n) by (rewrite <- Hlv; eapply nth_error_some_lt; eauto).
        rewrite Ho; auto; intros F; apply Hinj in F; auto.
    Qed.

    Lemma view_net f n net l l' :
      inj_on f n -> net_ok n net -> netrel f net l l' ->
      forall v, length v = n -> view f l v -> view f l' (brun net v).
    Proof.
      intros Hinj Hok H. induction H as [l|i j net l l1 l2 Hc Hn IH]; intros v Hlv Hv.
      - exact Hv.
      - cbn [brun fold_left]. destruct (Hok i j) as [Hi [Hj Hij]]; [left; auto|].
        apply IH.
        + intros a b Hab. apply Hok. right; auto.
        + rewrite bcx_length; auto.
        + eapply view_cx; eauto.
    Qed.
  End Threshold.

  Lemma brun_length net v : length (brun net v) = length v.
  Proof.
    revert v; induction net as [|[i j] net IH]; intros v; auto.
    cbn [brun fold_left]. fold (brun net (bcx i j v)). rewrite IH. apply bcx_length.
  Qed.

  (** A checked network sorts the positions [f 0 < ... < f (n-1)] name. *)
  Lemma netrel_sorts f n net l l' :
    netcheck n net = true -> inj_on f n ->
    (forall k, k < n -> f k < length l) ->
    netrel f net l l' ->
    forall i j x y, i < j -> j < n ->
      nth_error l' (f i) = Some x -> nth_error l' (f j) = Some y -> comp y x = false.
  Proof.
    intros Hck Hinj Hb Hr i j x y Hij Hj Hx Hy.
    pose (p := fun z => negb (comp z x)).
    assert (up : forall a b, comp b a = false -> p a = true -> p b = true).
    { intros a b H1 H2. unfold p in *. apply negb_true_iff in H2. apply negb_true_iff.
      eapply swo_neg_trans; eauto. }
    (* the boolean image of the gathered input *)
    assert (Hv : exists v, length v = n /\ view p f l v).
    { clear - Hb. induction n as [|n IH].
      - exists []. split; auto. intros [|k] b H; discriminate.
      - destruct IH as [v [H1 H2]]; [intros k Hk; apply Hb; lia|].
        destruct (nth_error_ex l (f n)) as [z Hz]; [apply Hb; lia|].
        exists (v ++ [p z]). split; [rewrite app_length; simpl; lia|].
        intros k b H. destruct (lt_dec k (length v)) as [Hk|Hk].
        + rewrite nth_error_app1 in H by auto. eauto.
        + rewrite nth_error_app2 in H by lia.
          assert (k - length v = 0).
          { apply nth_error_some_lt in H. simpl in H. lia. }
          rewrite H0 in H. simpl in H. inv H.
          exists z. replace k with (length v) by lia. auto. }
    destruct Hv as [v [Hlv Hv]].
    assert (Hok : net_ok n net).
    { intros a b Hab. unfold netcheck in Hck. apply andb_prop in Hck as [Hc _].
      rewrite forallb_forall in Hc. specialize (Hc _ Hab). cbn [fst snd] in Hc.
      apply andb_prop in Hc as [Hc H3]. apply andb_prop in Hc as [H1 H2].
      apply Nat.ltb_lt in H1, H2. apply negb_true_iff, Nat.eqb_neq in H3. auto. }
    pose proof (view_net p up f n net l l' Hinj Hok Hr v Hlv Hv) as Hv'.
    pose proof (netcheck_brun n net v Hck Hlv) as Hs.
    assert (Hlen : length (brun net v) = n) by (rewrite brun_length; auto).
    destruct (nth_error_ex (brun net v) i) as [bi Ei]; [lia|].
    destruct (nth_error_ex (brun net v) j) as [bj Ej]; [lia|].
    destruct (Hv' i bi Ei) as [x' [Hx' Hbi]]. destruct (Hv' j bj Ej) as [y' [Hy' Hbj]].
    assert (x' = x) by congruence. assert (y' = y) by congruence. subst x' y' bi bj.
    assert (Px : p x = true) by (unfold p; rewrite (swo_irrefl _ SW); reflexivity).
    rewrite Px in Ei. specialize (Hs i j _ Hij Ei Ej).
    unfold p in Hs. apply negb_true_iff in Hs. exact Hs.
  Qed.

  Lemma netcheck_net_ok n net : netcheck n net = true -> net_ok n net.
  Proof.
    intros Hck a b Hab. unfold netcheck in Hck. apply andb_prop in Hck as [Hc _].
    rewrite forallb_forall in Hc. specialize (Hc _ Hab). cbn [fst snd] in Hc.
    apply andb_prop in Hc as [Hc H3]. apply andb_prop in Hc as [H1 H2].
    apply Nat.ltb_lt in H1, H2. apply negb_true_iff, Nat.eqb_neq in H3. auto.
  Qed.

  Lemma run_net_rel first n net : net_ok n net ->
    forall l, first + n <= length l ->
    exists l', run_net comp first net l = Ok l' /\ netrel (fun i => first + i) net l l'.
  Proof.
    induction net as [|[i j] net IH]; intros Hok l Hl.
    - exists l. split; constructor.
    - destruct (Hok i j) as [Hi [Hj Hij]]; [left; auto|].
      cbn [run_net].
      destruct (swap_if_cx (first + i) (first + j) l) as [l1 [E Hc]]; try lia.
      rewrite E; cbn [bind].
      destruct (IH (fun a b H => Hok a b (or_intror H)) l1) as [l2 [E2 H2]].
      { destruct Hc as (_ & _ & _ & _ & Hlen & _). lia. }
      exists l2. split; auto. econstructor; eauto.
  Qed.

  Lemma run_net2_rel its n net : net_ok n net -> inj_on its n ->
    forall l, (forall k, k < n -> its k < length l) ->
    exists c l', run_net2 comp its net l = Ok (c, l') /\ netrel its net l l'.
  Proof.
    induction net as [|[i j] net IH]; intros Hok Hinj l Hl.
    - exists 0, l. split; constructor.
    - destruct (Hok i j) as [Hi [Hj Hij]]; [left; auto|].
      cbn [run_net2].
      destruct (swap_if2_cx (its i) (its j) l) as [c [l1 [E Hc]]]; auto.
      rewrite E; cbn [bind].
      destruct (IH (fun a b H => Hok a b (or_intror H)) Hinj l1) as [c2 [l2 [E2 H2]]].
      { destruct Hc as (_ & _ & _ & _ & Hlen & _). rewrite Hlen. auto. }
      rewrite E2; cbn [bind]. exists (c + c2), l2. split; auto. econstructor; eauto.
  Qed.

  (** Array form: a checked network of size [n] sorts the window [first, first+n). *)
  Lemma run_net_window n net first l :
    netcheck n net = true -> first + n <= length l ->
    exists l', run_net comp first net l = Ok l' /\
      length l' = length l /\ Permutation l l' /\
      same_outside first (first + n) l l' /\
      (forall i j x y, first <= i -> i < j -> j < first + n ->
         nth_error l' i = Some x -> nth_error l' j = Some y -> comp y x = false).
  Proof.
    intros Hck Hl.
    pose proof (netcheck_net_ok n net Hck) as Hok.
    destruct (run_net_rel first n net Hok l Hl) as [l' [E Hr]].
    exists l'. split; auto.
    destruct (netrel_frame _ n _ _ _ Hr Hok) as [H1 [H2 H3]].
    split; auto. split; auto. split.
    - intros k Hk. apply H3. intros i Hi. lia.
    - intros i j x y H4 H5 H6 Hx Hy.
      assert (Hinj : inj_on (fun i => first + i) n) by (intros a b _ _ Hab; lia).
      assert (Hb : forall k, k < n -> first + k < length l) by (intros k Hk; lia).
      refine (netrel_sorts (fun i => first + i) n net l l' Hck Hinj Hb Hr
                (i - first) (j - first) x y _ _ _ _); try lia; cbn beta.
      + replace (first + (i - first)) with i by lia. auto.
      + replace (first + (j - first)) with j by lia. auto.
  Qed.

  (** List form. *)
  Lemma run_net_sorts n net pre mid post :
    netcheck n net = true -> length mid = n ->
    exists mid', run_net comp (length pre) net (pre ++ mid ++ post) = Ok (pre ++ mid' ++ post) /\
      Permutation mid mid' /\ sorted_by comp mid'.
  Proof.
    intros Hck Hm.
    destruct (run_net_window n net (length pre) (pre ++ mid ++ post) Hck) as
        [l' [E [Hlen [Hp [Hs Hsort]]]]].
    { rewrite !app_length. lia. }
    rewrite <- Hm in Hs. destruct (frame_split pre mid post l' Hs Hp) as [mid' [-> Hp']].
    exists mid'. split; auto. split; auto.
    apply sorted_by_nth. intros i j x y Hij Hi Hj.
    pose proof (Permutation_length Hp') as Hl'.
    pose proof (nth_error_some_lt _ _ _ Hj).
    apply (Hsort (length pre + i) (length pre + j)); try lia.
    - rewrite nth_error_app2 by lia. rewrite nth_error_app1 by lia.
      rewrite <- Hi. f_equal. lia.
    - rewrite nth_error_app2 by lia. rewrite nth_error_app1 by lia.
      rewrite <- Hj. f_equal. lia.
  Qed.
End ZeroOne.
