From Verif Require Import Common CommonProofs SpecAlg AlgSearch AlgSearchProofs AlgCompare.

Section Two.
  Context {A B : Type}.

  Lemma pointwise_nil (R : A -> B -> bool) : pointwise R [] [].
  Proof. split; auto. intros [|k]; discriminate. Qed.

  Lemma pointwise_cons (R : A -> B -> bool) x y l1 l2 :
    pointwise R (x :: l1) (y :: l2) <-> R x y = true /\ pointwise R l1 l2.
  Proof.
    split.
    - intros [H1 H2]. split; [apply (H2 0); auto|]. split; [cbn in *; lia|].
      intros k a b Ha Hb. apply (H2 (S k)); auto.
    - intros [H [H1 H2]]. split; [cbn; lia|].
      intros [|k] a b Ha Hb; cbn in Ha, Hb; [congruence|eauto].
  Qed.

  Lemma equal_spec (comp : A -> B -> bool) : forall l1 l2,
    equal comp l1 l2 = true <-> pointwise comp l1 l2.
  Proof.
    induction l1 as [|x t1 IH]; intros [|y t2]; cbn [equal].
    - split; auto. intros _. apply pointwise_nil.
    - split; [discriminate|]. intros [H _]. discriminate.
    - split; [discriminate|]. intros [H _]. discriminate.
    - rewrite pointwise_cons. destruct (comp x y).
      + rewrite IH. tauto.
      + split; [discriminate|]. intros [H _]. auto.
  Qed.

  Lemma not_equal_spec (neq : A -> B -> bool) : forall l1 l2,
    not_equal neq l1 l2 = true <-> pointwise neq l1 l2.
  Proof.
    intros l1 l2. rewrite <- equal_spec. reflexivity.
  Qed.

  Lemma equal3_spec (eqb : A -> B -> bool) : forall l1 l2, length l1 <= length l2 ->
    exists b, equal3 eqb l1 l2 = Ok b /\
      (b = true <-> pointwise eqb l1 (firstn (length l1) l2)).
  Proof.
    induction l1 as [|x t1 IH]; intros l2 Hl; cbn [equal3 length firstn].
    - exists true. split; auto. split; auto. intros _. apply pointwise_nil.
    - destruct l2 as [|y t2]; [cbn in Hl; lia|]. cbn [firstn].
      pose proof (pointwise_cons eqb x y t1 (firstn (length t1) t2)) as PC.
      destruct (eqb x y).
      + destruct (IH t2) as (b & E & Hb); [cbn in Hl; lia|].
        exists b. split; auto. rewrite PC, Hb. tauto.
      + exists false. split; auto. rewrite PC. split; [discriminate|]. intros [H _]. auto.
  Qed.

  Lemma not_equal3_spec (neqb : A -> B -> bool) : forall l1 l2, length l1 <= length l2 ->
    exists b, not_equal3 neqb l1 l2 = Ok b /\
      (b = true <-> pointwise neqb l1 (firstn (length l1) l2)).
  Proof.
    intros l1 l2. exact (equal3_spec neqb l1 l2).
  Qed.
End Two.

Section Lex.
  Context {A : Type} (comp : A -> A -> bool).

  Lemma precedes_nil_l y t : precedes comp [] (y :: t).
  Proof. exists 0. split; [intros; lia|]. left. cbn. lia. Qed.

  Lemma precedes_nil_r l : ~ precedes comp l [].
  Proof.
    intros (n & _ & [[_ H]|(x & y & _ & H & _)]); [cbn in H; lia|].
    destruct n; discriminate.
  Qed.

  Lemma precedes_cons x y l1 l2 :
    precedes comp (x :: l1) (y :: l2) <->
    comp x y = true \/ (equivalent comp x y /\ precedes comp l1 l2).
  Proof.
    split.
    - intros (n & Hn & H). destruct n as [|n].
      + destruct H as [[H _]|(a & b & Ha & Hb & C)]; [discriminate|].
        cbn in Ha, Hb. inv Ha. inv Hb. auto.
      + right. split; [apply (Hn 0); cbn; auto; lia|].
        exists n. split.
        * intros k a b Hk Ha Hb. apply (Hn (S k)); auto. lia.
        * destruct H as [[H1 H2]|H]; [left; cbn in *; lia|right; exact H].
    - intros [C|[E (n & Hn & H)]].
      + exists 0. split; [intros; lia|]. right. exists x, y. auto.
      + exists (S n). split.
        * intros [|k] a b Hk Ha Hb; cbn in Ha, Hb.
          -- inv Ha. inv Hb. auto.
          -- apply (Hn k); auto. lia.
        * destruct H as [[H1 H2]|H]; [left; cbn in *; lia|right; exact H].
  Qed.

  Lemma lex_spec : (forall x y, comp x y = true -> comp y x = false) ->
    forall l1 l2, lexicographical_compare comp l1 l2 = true <-> precedes comp l1 l2.
  Proof.
    intros AS. induction l1 as [|x t1 IH]; intros [|y t2]; cbn [lexicographical_compare].
    - split; [discriminate|]. intros H. destruct (precedes_nil_r _ H).
    - split; auto. intros _. apply precedes_nil_l.
    - split; [discriminate|]. intros H. destruct (precedes_nil_r _ H).
    - rewrite precedes_cons. unfold equivalent.
      destruct (comp x y) eqn:C1; [tauto|]. destruct (comp y x) eqn:C2.
      + split; [discriminate|]. intros [H|[[_ H] _]]; discriminate.
      + rewrite IH. split; auto. intros [H|[_ H]]; [discriminate|auto].
  Qed.

  Lemma compare_range_spec eqb :
    (forall x y, comp x y = true -> comp y x = false) ->
    (forall x y, eqb x y = true <-> equivalent comp x y) ->
    forall l1 l2,
      (compare_range comp eqb l1 l2 = (-1)%Z <-> precedes comp l1 l2) /\
      (compare_range comp eqb l1 l2 = 1%Z <-> precedes comp l2 l1) /\
      (compare_range comp eqb l1 l2 = 0%Z <-> pointwise eqb l1 l2).
  Proof.
    intros AS EQ. induction l1 as [|x t1 IH]; intros [|y t2]; cbn [compare_range].
    - repeat split; try discriminate; try (intros H; destruct (precedes_nil_r _ H)).
      intros [|k]; discriminate.
    - repeat split; try discriminate; try (intros H; destruct (precedes_nil_r _ H)).
      + intros _. apply precedes_nil_l.
      + intros [H _]. discriminate.
    - repeat split; try discriminate; try (intros H; destruct (precedes_nil_r _ H)).
      + intros _. apply precedes_nil_l.
      + intros [H _]. discriminate.
    - rewrite !precedes_cons, pointwise_cons. specialize (EQ x y).
      destruct (eqb x y) eqn:E; cbn [negb].
      + destruct EQ as [EQ _]. destruct (EQ eq_refl) as [E1 E2].
        destruct (IH t2) as (H1 & H2 & H3). rewrite H1, H2, H3.
        unfold equivalent. rewrite E1, E2. intuition congruence.
      + assert (NE : ~ equivalent comp x y) by (intros X; apply EQ in X; discriminate).
        unfold equivalent in *. destruct (comp x y) eqn:C.
        * pose proof (AS _ _ C) as C'. rewrite C'. intuition (try discriminate; try congruence).
        * destruct (comp y x) eqn:C'; [|tauto]. intuition (try discriminate; try congruence).
  Qed.

  Context (SW : strict_weak comp).

  Lemma lex_irrefl l : lexicographical_compare comp l l = false.
  Proof.
    induction l as [|x t IH]; cbn; auto. rewrite (swo_irrefl _ SW). auto.
  Qed.

  Lemma lex_trans : forall l1 l2 l3,
    lexicographical_compare comp l1 l2 = true -> lexicographical_compare comp l2 l3 = true ->
    lexicographical_compare comp l1 l3 = true.
  Proof.
    induction l1 as [|x t1 IH]; intros [|y t2] [|z t3]; cbn; auto; try discriminate.
    destruct (comp x y) eqn:C1; [|destruct (comp y x) eqn:C2; [discriminate|]];
      (destruct (comp y z) eqn:C3; [|destruct (comp z y) eqn:C4; [discriminate|]]); intros H1 H2.
    - rewrite (swo_trans _ SW x y z); auto.
    - rewrite (swo_lt_le comp SW x y z); auto.
    - rewrite (swo_le_lt comp SW x y z); auto.
    - destruct (swo_incomp _ SW x y z) as [-> ->]; eauto.
  Qed.

  Lemma lex_incomp : forall l1 l2,
    lexicographical_compare comp l1 l2 = false /\ lexicographical_compare comp l2 l1 = false <->
    Forall2 (equivalent comp) l1 l2.
  Proof.
    induction l1 as [|x t1 IH]; intros [|y t2]; cbn.
    - split; auto.
    - split; [intros [H _]; discriminate|]. intros H. inv H.
    - split; [intros [_ H]; discriminate|]. intros H. inv H.
    - split.
      + destruct (comp x y) eqn:C1, (comp y x) eqn:C2; intros [H1 H2]; try discriminate.
        constructor; [split; auto|]. apply IH. auto.
      + intros H. inv H. destruct H3 as [-> ->]. apply IH; auto.
  Qed.

  Lemma lex_strict_weak : strict_weak (lexicographical_compare comp).
  Proof.
    constructor.
    - apply lex_irrefl.
    - apply lex_trans.
    - intros l1 l2 l3 H1 H2 H3 H4. apply lex_incomp.
      assert (E1 : Forall2 (equivalent comp) l1 l2) by (apply lex_incomp; auto).
      assert (E2 : Forall2 (equivalent comp) l2 l3) by (apply lex_incomp; auto).
      clear - E1 E2 SW. revert l3 E2. induction E1 as [|x y t1 t2 Hxy _ IH]; intros l3 E2; inv E2.
      + constructor.
      + constructor; auto. destruct Hxy, H1. apply (swo_incomp _ SW x y y0); auto.
  Qed.
End Lex.

Section MinMax.
  Context {A : Type} (comp : A -> A -> bool) (SW : strict_weak comp).

  (** Extremes of the first [n] elements. *)
  Let mnof (l : list A) p n := exists m, nth_error l p = Some m /\ p < n /\
    (forall k x, k < n -> nth_error l k = Some x -> comp x m = false) /\
    (forall k x, k < p -> nth_error l k = Some x -> comp m x = true).
  Let mxof (l : list A) p n := exists m, nth_error l p = Some m /\ p < n /\
    (forall k x, k < n -> nth_error l k = Some x -> comp m x = false) /\
    (forall k x, p < k < n -> nth_error l k = Some x -> comp x m = true).
  Let lgof (l : list A) p n := exists m, nth_error l p = Some m /\ p < n /\
    (forall k x, k < n -> nth_error l k = Some x -> comp m x = false) /\
    (forall k x, k < p -> nth_error l k = Some x -> comp x m = true).

  Lemma max_element_loop_spec l : forall fuel largest first,
    first <= length l -> length l - first < fuel -> lgof l largest first ->
    exists p, max_element_loop fuel comp largest first (length l) l = Ok p /\ lgof l p (length l).
  Proof.
    induction fuel as [|fuel IH]; intros largest first H1 H2 H3; [lia|].
    cbn [max_element_loop]. destruct (Nat.eqb_spec first (length l)) as [->|Hne]; [eauto|].
    destruct H3 as (m & Em & Hp & Hmax & Hfst).
    rewrite (rd_some _ _ _ Em). cbn [bind].
    destruct (rd_ok l first) as (x & R & E); [lia|]. rewrite R. cbn [bind].
    apply IH; try lia. destruct (comp m x) eqn:C.
    - exists x. split; auto. split; [lia|]. split.
      + intros k y Hk Hy. destruct (Nat.eq_dec k first) as [->|].
        * rewrite E in Hy. inv Hy. apply (swo_irrefl _ SW).
        * apply (swo_neg_trans comp SW x m y).
          -- apply (swo_asym comp SW); auto.
          -- apply (Hmax k); auto. lia.
      + intros k y Hk Hy. assert (comp m y = false) by (apply (Hmax k); auto; lia).
        apply (swo_le_lt comp SW y m x); auto.
    - exists m. split; auto. split; [lia|]. split; auto.
      intros k y Hk Hy. destruct (Nat.eq_dec k first) as [->|]; [congruence|].
      apply (Hmax k); auto. lia.
  Qed.

  Lemma max_element_spec l : l <> [] ->
    exists p, max_element comp l = Ok p /\ first_largest comp l p.
  Proof.
    intros Hne. unfold max_element. destruct l as [|x t]; [congruence|].
    destruct (Nat.eqb_spec 0 (length (x :: t))) as [H|_]; [discriminate|].
    destruct (max_element_loop_spec (x :: t) (S (length (x :: t))) 0 1) as (p & E & m & H1 & H2 & H3 & H4);
      try (cbn; lia).
    - exists x. split; auto. split; [lia|]. split; [|intros; lia].
      intros [|k] y Hk Hy; [|lia]. cbn in Hy. inv Hy. apply (swo_irrefl _ SW).
    - exists p. split; auto. exists m. split; auto. split; auto.
      intros k y Hy. apply (H3 k); auto. eapply nth_error_some_lt; eauto.
  Qed.

  Lemma minmax_loop_spec l : forall fuel mn mx first,
    first <= length l -> length l - first < fuel -> mnof l mn first -> mxof l mx first ->
    exists p q, minmax_loop fuel comp mn mx first (length l) l = Ok (p, q) /\
      mnof l p (length l) /\ mxof l q (length l).
  Proof.
    induction fuel as [|fuel IH]; intros mn mx first H1 H2 Hmn Hmx; [lia|].
    cbn [minmax_loop]. destruct (Nat.eqb_spec first (length l)) as [->|Hne]; [eauto|].
    destruct (rd_ok l first) as (vi & R & E); [lia|].
    pose proof Hmn as Hmn0. pose proof Hmx as Hmx0.
    destruct Hmn as (vmn & Emn & Lmn & Amn & Bmn).
    destruct Hmx as (vmx & Emx & Lmx & Amx & Bmx).
    cbv zeta. rewrite R, (rd_some _ _ _ Emn), (rd_some _ _ _ Emx). cbn [bind].
    assert (Hle : comp vmx vmn = false) by eauto.
    destruct (Nat.eqb_spec (S first) (length l)) as [Hl|Hl].
    - rewrite <- Hl. destruct (comp vi vmn) eqn:C; [|destruct (comp vi vmx) eqn:C2]; cbn [negb].
      + exists first, mx. split; auto. split.
        * exists vi. split; auto. split; [lia|]. split.
          -- intros k y Hk Hy. destruct (Nat.eq_dec k first) as [->|].
             ++ rewrite E in Hy. inv Hy. apply (swo_irrefl _ SW).
             ++ apply (swo_neg_trans comp SW y vmn vi).
                ** apply (Amn k); auto. lia.
                ** apply (swo_asym comp SW); auto.
          -- intros k y Hk Hy. apply (swo_lt_le comp SW vi vmn y); auto. apply (Amn k); auto.
        * assert (C2 : comp vi vmx = true) by (apply (swo_lt_le comp SW vi vmn vmx); auto).
          exists vmx. split; auto. split; [lia|]. split.
          -- intros k y Hk Hy. destruct (Nat.eq_dec k first) as [->|].
             ++ rewrite E in Hy. inv Hy. apply (swo_asym comp SW); auto.
             ++ apply (Amx k); auto. lia.
          -- intros k y Hk Hy. destruct (Nat.eq_dec k first) as [->|]; [congruence|].
             apply (Bmx k); auto. lia.
      + exists mn, mx. split; auto. split.
        * exists vmn. split; auto. split; [lia|]. split; auto.
          intros k y Hk Hy. destruct (Nat.eq_dec k first) as [->|]; [congruence|].
          apply (Amn k); auto. lia.
        * exists vmx. split; auto. split; [lia|]. split.
          -- intros k y Hk Hy. destruct (Nat.eq_dec k first) as [->|].
             ++ rewrite E in Hy. inv Hy. apply (swo_asym comp SW); auto.
             ++ apply (Amx k); auto. lia.
          -- intros k y Hk Hy. destruct (Nat.eq_dec k first) as [->|]; [congruence|].
             apply (Bmx k); auto. lia.
      + exists mn, first. split; auto. split.
        * exists vmn. split; auto. split; [lia|]. split; auto.
          intros k y Hk Hy. destruct (Nat.eq_dec k first) as [->|]; [congruence|].
          apply (Amn k); auto. lia.
        * exists vi. split; auto. split; [lia|]. split; [|intros; lia].
          intros k y Hk Hy. destruct (Nat.eq_dec k first) as [->|].
          -- rewrite E in Hy. inv Hy. apply (swo_irrefl _ SW).
          -- apply (swo_neg_trans comp SW vi vmx y); auto. apply (Amx k); auto. lia.
    - destruct (rd_ok l (S first)) as (vf & Rf & Ef); [lia|]. rewrite Rf. cbn [bind].
      assert (Hcase : forall k (P : Prop), k < S (S first) -> (k < first -> P) -> (k = first -> P) ->
                (k = S first -> P) -> P).
      { intros k P Hk Pa Pb Pc.
        destruct (lt_eq_lt_dec k first) as [[Hx|Hx]|Hx]; auto. apply Pc. lia. }
      destruct (comp vf vi) eqn:C; apply IH; try lia.
      + destruct (comp vf vmn) eqn:C2.
        * exists vf. split; auto. split; [lia|]. split.
          -- intros k y Hk Hy. apply (Hcase k); auto; intros Hkk.
             ++ apply (swo_neg_trans comp SW y vmn vf).
                ** apply (Amn k); auto.
                ** apply (swo_asym comp SW); auto.
             ++ subst k. rewrite E in Hy. inv Hy. apply (swo_asym comp SW); auto.
             ++ subst k. rewrite Ef in Hy. inv Hy. apply (swo_irrefl _ SW).
          -- intros k y Hk Hy. destruct (Nat.eq_dec k first) as [->|]; [congruence|].
             apply (swo_lt_le comp SW vf vmn y); auto. apply (Amn k); auto. lia.
        * exists vmn. split; auto. split; [lia|]. split; auto.
          intros k y Hk Hy. apply (Hcase k); auto; intros Hkk.
          -- apply (Amn k); auto.
          -- subst k. rewrite E in Hy. inv Hy. destruct (comp y vmn) eqn:X; auto.
             rewrite (swo_trans _ SW vf y vmn) in C2; auto.
          -- subst k. congruence.
      + destruct (comp vi vmx) eqn:C2; cbn [negb].
        * exists vmx. split; auto. split; [lia|]. split.
          -- intros k y Hk Hy. apply (Hcase k); auto; intros Hkk.
             ++ apply (Amx k); auto.
             ++ subst k. rewrite E in Hy. inv Hy. apply (swo_asym comp SW); auto.
             ++ subst k. rewrite Ef in Hy. inv Hy. apply (swo_asym comp SW).
                apply (swo_trans _ SW y vi vmx); auto.
          -- intros k y Hk Hy. apply (Hcase k); try lia; intros Hkk.
             ++ apply (Bmx k); auto. lia.
             ++ subst k. congruence.
             ++ subst k. rewrite Ef in Hy. inv Hy. apply (swo_trans _ SW y vi vmx); auto.
        * exists vi. split; auto. split; [lia|]. split.
          -- intros k y Hk Hy. apply (Hcase k); auto; intros Hkk.
             ++ apply (swo_neg_trans comp SW vi vmx y); auto. apply (Amx k); auto.
             ++ subst k. rewrite E in Hy. inv Hy. apply (swo_irrefl _ SW).
             ++ subst k. rewrite Ef in Hy. inv Hy. apply (swo_asym comp SW); auto.
          -- intros k y Hk Hy. assert (k = S first) by lia. subst k. congruence.
      + destruct (comp vi vmn) eqn:C2.
        * exists vi. split; auto. split; [lia|]. split.
          -- intros k y Hk Hy. apply (Hcase k); auto; intros Hkk.
             ++ apply (swo_neg_trans comp SW y vmn vi).
                ** apply (Amn k); auto.
                ** apply (swo_asym comp SW); auto.
             ++ subst k. rewrite E in Hy. inv Hy. apply (swo_irrefl _ SW).
             ++ subst k. congruence.
          -- intros k y Hk Hy. apply (swo_lt_le comp SW vi vmn y); auto. apply (Amn k); auto.
        * exists vmn. split; auto. split; [lia|]. split; auto.
          intros k y Hk Hy. apply (Hcase k); auto; intros Hkk.
          -- apply (Amn k); auto.
          -- subst k. congruence.
          -- subst k. rewrite Ef in Hy. inv Hy. apply (swo_neg_trans comp SW y vi vmn); auto.
      + destruct (comp vf vmx) eqn:C2; cbn [negb].
        * assert (C3 : comp vi vmx = true) by (apply (swo_le_lt comp SW vi vf vmx); auto).
          exists vmx. split; auto. split; [lia|]. split.
          -- intros k y Hk Hy. apply (Hcase k); auto; intros Hkk.
             ++ apply (Amx k); auto.
             ++ subst k. rewrite E in Hy. inv Hy. apply (swo_asym comp SW); auto.
             ++ subst k. rewrite Ef in Hy. inv Hy. apply (swo_asym comp SW); auto.
          -- intros k y Hk Hy. apply (Hcase k); try lia; intros Hkk.
             ++ apply (Bmx k); auto. lia.
             ++ subst k. congruence.
             ++ subst k. congruence.
        * exists vf. split; auto. split; [lia|]. split; [|intros; lia].
          intros k y Hk Hy. apply (Hcase k); auto; intros Hkk.
          -- apply (swo_neg_trans comp SW vf vmx y); auto. apply (Amx k); auto.
          -- subst k. rewrite E in Hy. inv Hy. auto.
          -- subst k. rewrite Ef in Hy. inv Hy. apply (swo_irrefl _ SW).
  Qed.

  Lemma minmax_element_spec l : l <> [] ->
    exists p q, minmax_element comp l = Ok (p, q) /\
      first_smallest comp l p /\ last_largest comp l q.
  Proof.
    intros Hne. destruct l as [|x t]; [congruence|]. clear Hne.
    destruct t as [|y t].
    - exists 0, 0. split; auto.
      assert (X : forall k z, nth_error [x] k = Some z -> z = x).
      { intros [|k] z Hz; cbn in Hz; [congruence|]. destruct k; discriminate. }
      split; exists x; (split; [reflexivity|]); split.
      + intros k z Hz. rewrite (X k z Hz). apply (swo_irrefl _ SW).
      + intros; lia.
      + intros k z Hz. rewrite (X k z Hz). apply (swo_irrefl _ SW).
      + intros k z Hk Hz. apply nth_error_some_lt in Hz. cbn in Hz. lia.
    - set (l := x :: y :: t).
      assert (G : exists p q, minmax_element comp l = Ok (p, q) /\
                mnof l p (length l) /\ mxof l q (length l)).
      { unfold minmax_element. cbv zeta.
        destruct (Nat.eqb_spec 0 (length l)) as [H|_]; [discriminate|].
        destruct (Nat.eqb_spec 1 (length l)) as [H|_]; [discriminate|].
        replace (rd l 1) with (Ok y) by reflexivity. replace (rd l 0) with (Ok x) by reflexivity.
        cbn [bind].
        assert (X : forall k z, k < 2 -> nth_error l k = Some z -> (k = 0 /\ z = x) \/ (k = 1 /\ z = y)).
        { intros [|[|k]] z Hk Hz; cbn in Hz; try lia; inv Hz; auto. }
        destruct (comp y x) eqn:C; apply minmax_loop_spec; try (cbn; lia).
        - exists y. split; [reflexivity|]. split; [lia|]. split.
          + intros k z Hk Hz. destruct (X k z Hk Hz) as [[_ ->]|[_ ->]].
            * apply (swo_asym comp SW); auto.
            * apply (swo_irrefl _ SW).
          + intros k z Hk Hz. destruct (X k z ltac:(lia) Hz) as [[_ ->]|[-> _]]; auto. lia.
        - exists x. split; [reflexivity|]. split; [lia|]. split.
          + intros k z Hk Hz. destruct (X k z Hk Hz) as [[_ ->]|[_ ->]].
            * apply (swo_irrefl _ SW).
            * apply (swo_asym comp SW); auto.
          + intros k z Hk Hz. destruct (X k z ltac:(lia) Hz) as [[-> _]|[_ ->]]; auto. lia.
        - exists x. split; [reflexivity|]. split; [lia|]. split; [|intros; lia].
          intros k z Hk Hz. destruct (X k z Hk Hz) as [[_ ->]|[_ ->]]; auto.
          apply (swo_irrefl _ SW).
        - exists y. split; [reflexivity|]. split; [lia|]. split; [|intros; lia].
          intros k z Hk Hz. destruct (X k z Hk Hz) as [[_ ->]|[_ ->]]; auto.
          apply (swo_irrefl _ SW). }
      destruct G as (p & q & E & (m & P1 & P2 & P3 & P4) & (M & Q1 & Q2 & Q3 & Q4)).
      exists p, q. split; auto. split.
      + exists m. split; auto. split; auto. intros k z Hz. apply (P3 k); auto.
        eapply nth_error_some_lt; eauto.
      + exists M. split; auto. split.
        * intros k z Hz. apply (Q3 k); auto. eapply nth_error_some_lt; eauto.
        * intros k z Hk Hz. apply (Q4 k); auto. split; auto. eapply nth_error_some_lt; eauto.
  Qed.

  Lemma minmax_item_spec a b :
    let '(mn, mx) := minmax_item comp a b in
    Permutation [a; b] [mn; mx] /\ comp mx mn = false.
  Proof.
    unfold minmax_item. destruct (comp b a) eqn:C; split; auto.
    - apply perm_swap.
    - apply (swo_asym comp SW); auto.
  Qed.
End MinMax.

Section Sorted.
  Context {A : Type} (comp : A -> A -> bool).

  Lemma is_sorted_until_loop_spec : forall l x,
    let r := is_sorted_until_loop comp x l in
    1 <= r <= S (length l) /\
    (forall k a b, S k < r -> nth_error (x :: l) k = Some a -> nth_error (x :: l) (S k) = Some b ->
       comp b a = false) /\
    (r < S (length l) ->
       exists a b, nth_error (x :: l) (r - 1) = Some a /\ nth_error (x :: l) r = Some b /\
                   comp b a = true).
  Proof.
    induction l as [|y t IH]; intros x; cbn [is_sorted_until_loop length]; cbv zeta.
    - split; [lia|]. split; [intros; lia|]. intros; lia.
    - destruct (comp y x) eqn:C.
      + split; [lia|]. split; [intros; lia|]. intros _. exists x, y. auto.
      + destruct (IH y) as (H1 & H2 & H3). split; [lia|]. split.
        * intros [|k] a b Hk Ha Hb.
          -- cbn in Ha, Hb. congruence.
          -- apply (H2 k a b); auto. lia.
        * intros Hr. destruct H3 as (a & b & Ha & Hb & Hp); [lia|]. exists a, b.
          split; auto. destruct (is_sorted_until_loop comp y t) as [|r]; [lia|].
          cbn [Nat.sub] in *. rewrite Nat.sub_0_r in *. exact Ha.
  Qed.

  (** Adjacent order is enough for a strict weak ordering. *)
  Lemma adjacent_sorted : strict_weak comp -> forall l,
    (forall k a b, nth_error l k = Some a -> nth_error l (S k) = Some b -> comp b a = false) ->
    sorted_by comp l.
  Proof.
    intros SW l H. apply Sorted_StronglySorted.
    - intros a b c Hab Hbc. eapply (swo_neg_trans comp SW); eauto.
    - induction l as [|x l IH]; constructor.
      + apply IH. intros k a b Ha Hb. apply (H (S k)); auto.
      + destruct l as [|y l]; constructor. apply (H 0); auto.
  Qed.

  Lemma is_sorted_until_spec : strict_weak comp -> forall l,
    let r := is_sorted_until comp l in
    r <= length l /\ sorted_by comp (firstn r l) /\
    (forall r', r < r' -> r' <= length l -> ~ sorted_by comp (firstn r' l)).
  Proof.
    intros SW [|x t]; cbn [is_sorted_until]; cbv zeta.
    - cbn. split; auto. split; [constructor|]. intros; lia.
    - destruct (is_sorted_until_loop_spec t x) as (H1 & H2 & H3).
      set (r := is_sorted_until_loop comp x t) in *. clearbody r.
      split; [cbn; lia|]. split.
      + apply adjacent_sorted; auto. intros k a b Ha Hb.
        rewrite nth_error_firstn in Ha, Hb.
        destruct (Nat.ltb_spec k r); [|discriminate]. destruct (Nat.ltb_spec (S k) r); [|discriminate].
        apply (H2 k); auto.
      + intros r' Hr Hl Hs. cbn [length] in Hl. destruct H3 as (a & b & Ha & Hb & C); [lia|].
        rewrite sorted_by_nth in Hs.
        assert (X : comp b a = false); [|congruence].
        apply (Hs (r - 1) r); [lia| |]; rewrite nth_error_firstn.
        * destruct (Nat.ltb_spec (r - 1) r'); [auto|lia].
        * destruct (Nat.ltb_spec r r'); [auto|lia].
  Qed.

  Lemma is_sorted_spec : strict_weak comp -> forall l,
    is_sorted comp l = true <-> sorted_by comp l.
  Proof.
    intros SW l. unfold is_sorted. rewrite Nat.eqb_eq.
    destruct (is_sorted_until_spec SW l) as (H1 & H2 & H3). split.
    - intros E. rewrite E, firstn_all in H2. auto.
    - intros Hs. destruct (Nat.eq_dec (is_sorted_until comp l) (length l)); auto.
      exfalso. apply (H3 (length l)); auto. lia. rewrite firstn_all. auto.
  Qed.

  Lemma is_sorted_adjacent l :
    is_sorted comp l = true <->
    forall k a b, nth_error l k = Some a -> nth_error l (S k) = Some b -> comp b a = false.
  Proof.
    unfold is_sorted. rewrite Nat.eqb_eq. destruct l as [|x t]; cbn [is_sorted_until].
    - split; auto. intros _ [|k]; discriminate.
    - destruct (is_sorted_until_loop_spec t x) as (H1 & H2 & H3).
      set (r := is_sorted_until_loop comp x t) in *. clearbody r. split.
      + intros E k a b Ha Hb. apply (H2 k); auto. rewrite E. eapply nth_error_some_lt; eauto.
      + intros H. destruct (Nat.eq_dec r (length (x :: t))) as [|Hne]; auto. cbn [length] in Hne.
        destruct H3 as (a & b & Ha & Hb & C); [lia|].
        assert (X : comp b a = false); [|congruence].
        apply (H (r - 1)); auto. replace (S (r - 1)) with r by lia. auto.
  Qed.

  Lemma find_unsorted_loop_spec : forall l x,
    find_unsorted_loop comp x l =
      is_sorted_until_loop comp x l - 1.
  Proof.
    induction l as [|y t IH]; intros x; cbn [find_unsorted_loop is_sorted_until_loop]; auto.
    destruct (comp y x); cbn [negb]; auto. rewrite IH.
    pose proof (is_sorted_until_loop_spec t y) as (H & _). cbv zeta in H. lia.
  Qed.

  (** find_unsorted is the position just before is_sorted_until, or the end. *)
  Lemma find_unsorted_spec l : l <> [] ->
    find_unsorted comp l =
      Ok (if is_sorted_until comp l =? length l then length l else is_sorted_until comp l - 1).
  Proof.
    destruct l as [|x t]; [congruence|]. intros _. cbn [find_unsorted is_sorted_until].
    rewrite find_unsorted_loop_spec.
    pose proof (is_sorted_until_loop_spec t x) as (H & _). cbv zeta in H. cbn [length].
    destruct (Nat.eqb_spec (is_sorted_until_loop comp x t) (S (length t)));
      destruct (Nat.eqb_spec (is_sorted_until_loop comp x t - 1) (S (length t) - 1)); try lia; auto.
  Qed.
End Sorted.

Section AreEqual.
  Context {A : Type} (eqb : A -> A -> bool).

  Lemma are_equal_pairs : forall n vs, length vs <= n ->
    are_equal eqb vs = true <->
    forall k x y, nth_error vs (2 * k) = Some x -> nth_error vs (2 * k + 1) = Some y -> eqb x y = true.
  Proof.
    induction n as [|n IH]; intros vs Hn.
    - destruct vs; [|cbn in Hn; lia]. cbn. split; auto.
      intros _ k x y Hx. destruct (k + (k + 0)); discriminate.
    - destruct vs as [|a [|b vs]].
      + cbn. split; auto. intros _ k x y Hx. destruct (k + (k + 0)); discriminate.
      + split; auto. intros _ k x y _ Hy. replace (2 * k + 1) with (S (2 * k)) in Hy by lia.
        cbn [nth_error] in Hy. destruct (2 * k); discriminate.
      + assert (Step : eqb a b = true /\ are_equal eqb vs = true <-> are_equal eqb (a :: b :: vs) = true).
        { cbn [are_equal]. destruct vs; [cbn; tauto|]. rewrite andb_true_iff. tauto. }
        rewrite <- Step, IH by (cbn in Hn; lia). split.
        * intros [H1 H2] [|k] x y Hx Hy; [cbn in Hx, Hy; congruence|].
          apply (H2 k).
          -- replace (2 * S k) with (S (S (2 * k))) in Hx by lia. auto.
          -- replace (2 * S k + 1) with (S (S (2 * k + 1))) in Hy by lia. auto.
        * intros H. split; [apply (H 0); auto|]. intros k x y Hx Hy. apply (H (S k)).
          -- replace (2 * S k) with (S (S (2 * k))) by lia. auto.
          -- replace (2 * S k + 1) with (S (S (2 * k + 1))) by lia. auto.
  Qed.

  Lemma are_equal_complete vs :
    (forall x y, In x vs -> In y vs -> eqb x y = true) -> are_equal eqb vs = true.
  Proof.
    intros H. apply (are_equal_pairs (length vs)); auto.
    intros k x y Hx Hy. apply H; eapply nth_error_In; eauto.
  Qed.
End AreEqual.
