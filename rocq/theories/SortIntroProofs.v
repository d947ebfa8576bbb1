(** Correctness of the model of daw::sort. *)
From Verif Require Import Common CommonProofs SortNet SortNetProofs SortIntro.

Section Sort.
  Context {A : Type}.
  Variable comp : A -> A -> bool.
  Hypothesis SW : strict_weak comp.
  Implicit Types (l : list A).

  (** Every element of the window [f,t) satisfies [P]. *)
  Definition allw l f t (P : A -> Prop) : Prop :=
    forall k x, f <= k -> k < t -> nth_error l k = Some x -> P x.

  Definition sortedw l f t : Prop :=
    forall i j x y, f <= i -> i < j -> j < t ->
      nth_error l i = Some x -> nth_error l j = Some y -> comp y x = false.

  (** [l'] is a permutation of [l] that only moved elements inside [f,t). *)
  Definition winok f t l l' : Prop :=
    length l' = length l /\ Permutation l l' /\ same_outside f t l l'.

  Lemma winok_refl f t l : winok f t l l.
  Proof. repeat split; auto. Qed.

  Lemma winok_trans f t l1 l2 l3 :
    winok f t l1 l2 -> winok f t l2 l3 -> winok f t l1 l3.
  Proof.
    intros (H1 & H2 & H3) (H4 & H5 & H6). repeat split.
    - congruence.
    - eapply perm_trans; eauto.
    - eapply same_outside_trans; eauto.
  Qed.

  Lemma winok_weaken f t f' t' l l' :
    f' <= f -> t <= t' -> winok f t l l' -> winok f' t' l l'.
  Proof.
    intros Hf Ht (H1 & H2 & H3). repeat split; auto. eapply same_outside_weaken; eauto.
  Qed.

  Lemma winok_length f t l l' : winok f t l l' -> length l' = length l.
  Proof. intros H; apply H. Qed.

  Lemma window_split l f t : f <= t -> t <= length l ->
    exists pre mid post, l = pre ++ mid ++ post /\ length pre = f /\ f + length mid = t.
  Proof.
    intros H1 H2. exists (firstn f l), (firstn (t - f) (skipn f l)), (skipn t l).
    split; [|split].
    - rewrite <- (firstn_skipn f l) at 1. f_equal.
      rewrite <- (firstn_skipn (t - f) (skipn f l)) at 1. f_equal.
      rewrite <- (firstn_skipn f l) at 2.
      rewrite skipn_app, firstn_length.
      rewrite (skipn_all2 (n := t) (firstn f l)) by (rewrite firstn_length; lia).
      cbn [app]. f_equal. lia.
    - rewrite firstn_length. lia.
    - rewrite firstn_length, skipn_length. lia.
  Qed.

  Lemma allw_mid pre mid post P :
    allw (pre ++ mid ++ post) (length pre) (length pre + length mid) P <-> Forall P mid.
  Proof.
    rewrite Forall_forall. split.
    - intros H x Hx. apply In_nth_error in Hx as [n Hn].
      pose proof (nth_error_some_lt _ _ _ Hn).
      apply (H (length pre + n) x); try lia.
      rewrite nth_error_app2 by lia. rewrite nth_error_app1 by lia.
      rewrite <- Hn. f_equal. lia.
    - intros H k x H1 H2 Hk. apply H.
      rewrite nth_error_app2 in Hk by lia. rewrite nth_error_app1 in Hk by lia.
      eapply nth_error_In; eauto.
  Qed.

  Lemma winok_allw f t l l' P :
    winok f t l l' -> t <= length l -> allw l f t P -> allw l' f t P.
  Proof.
    intros (H1 & H2 & H3) Ht Ha.
    destruct (le_lt_dec f t) as [Hft|Hft]; [|intros k x; lia].
    destruct (window_split l f t Hft Ht) as (pre & mid & post & -> & <- & <-).
    destruct (frame_split pre mid post l' H3 H2) as [mid' [-> Hp]].
    rewrite (Permutation_length Hp). apply allw_mid.
    apply allw_mid in Ha. eapply Permutation_Forall; eauto.
  Qed.

  Lemma winok_allw_out f t l l' a b P :
    winok f t l l' -> b <= f \/ t <= a -> allw l a b P -> allw l' a b P.
  Proof.
    intros (H1 & H2 & H3) Hd Ha k x Hk1 Hk2 Hx.
    apply (Ha k x Hk1 Hk2). rewrite <- H3; auto. lia.
  Qed.

  Lemma winok_sortedw_out f t l l' a b :
    winok f t l l' -> b <= f \/ t <= a -> sortedw l a b -> sortedw l' a b.
  Proof.
    intros (H1 & H2 & H3) Hd Ha i j x y Hi Hij Hj Hx Hy.
    apply (Ha i j x y); auto.
    - rewrite <- H3; auto. lia.
    - rewrite <- H3; auto. lia.
  Qed.

  Lemma winok_nth_out f t l l' k :
    winok f t l l' -> k < f \/ t <= k -> nth_error l' k = nth_error l k.
  Proof. intros (H1 & H2 & H3) Hk. apply H3; auto. Qed.

  Lemma swap_winok f t l i j :
    f <= i -> i < t -> f <= j -> j < t -> t <= length l ->
    exists l', swap_at l i j = Ok l' /\ winok f t l l' /\
               (forall k, nth_error l' k = nth_error l (tr i j k)).
  Proof.
    intros H1 H2 H3 H4 H5.
    destruct (swap_at_ok l i j) as (l' & E & Hl & Hp & Hn); try lia.
    exists l'. split; auto. split; auto. repeat split; auto.
    intros k Hk. rewrite Hn. f_equal. unfold tr.
    destruct (Nat.eqb_spec k i); [lia|]. destruct (Nat.eqb_spec k j); lia.
  Qed.

  Lemma sortedw_short l f t : t <= S f -> sortedw l f t.
  Proof. intros H i j x y. lia. Qed.

  Lemma sortedw_join l f i t pv :
    sortedw l f i -> sortedw l i t ->
    allw l f i (fun x => comp pv x = false) ->
    allw l i t (fun x => comp x pv = false) ->
    sortedw l f t.
  Proof.
    intros H1 H2 H3 H4 a b x y Ha Hab Hb Hx Hy.
    destruct (le_lt_dec i a) as [Hia|Hia]; [apply (H2 a b); auto|].
    destruct (le_lt_dec i b) as [Hib|Hib].
    - apply (swo_neg_trans comp SW y pv x).
      + apply (H4 b y); auto.
      + apply (H3 a x); auto.
    - apply (H1 a b); auto.
  Qed.

  (** * Insertion *)

  Lemma skipn_cons : forall n l x, nth_error l n = Some x -> skipn n l = x :: skipn (S n) l.
  Proof.
    induction n as [|n IH]; intros l x H; destruct l as [|h l]; try discriminate.
    - inv H. reflexivity.
    - cbn [nth_error] in H. cbn [skipn]. rewrite (IH l x H). reflexivity.
  Qed.

  Lemma nth_error_mid (pre post : list A) x : nth_error (pre ++ x :: post) (length pre) = Some x.
  Proof. rewrite nth_error_app2 by lia. rewrite Nat.sub_diag. reflexivity. Qed.

  Lemma upd_mid (pre post : list A) x y : upd (pre ++ x :: post) (length pre) y = pre ++ y :: post.
  Proof. induction pre as [|h pre IH]; simpl; auto. rewrite IH. reflexivity. Qed.

  Lemma wr_mid (pre post : list A) x y k : k = length pre ->
    wr (pre ++ x :: post) k y = Ok (pre ++ y :: post).
  Proof.
    intros ->. rewrite wr_ok; [rewrite upd_mid; auto|]. rewrite app_length; simpl; lia.
  Qed.

  Lemma shift_down_spec first t : forall fuel pre y h post,
    first <= length pre -> length pre - first < fuel -> comp t y = true ->
    exists pre1 h' b,
      shift_down comp fuel first t (S (length pre)) (length pre) (pre ++ y :: h :: post)
        = Ok (length pre1, pre1 ++ h' :: b ++ post) /\
      pre ++ [y] = pre1 ++ b /\
      Forall (fun z => comp t z = true) b /\
      first <= length pre1 /\
      (length pre1 = first \/
       exists pre2 z, pre1 = pre2 ++ [z] /\ comp t z = false).
  Proof.
    induction fuel as [|fuel IH]; intros pre y h post Hf Hfuel Hty; [lia|].
    cbn [shift_down].
    rewrite (rd_some _ _ y) by apply nth_error_mid. cbn [bind].
    replace (pre ++ y :: h :: post) with ((pre ++ [y]) ++ h :: post)
      by (rewrite <- app_assoc; reflexivity).
    rewrite wr_mid by (rewrite app_length; simpl; lia).
    rewrite <- app_assoc. cbn [app bind].
    destruct (Nat.eqb_spec (length pre) first) as [He|He].
    - exists pre, y, [y]. cbn [app]. repeat split; auto.
    - destruct pre as [|z0 pre0] using rev_ind; [simpl in *; lia|].
      clear IHpre0. rename z0 into z.
      rewrite app_length in *. cbn [length] in *.
      replace (length pre0 + 1) with (S (length pre0)) in * by lia.
      cbn [dec bind].
      rewrite <- app_assoc. cbn [app].
      rewrite (rd_some _ _ z) by apply nth_error_mid. cbn [bind].
      destruct (comp t z) eqn:C.
      + destruct (IH pre0 z y (y :: post)) as (pre1 & h' & b & E & Hb & HF & Hle & Hend);
          auto; try lia.
        exists pre1, h', (b ++ [y]). rewrite <- app_assoc. cbn [app].
        split; [exact E|]. split; [|split; [|split]]; auto.
        * rewrite app_assoc, <- Hb. rewrite <- app_assoc. reflexivity.
        * apply Forall_app; split; auto.
      + exists (pre0 ++ [z]), y, [y]. rewrite app_length. cbn [length].
        replace (length pre0 + 1) with (S (length pre0)) by lia.
        rewrite <- !app_assoc. cbn [app]. repeat split; auto; try lia.
        right. exists pre0, z; auto.
  Qed.

  Lemma list_snoc_inv (l : list A) : l = [] \/ exists l' x, l = l' ++ [x].
  Proof. destruct l as [|x l] using rev_ind; eauto. Qed.

  Lemma insert_at_spec first i j l xi xj :
    S j = i -> first <= j -> i < length l ->
    nth_error l i = Some xi -> nth_error l j = Some xj -> comp xi xj = true ->
    sortedw l first i ->
    exists l', insert_at comp first i j l = Ok l' /\
      winok first (S i) l l' /\ sortedw l' first (S i).
  Proof.
    intros <- Hfj Hil Hxi Hxj Hc Hs.
    assert (Hl : exists pre post, l = pre ++ xj :: xi :: post /\ length pre = j).
    { exists (firstn j l), (skipn (S (S j)) l). split; [|rewrite firstn_length; lia].
      rewrite (nth_split_eq l j xj Hxj) at 1. f_equal. f_equal.
      apply skipn_cons; auto. }
    destruct Hl as (pre & post & -> & <-).
    unfold insert_at. rewrite (rd_some _ _ xi Hxi). cbn [bind].
    destruct (shift_down_spec first xi (S (length (pre ++ xj :: xi :: post))) pre xj xi post)
      as (pre1 & h' & b & E & Hb & HF & Hle & Hend); auto.
    { rewrite app_length. simpl. lia. }
    rewrite E. cbn [bind]. rewrite wr_mid by reflexivity.
    exists (pre1 ++ xi :: b ++ post). split; auto.
    assert (El : pre ++ xj :: xi :: post = pre1 ++ b ++ xi :: post).
    { replace (pre ++ xj :: xi :: post) with ((pre ++ [xj]) ++ xi :: post)
        by (rewrite <- app_assoc; reflexivity).
      rewrite Hb, <- app_assoc. reflexivity. }
    assert (Hlb : length pre1 + length b = S (length pre)).
    { rewrite <- (app_length pre1 b), <- Hb, app_length. simpl. lia. }
    rewrite El in *. clear El.
    set (l := pre1 ++ b ++ xi :: post) in *.
    set (l' := pre1 ++ xi :: b ++ post).
    assert (N1 : forall k, k < length pre1 -> nth_error l' k = nth_error l k).
    { intros k Hk. unfold l, l'. rewrite !nth_error_app1 by auto. reflexivity. }
    assert (N2 : nth_error l' (length pre1) = Some xi) by apply nth_error_mid.
    assert (N3 : forall k, length pre1 < k -> k < S (S (length pre)) ->
                 nth_error l' k = nth_error l (k - 1)).
    { intros k H1 H2. unfold l, l'. rewrite !nth_error_app2 by lia.
      destruct (k - length pre1) as [|n] eqn:Ek; [lia|]. cbn [nth_error].
      rewrite !nth_error_app1 by lia. f_equal. lia. }
    assert (N4 : forall k, S (S (length pre)) <= k -> nth_error l' k = nth_error l k).
    { intros k Hk. unfold l, l'. rewrite !nth_error_app2 by lia.
      destruct (k - length pre1) as [|n] eqn:Ek; [lia|]. cbn [nth_error].
      rewrite !nth_error_app2 by lia.
      destruct (S n - length b) as [|q] eqn:Eq; [lia|]. cbn [nth_error]. f_equal. lia. }
    assert (NB : forall k x, length pre1 <= k -> k < S (length pre) ->
                 nth_error l k = Some x -> comp xi x = true).
    { intros k x H1 H2 Hx. unfold l in Hx. rewrite nth_error_app2 in Hx by lia.
      rewrite nth_error_app1 in Hx by lia. rewrite Forall_forall in HF.
      apply HF. eapply nth_error_In; eauto. }
    assert (NA : forall k x, first <= k -> k < length pre1 -> nth_error l k = Some x ->
                 comp xi x = false).
    { intros k x H1 H2 Hx. destruct Hend as [Hend|(pre2 & z & Hz & Hcz)]; [lia|].
      assert (Ez : nth_error l (length pre2) = Some z).
      { unfold l. rewrite Hz, <- app_assoc. apply nth_error_mid. }
      assert (Hlz : length pre1 = S (length pre2)) by (rewrite Hz, app_length; simpl; lia).
      destruct (Nat.eq_dec k (length pre2)) as [->|Hk]; [congruence|].
      apply (swo_neg_trans comp SW xi z x Hcz).
      apply (Hs k (length pre2) x z); auto; lia. }
    split.
    - split; [|split].
      + unfold l, l'. rewrite !app_length. simpl. rewrite !app_length. simpl. lia.
      + unfold l, l'. apply Permutation_app_head.
        symmetry. apply Permutation_middle.
      + intros k [Hk|Hk]; [apply N1; lia|apply N4; lia].
    - intros p q x y H1 H2 H3 Hx Hy.
      destruct (lt_eq_lt_dec q (length pre1)) as [[Hq|Hq]|Hq].
      + rewrite N1 in Hx, Hy by lia. apply (Hs p q x y); auto. lia.
      + subst q. rewrite N2 in Hy. inv Hy. rewrite N1 in Hx by lia.
        eapply NA; eauto.
      + rewrite N3 in Hy by lia.
        destruct (lt_eq_lt_dec p (length pre1)) as [[Hp|Hp]|Hp].
        * rewrite N1 in Hx by lia. apply (Hs p (q - 1) x y); auto; lia.
        * subst p. rewrite N2 in Hx. inv Hx.
          apply (swo_asym comp SW). apply (NB (q - 1)); auto; lia.
        * rewrite N3 in Hx by lia. apply (Hs (p - 1) (q - 1) x y); auto; lia.
  Qed.

  Lemma sortedw_extend l first i xi xj :
    first < i -> nth_error l i = Some xi -> nth_error l (i - 1) = Some xj ->
    comp xi xj = false -> sortedw l first i -> sortedw l first (S i).
  Proof.
    intros Hf Hi Hj Hc Hs p q x y H1 H2 H3 Hx Hy.
    destruct (Nat.eq_dec q i) as [->|Hq].
    - assert (y = xi) by congruence. subst y.
      destruct (Nat.eq_dec p (i - 1)) as [->|Hp]; [congruence|].
      apply (swo_neg_trans comp SW xi xj x Hc). apply (Hs p (i - 1)); auto; lia.
    - apply (Hs p q); auto; lia.
  Qed.

  Lemma ins_loop_spec first last : forall fuel i j l,
    S j = i -> first < i -> i <= last -> last <= length l -> last - i < fuel ->
    sortedw l first i ->
    exists l', ins_loop comp fuel first last i j l = Ok l' /\
               winok first last l l' /\ sortedw l' first last.
  Proof.
    induction fuel as [|fuel IH]; intros i j l Hji Hfi Hil Hll Hfuel Hs; [lia|].
    cbn [ins_loop]. destruct (Nat.eqb_spec i last) as [->|Hne].
    - exists l. split; auto. split; auto. apply winok_refl.
    - destruct (rd_ok l i) as (xi & Ri & Ei); [lia|].
      destruct (rd_ok l j) as (xj & Rj & Ej); [lia|].
      rewrite Ri; cbn [bind]. rewrite Rj; cbn [bind].
      destruct (comp xi xj) eqn:C.
      + destruct (insert_at_spec first i j l xi xj) as (l1 & E1 & W1 & S1); auto; try lia.
        rewrite E1; cbn [bind].
        destruct (IH (S i) i l1) as (l2 & E2 & W2 & S2); auto; try lia.
        { rewrite (winok_length _ _ _ _ W1). lia. }
        exists l2. split; auto. split; auto.
        eapply winok_trans; [|exact W2]. eapply winok_weaken; [| |exact W1]; lia.
      + cbn [bind]. apply IH; auto; try lia.
        apply (sortedw_extend l first i xi xj); auto.
        replace (i - 1) with j by lia. auto.
  Qed.

  Lemma ins_loop_lim_spec first last : forall fuel i j count l,
    S j = i -> first < i -> i <= last -> last <= length l -> last - i < fuel ->
    sortedw l first i ->
    exists b l', ins_loop_lim comp fuel first last i j count l = Ok (b, l') /\
               winok first last l l' /\ (b = true -> sortedw l' first last).
  Proof.
    induction fuel as [|fuel IH]; intros i j count l Hji Hfi Hil Hll Hfuel Hs; [lia|].
    cbn [ins_loop_lim]. destruct (Nat.eqb_spec i last) as [->|Hne].
    - exists true, l. split; auto. split; auto. apply winok_refl.
    - destruct (rd_ok l i) as (xi & Ri & Ei); [lia|].
      destruct (rd_ok l j) as (xj & Rj & Ej); [lia|].
      rewrite Ri; cbn [bind]. rewrite Rj; cbn [bind].
      destruct (comp xi xj) eqn:C.
      + destruct (insert_at_spec first i j l xi xj) as (l1 & E1 & W1 & S1); auto; try lia.
        rewrite E1; cbn [bind].
        destruct (S count =? 8).
        * exists (S i =? last), l1. split; auto. split.
          -- eapply winok_weaken; [| |exact W1]; lia.
          -- intros Hb. apply Nat.eqb_eq in Hb. rewrite <- Hb. exact S1.
        * destruct (IH (S i) i (S count) l1) as (b & l2 & E2 & W2 & S2); auto; try lia.
          { rewrite (winok_length _ _ _ _ W1). lia. }
          exists b, l2. split; auto. split; auto.
          eapply winok_trans; [|exact W2]. eapply winok_weaken; [| |exact W1]; lia.
      + apply IH; auto; try lia.
        apply (sortedw_extend l first i xi xj); auto.
        replace (i - 1) with j by lia. auto.
  Qed.

  (** * Networks on windows *)

  Lemma net_window n net first l :
    netcheck n net = true -> first + n <= length l ->
    exists l', run_net comp first net l = Ok l' /\
               winok first (first + n) l l' /\ sortedw l' first (first + n).
  Proof.
    intros Hc Hl.
    destruct (run_net_window comp SW n net first l Hc Hl) as (l' & E & H1 & H2 & H3 & H4).
    exists l'. split; auto. split; [repeat split; auto|].
    intros i j x y Hi Hij Hj. apply H4; auto.
  Qed.

  Lemma insertion_sort_3_spec first last l :
    first + 3 <= last -> last <= length l ->
    exists l', insertion_sort_3 comp first last l = Ok l' /\
               winok first last l l' /\ sortedw l' first last.
  Proof.
    intros H1 H2. unfold insertion_sort_3, sort_3.
    destruct (net_window 3 net_3 first l netcheck_3) as (l1 & E1 & W1 & S1); [lia|].
    rewrite E1; cbn [bind].
    pose proof (winok_length _ _ _ _ W1) as L1.
    destruct (ins_loop_spec first last (S (length l)) (first + 3) (first + 2) l1)
      as (l2 & E2 & W2 & S2); auto; try lia.
    exists l2. split; auto. split; auto.
    eapply winok_trans; [|exact W2]. eapply winok_weaken; [| |exact W1]; lia.
  Qed.

  Lemma sort_2_spec first l :
    first + 2 <= length l ->
    exists l', sort_2 comp first l = Ok l' /\
               winok first (first + 2) l l' /\ sortedw l' first (first + 2).
  Proof.
    intros Hl. unfold sort_2.
    destruct (rd_ok l (first + 1)) as (y & Ry & Ey); [lia|].
    destruct (rd_ok l first) as (x & Rx & Ex); [lia|].
    rewrite Ry; cbn [bind]. rewrite Rx; cbn [bind].
    destruct (comp y x) eqn:C.
    - destruct (swap_winok first (first + 2) l (first + 1) first) as (l' & E & W & N); try lia.
      exists l'. split; auto. split; auto.
      intros i j a b H1 H2 H3 Ha Hb.
      assert (i = first) by lia. assert (j = first + 1) by lia. subst i j.
      rewrite N in Ha, Hb. unfold tr in Ha, Hb.
      rewrite Nat.eqb_refl in Hb.
      destruct (Nat.eqb_spec first (first + 1)); [lia|]. rewrite Nat.eqb_refl in Ha.
      assert (a = y) by congruence. assert (b = x) by congruence. subst.
      eapply swo_asym; eauto.
    - exists l. split; auto. split; [apply winok_refl|].
      intros i j a b H1 H2 H3 Ha Hb.
      assert (i = first) by lia. assert (j = first + 1) by lia. subst i j. congruence.
  Qed.

  Lemma special_spec first len l r :
    special comp first len l = Some r -> first + len <= length l ->
    exists l', r = Ok l' /\ winok first (first + len) l l' /\ sortedw l' first (first + len).
  Proof.
    intros H Hl.
    do 33 (try (destruct len as [|len])).
    all: cbn [special] in H; try discriminate; inversion H; subst r; clear H.
    - exists l. split; auto. split; [apply winok_refl|apply sortedw_short; lia].
    - exists l. split; auto. split; [apply winok_refl|apply sortedw_short; lia].
    - apply sort_2_spec; auto.
    - apply (net_window 3 net_3 first l netcheck_3); auto.
    - apply (net_window 4 net_4 first l netcheck_4); auto.
    - apply (net_window 5 net_5 first l netcheck_5); auto.
    - apply (net_window 6 net_6 first l netcheck_6); auto.
    - apply (net_window 7 net_7 first l netcheck_7); auto.
    - apply (net_window 8 net_8 first l netcheck_8); auto.
    - apply (net_window 16 net_16 first l netcheck_16); auto.
    - apply (net_window 32 net_32 first l netcheck_32); auto.
  Qed.

  Lemma special_none first len l :
    special comp first len l = None -> 9 <= len.
  Proof.
    intros H. destruct (le_lt_dec 9 len) as [|Hl]; auto.
    do 9 (try (destruct len as [|len])); try (cbn [special] in H; discriminate). lia.
  Qed.

  (** sort_3_impl / sort_5_impl on increasing positions of a window *)
  Lemma net_impl_window n net (its : nat -> nat) f t l :
    netcheck n net = true -> inj_on its n ->
    (forall k, k < n -> f <= its k /\ its k < t) -> t <= length l ->
    exists c l', run_net2 comp its net l = Ok (c, l') /\ winok f t l l' /\
      (forall i j x y, i < j -> j < n ->
         nth_error l' (its i) = Some x -> nth_error l' (its j) = Some y ->
         comp y x = false).
  Proof.
    intros Hc Hinj Hr Ht.
    pose proof (netcheck_net_ok n net Hc) as Hok.
    assert (Hb : forall k, k < n -> its k < length l)
      by (intros k Hk; specialize (Hr k Hk); lia).
    destruct (run_net2_rel comp SW its n net Hok Hinj l Hb) as (c & l' & E & R).
    exists c, l'. split; auto.
    destruct (netrel_frame comp its n net l l' R Hok) as (H1 & H2 & H3).
    split.
    - repeat split; auto. intros k Hk. apply H3. intros i Hi He.
      specialize (Hr i Hi). lia.
    - intros i j x y Hij Hj Hx Hy.
      exact (netrel_sorts comp SW its n net l l' Hc Hinj Hb R i j x y Hij Hj Hx Hy).
  Qed.

  Lemma inj3 a b c : a < b -> b < c -> inj_on (fun i => nth i [a; b; c] 0) 3.
  Proof.
    intros H1 H2 i j Hi Hj.
    destruct i as [|[|[|i]]]; destruct j as [|[|[|j]]]; cbn [nth]; lia.
  Qed.

  Lemma inj5 a b c d e : a < b -> b < c -> c < d -> d < e ->
    inj_on (fun i => nth i [a; b; c; d; e] 0) 5.
  Proof.
    intros H1 H2 H3 H4 i j Hi Hj.
    destruct i as [|[|[|[|[|i]]]]]; destruct j as [|[|[|[|[|j]]]]]; cbn [nth]; lia.
  Qed.

  Lemma sort_3_impl_spec a b c f t l :
    f <= a -> a < b -> b < c -> c < t -> t <= length l ->
    exists n l', sort_3_impl comp a b c l = Ok (n, l') /\ winok f t l l' /\
      (forall x y, nth_error l' a = Some x -> nth_error l' b = Some y -> comp y x = false) /\
      (forall x y, nth_error l' b = Some x -> nth_error l' c = Some y -> comp y x = false).
  Proof.
    intros H1 H2 H3 H4 H5. unfold sort_3_impl.
    destruct (net_impl_window 3 net_3_impl (fun i => nth i [a; b; c] 0) f t l netcheck_3i)
      as (n & l' & E & W & Hs); auto.
    - apply inj3; auto.
    - intros k Hk. destruct k as [|[|[|k]]]; cbn [nth]; lia.
    - exists n, l'. split; auto. split; auto. split; intros x y.
      + apply (Hs 0 1); lia.
      + apply (Hs 1 2); lia.
  Qed.

  Lemma sort_3_impl_sorted a f l :
    f <= a -> a + 3 <= length l ->
    exists n l', sort_3_impl comp a (a + 1) (a + 2) l = Ok (n, l') /\
      winok f (a + 3) l l' /\ sortedw l' a (a + 3).
  Proof.
    intros H1 H2. unfold sort_3_impl.
    destruct (net_impl_window 3 net_3_impl (fun i => nth i [a; a + 1; a + 2] 0) f (a + 3) l
                netcheck_3i) as (n & l' & E & W & Hs); auto.
    - apply inj3; lia.
    - intros k Hk. destruct k as [|[|[|k]]]; cbn [nth]; lia.
    - exists n, l'. split; auto. split; auto.
      intros i j x y Hi Hij Hj Hx Hy.
      assert (Hi' : nth (i - a) [a; a + 1; a + 2] 0 = i).
      { destruct (i - a) as [|[|[|k]]] eqn:E'; cbn [nth]; lia. }
      assert (Hj' : nth (j - a) [a; a + 1; a + 2] 0 = j).
      { destruct (j - a) as [|[|[|k]]] eqn:E'; cbn [nth]; lia. }
      apply (Hs (i - a) (j - a) x y); try lia; rewrite ?Hi', ?Hj'; auto.
  Qed.

  Lemma sort_5_impl_spec a b c d e f t l :
    f <= a -> a < b -> b < c -> c < d -> d < e -> e < t -> t <= length l ->
    exists n l', sort_5_impl comp a b c d e l = Ok (n, l') /\ winok f t l l' /\
      (forall x y, nth_error l' a = Some x -> nth_error l' c = Some y -> comp y x = false) /\
      (forall x y, nth_error l' c = Some x -> nth_error l' e = Some y -> comp y x = false).
  Proof.
    intros H1 H2 H3 H4 H5 H6 H7. unfold sort_5_impl.
    destruct (net_impl_window 5 net_5_impl (fun i => nth i [a; b; c; d; e] 0) f t l netcheck_5i)
      as (n & l' & E & W & Hs); auto.
    - apply inj5; auto.
    - intros k Hk. destruct k as [|[|[|[|[|k]]]]]; cbn [nth]; lia.
    - exists n, l'. split; auto. split; auto. split; intros x y.
      + apply (Hs 0 2); lia.
      + apply (Hs 2 4); lia.
  Qed.

  Lemma insertion_sort_incomplete_spec first last l :
    first <= last -> last <= length l ->
    exists b l', insertion_sort_incomplete comp first last l = Ok (b, l') /\
      winok first last l l' /\ (b = true -> sortedw l' first last).
  Proof.
    intros H1 H2. unfold insertion_sort_incomplete.
    destruct (special comp first (last - first) l) as [r|] eqn:Sp.
    - destruct (special_spec _ _ _ _ Sp) as (l' & -> & W & Hs); [lia|].
      cbn [bind]. replace (first + (last - first)) with last in * by lia.
      exists true, l'. auto.
    - apply special_none in Sp.
      destruct (sort_3_impl_sorted first first l) as (n & l1 & E1 & W1 & S1); try lia.
      rewrite E1; cbn [bind].
      pose proof (winok_length _ _ _ _ W1) as L1.
      destruct (ins_loop_lim_spec first last (S (length l)) (S (first + 2)) (first + 2) 0 l1)
        as (b & l2 & E2 & W2 & S2); auto; try lia.
      { replace (S (first + 2)) with (first + 3) by lia. auto. }
      exists b, l2. split; auto. split; auto.
      eapply winok_trans; [|exact W2]. eapply winok_weaken; [| |exact W1]; lia.
  Qed.

  (** * Scans *)

  Lemma allw_le l f t f' t' P : f' >= f -> t' <= t -> allw l f t P -> allw l f' t' P.
  Proof. intros H1 H2 H k x Hk1 Hk2. apply H; lia. Qed.

  Lemma allw_app l f i t P : allw l f i P -> allw l i t P -> allw l f t P.
  Proof.
    intros H1 H2 k x Hk1 Hk2 Hx.
    destruct (le_lt_dec i k); [apply (H2 k)|apply (H1 k)]; auto.
  Qed.

  Lemma allw_one l f x (P : A -> Prop) : nth_error l f = Some x -> P x -> allw l f (S f) P.
  Proof. intros H1 H2 k y Hk1 Hk2 Hy. assert (k = f) by lia. congruence. Qed.

  Lemma allw_empty l f t P : t <= f -> allw l f t P.
  Proof. intros H k x. lia. Qed.

  Lemma allw_impl l f t (P Q : A -> Prop) : (forall x, P x -> Q x) -> allw l f t P -> allw l f t Q.
  Proof. intros H1 H2 k x Hk1 Hk2 Hx. apply H1. apply (H2 k); auto. Qed.

  Lemma scan_up_spec (pred : A -> bool) l : forall fuel i s x,
    i <= s -> nth_error l s = Some x -> pred x = false -> s - i < fuel ->
    exists i' y, scan_up fuel pred i l = Ok i' /\ i <= i' /\ i' <= s /\
      allw l i i' (fun z => pred z = true) /\ nth_error l i' = Some y /\ pred y = false.
  Proof.
    induction fuel as [|fuel IH]; intros i s x His Hs Hx Hf; [lia|].
    cbn [scan_up].
    pose proof (nth_error_some_lt _ _ _ Hs) as Hlt.
    destruct (rd_ok l i) as (y & Ry & Ey); [lia|]. rewrite Ry; cbn [bind].
    destruct (pred y) eqn:Py.
    - assert (i <> s) by (intros ->; congruence).
      destruct (IH (S i) s x) as (i' & z & E & H1 & H2 & H3 & H4 & H5); auto; try lia.
      exists i', z. repeat split; auto; try lia.
      apply (allw_app l i (S i)); auto. eapply allw_one; eauto.
    - exists i, y. repeat split; auto; try lia. apply allw_empty; lia.
  Qed.

  Lemma scan_down_spec (pred : A -> bool) l : forall fuel j s x,
    s < j -> j <= length l -> nth_error l s = Some x -> pred x = false -> j - s <= fuel ->
    exists j' y, scan_down fuel pred j l = Ok j' /\ s <= j' /\ j' < j /\
      allw l (S j') j (fun z => pred z = true) /\ nth_error l j' = Some y /\ pred y = false.
  Proof.
    induction fuel as [|fuel IH]; intros j s x Hsj Hj Hs Hx Hf; [lia|].
    cbn [scan_down]. destruct j as [|j]; [lia|]. cbn [dec bind].
    destruct (rd_ok l j) as (y & Ry & Ey); [lia|]. rewrite Ry; cbn [bind].
    destruct (pred y) eqn:Py.
    - assert (j <> s) by (intros ->; congruence).
      destruct (IH j s x) as (j' & z & E & H1 & H2 & H3 & H4 & H5); auto; try lia.
      exists j', z. repeat split; auto; try lia.
      apply (allw_app l (S j') j); auto. eapply allw_one; eauto.
    - exists j, y. repeat split; auto; try lia. apply allw_empty; lia.
  Qed.

  Lemma find_guard_spec first m p l : nth_error l m = Some p ->
    forall fuel j, first < j -> j <= length l -> j - first <= fuel ->
    exists o, find_guard comp fuel first j m l = Ok o /\
      match o with
      | AllGE l0 => l0 = l /\ allw l (S first) j (fun x => comp x p = false)
      | Found j' l' => first < j' /\ j' < j /\ swap_at l first j' = Ok l' /\
          (exists x, nth_error l j' = Some x /\ comp x p = true) /\
          allw l (S j') j (fun x => comp x p = false)
      end.
  Proof.
    intros Hm. induction fuel as [|fuel IH]; intros j Hfj Hj Hfuel; [lia|].
    cbn [find_guard]. destruct j as [|j]; [lia|]. cbn [dec bind].
    destruct (Nat.eqb_spec first j) as [->|Hne].
    - exists (AllGE l). split; auto. split; auto. apply allw_empty; lia.
    - destruct (rd_ok l j) as (y & Ry & Ey); [lia|]. rewrite Ry; cbn [bind].
      rewrite (rd_some _ _ p Hm); cbn [bind].
      destruct (comp y p) eqn:C.
      + destruct (swap_winok first (S j) l first j) as (l' & E & _ & _); try lia.
        rewrite E; cbn [bind]. exists (Found j l'). split; auto.
        repeat split; auto; try lia; eauto. apply allw_empty; lia.
      + destruct (IH j) as (o & E & Ho); try lia.
        exists o. split; auto. destruct o as [j' l'|l0].
        * destruct Ho as (H1 & H2 & H3 & H4 & H5). repeat split; auto.
          apply (allw_app l (S j') j); auto. eapply allw_one; eauto.
        * destruct Ho as (H1 & H2). split; auto.
          apply (allw_app l (S first) j); auto. eapply allw_one; eauto.
  Qed.

  Lemma find_greater_spec first j p l : nth_error l first = Some p -> j < length l ->
    forall fuel i, i <= j -> j - i < fuel ->
    exists o, find_greater comp fuel first i j l = Ok o /\
      match o with
      | None => allw l i j (fun x => comp p x = false)
      | Some (i1, l') => exists i' x, i1 = S i' /\ i <= i' /\ i' < j /\
          swap_at l i' j = Ok l' /\ nth_error l i' = Some x /\ comp p x = true /\
          allw l i i' (fun x => comp p x = false)
      end.
  Proof.
    intros Hp Hj. induction fuel as [|fuel IH]; intros i Hij Hfuel; [lia|].
    cbn [find_greater]. destruct (Nat.eqb_spec i j) as [->|Hne].
    - exists None. split; auto. apply allw_empty; lia.
    - rewrite (rd_some _ _ p Hp); cbn [bind].
      destruct (rd_ok l i) as (y & Ry & Ey); [lia|]. rewrite Ry; cbn [bind].
      destruct (comp p y) eqn:C.
      + destruct (swap_winok i (S j) l i j) as (l' & E & _ & _); try lia.
        rewrite E; cbn [bind]. exists (Some (S i, l')). split; auto.
        exists i, y. repeat split; auto; try lia. apply allw_empty; lia.
      + destruct (IH (S i)) as (o & E & Ho); try lia.
        exists o. split; auto. destruct o as [[i1 l']|].
        * destruct Ho as (i' & x & H1 & H2 & H3 & H4 & H5 & H6 & H7).
          exists i', x. repeat split; auto; try lia.
          apply (allw_app l i (S i)); auto. eapply allw_one; eauto.
        * apply (allw_app l i (S i)); auto. eapply allw_one; eauto.
  Qed.

  (** Effect of one swap on window predicates. *)
  Lemma swap_allw l l' i j a b (P : A -> Prop) :
    (forall k, nth_error l' k = nth_error l (tr i j k)) ->
    (forall k x, a <= k -> k < b -> nth_error l (tr i j k) = Some x -> P x) ->
    allw l' a b P.
  Proof. intros N H k x H1 H2 Hx. rewrite N in Hx. eapply H; eauto. Qed.

  Lemma tr_l i j : tr i j i = j.
  Proof. unfold tr. rewrite Nat.eqb_refl. reflexivity. Qed.

  Lemma tr_r i j : tr i j j = i.
  Proof. unfold tr. rewrite Nat.eqb_refl. destruct (Nat.eqb_spec j i); congruence. Qed.

  Lemma tr_o i j k : k <> i -> k <> j -> tr i j k = k.
  Proof.
    intros H1 H2. unfold tr. destruct (Nat.eqb_spec k i); [lia|].
    destruct (Nat.eqb_spec k j); [lia|]. reflexivity.
  Qed.

  Lemma part_eq_spec first last p : forall fuel i j l,
    first < i -> i <= j -> j < last -> last <= length l -> j < fuel ->
    nth_error l first = Some p ->
    allw l first i (fun x => comp p x = false) ->
    allw l j last (fun x => comp p x = true) ->
    exists i' l', part_eq comp fuel first i j l = Ok (i', l') /\
      winok first last l l' /\ first < i' /\ i' < last /\
      allw l' first i' (fun x => comp p x = false) /\
      allw l' i' last (fun x => comp p x = true).
  Proof.
    induction fuel as [|fuel IH]; intros i j l Hfi Hij Hjl Hll Hfuel Hp Ha Hb; [lia|].
    cbn [part_eq]. rewrite (rd_some _ _ p Hp); cbn [bind].
    destruct (nth_error_ex l j) as (xj & Ej); [lia|].
    assert (Cj : comp p xj = true) by (apply (Hb j); auto).
    destruct (scan_up_spec (fun x => negb (comp p x)) l (S (length l)) i j xj)
      as (i' & y & Eu & U1 & U2 & U3 & U4 & U5); auto; try lia.
    { rewrite Cj; auto. }
    rewrite Eu; cbn [bind].
    destruct (scan_down_spec (fun x => comp p x) l (S (length l)) j first p)
      as (j' & z & Ed & D1 & D2 & D3 & D4 & D5); auto; try lia.
    { apply (swo_irrefl _ SW). }
    rewrite Ed; cbn [bind].
    apply negb_false_iff in U5.
    assert (Hne : i' <> j') by (intros ->; congruence).
    assert (Ha' : allw l first i' (fun x => comp p x = false)).
    { apply (allw_app l first i); auto. eapply allw_impl; [|exact U3].
      intros x Hx. apply negb_true_iff in Hx. auto. }
    assert (Hb' : allw l (S j') last (fun x => comp p x = true))
      by (apply (allw_app l (S j') j); auto).
    destruct (Nat.leb_spec j' i') as [Hle|Hlt].
    - exists i', l. split; auto. split; [apply winok_refl|].
      repeat split; auto; try lia. apply (allw_le l (S j') last); auto; lia.
    - destruct (swap_winok first last l i' j') as (l1 & E1 & W1 & N1); try lia.
      rewrite E1; cbn [bind].
      destruct (IH (S i') j' l1) as (i2 & l2 & E2 & W2 & H1 & H2 & H3 & H4); auto; try lia.
      + rewrite (winok_length _ _ _ _ W1). auto.
      + rewrite N1, tr_o by lia. auto.
      + apply (swap_allw l l1 i' j'); auto. intros k x Hk1 Hk2 Hx.
        destruct (Nat.eq_dec k i') as [->|Hk].
        * rewrite tr_l in Hx. congruence.
        * rewrite tr_o in Hx by lia. apply (Ha' k); auto; lia.
      + apply (swap_allw l l1 i' j'); auto. intros k x Hk1 Hk2 Hx.
        destruct (Nat.eq_dec k j') as [->|Hk].
        * rewrite tr_r in Hx. congruence.
        * rewrite tr_o in Hx by lia. apply (Hb' k); auto; lia.
      + exists i2, l2. split; auto. split; auto. eapply winok_trans; eauto.
  Qed.

  Lemma sortedw_alleq l f t p :
    allw l f t (fun x => comp x p = false) -> allw l f t (fun x => comp p x = false) ->
    sortedw l f t.
  Proof.
    intros H1 H2 i j x y Hi Hij Hj Hx Hy.
    apply (swo_neg_trans comp SW y p x).
    - apply (H1 j); auto; lia.
    - apply (H2 i); auto; lia.
  Qed.

  Lemma eq_branch_spec first last p l :
    first + 2 <= last -> last <= length l -> nth_error l first = Some p ->
    allw l first last (fun x => comp x p = false) ->
    exists r, eq_branch comp first last l = Ok r /\
      match r with
      | inl l' => winok first last l l' /\ sortedw l' first last
      | inr (i, l') => winok first last l l' /\ first < i /\ i < last /\
          allw l' first i (fun x => comp p x = false) /\
          allw l' i last (fun x => comp p x = true)
      end.
  Proof.
    intros H2 Hll Hp Hge. unfold eq_branch.
    destruct last as [|j]; [lia|]. cbn [dec bind].
    rewrite (rd_some _ _ p Hp); cbn [bind].
    destruct (rd_ok l j) as (xj & Rj & Ej); [lia|]. rewrite Rj; cbn [bind].
    assert (Hpp : comp p p = false) by apply (swo_irrefl _ SW).
    (* the common tail *)
    assert (Tail : forall i l1, first < i -> i <= j -> winok first (S j) l l1 ->
      nth_error l1 first = Some p ->
      allw l1 first i (fun x => comp p x = false) ->
      allw l1 j (S j) (fun x => comp p x = true) ->
      exists r,
        (if i =? j then Ok (inl l1)
         else '(i, l) <- part_eq comp (S (length l1)) first i j l1 ;; Ok (inr (i, l))) = Ok r /\
        match r with
        | inl l' => winok first (S j) l l' /\ sortedw l' first (S j)
        | inr (i, l') => winok first (S j) l l' /\ first < i /\ i < S j /\
            allw l' first i (fun x => comp p x = false) /\
            allw l' i (S j) (fun x => comp p x = true)
        end).
    { intros i l1 Hfi Hij W1 Hp1 Ha1 Hb1.
      assert (Hge1 : allw l1 first (S j) (fun x => comp x p = false))
        by (eapply winok_allw; eauto).
      destruct (Nat.eqb_spec i j) as [->|Hne].
      - exists (inl l1). split; auto. split; auto.
        apply (sortedw_join l1 first j (S j) p); auto.
        + apply (sortedw_alleq l1 first j p); auto. eapply allw_le; [| |exact Hge1]; lia.
        + apply sortedw_short; lia.
        + eapply allw_le; [| |exact Hge1]; lia.
      - pose proof (winok_length _ _ _ _ W1) as L1.
        destruct (part_eq_spec first (S j) p (S (length l1)) i j l1)
          as (i2 & l2 & E2 & W2 & G1 & G2 & G3 & G4); auto; try lia.
        rewrite E2; cbn [bind]. exists (inr (i2, l2)). split; auto.
        repeat split; auto; eapply winok_trans; eauto. }
    destruct (comp p xj) eqn:C; cbn [negb].
    - cbn [bind]. apply Tail; auto; try lia; try apply winok_refl.
      + eapply allw_one; eauto.
      + eapply allw_one; eauto.
    - destruct (find_greater_spec first j p l Hp) with (fuel := S (length l)) (i := S first)
        as (o & E & Ho); try lia.
      rewrite E; cbn [bind]. destruct o as [[i1 l1]|].
      + destruct Ho as (i' & x & -> & I1 & I2 & Esw & Ex & Cx & Hall).
        destruct (swap_winok first (S j) l i' j) as (l1' & E1 & W1 & N1); try lia.
        assert (l1' = l1) by congruence. subst l1'.
        apply Tail; auto; try lia.
        * rewrite N1, tr_o by lia. auto.
        * apply (swap_allw l l1 i' j); auto. intros k y Hk1 Hk2 Hy.
          destruct (Nat.eq_dec k i') as [->|Hk].
          -- rewrite tr_l in Hy. congruence.
          -- rewrite tr_o in Hy by lia.
             destruct (Nat.eq_dec k first) as [->|Hkf]; [congruence|].
             apply (Hall k); auto; lia.
        * eapply allw_one; [rewrite N1, tr_r; exact Ex|auto].
      + exists (inl l). split; auto. split; [apply winok_refl|].
        apply (sortedw_alleq l first (S j) p); auto.
        apply (allw_app l first (S first)); [eapply allw_one; eauto|].
        apply (allw_app l (S first) j); auto. eapply allw_one; eauto.
  Qed.

  Lemma part_loop_spec first last p : forall fuel i j m cnt l,
    first < i -> i <= j -> j < last -> last <= length l -> j < fuel ->
    i <= m -> m < last -> nth_error l m = Some p ->
    allw l first i (fun x => comp x p = true) ->
    allw l j last (fun x => comp x p = false) ->
    exists i' m' c l', part_loop comp fuel i j m cnt l = Ok (i', m', c, l') /\
      winok first last l l' /\ first < i' /\ i' <= m' /\ m' < last /\
      nth_error l' m' = Some p /\
      allw l' first i' (fun x => comp x p = true) /\
      allw l' i' last (fun x => comp x p = false).
  Proof.
    assert (Hpp : comp p p = false) by apply (swo_irrefl _ SW).
    induction fuel as [|fuel IH]; intros i j m cnt l Hfi Hij Hjl Hll Hfuel Him Hml Hm Ha Hb; [lia|].
    cbn [part_loop]. rewrite (rd_some _ _ p Hm); cbn [bind].
    destruct (nth_error_ex l (Nat.min m j)) as (xs & Es); [lia|].
    assert (Cs : comp xs p = false).
    { destruct (le_lt_dec m j) as [Hmj|Hmj].
      - rewrite Nat.min_l in Es by auto. congruence.
      - rewrite Nat.min_r in Es by lia. apply (Hb j); auto. }
    destruct (scan_up_spec (fun x => comp x p) l (S (length l)) i (Nat.min m j) xs)
      as (i' & y & Eu & U1 & U2 & U3 & U4 & U5); auto; try lia.
    rewrite Eu; cbn [bind].
    destruct (nth_error_ex l first) as (xf & Ef); [lia|].
    assert (Cf : comp xf p = true) by (apply (Ha first); auto).
    destruct (scan_down_spec (fun x => negb (comp x p)) l (S (length l)) j first xf)
      as (j' & z & Ed & D1 & D2 & D3 & D4 & D5); auto; try lia.
    { rewrite Cf; auto. }
    rewrite Ed; cbn [bind]. apply negb_false_iff in D5.
    assert (Hne : i' <> j') by (intros ->; congruence).
    assert (Hmj : m <> j') by (intros ->; congruence).
    assert (Ha' : allw l first i' (fun x => comp x p = true))
      by (apply (allw_app l first i); auto).
    assert (Hb' : allw l (S j') last (fun x => comp x p = false)).
    { apply (allw_app l (S j') j); auto. eapply allw_impl; [|exact D3].
      intros x Hx. apply negb_true_iff in Hx. auto. }
    destruct (Nat.ltb_spec j' i') as [Hlt|Hge].
    - exists i', m, cnt, l. split; auto. split; [apply winok_refl|].
      repeat split; auto; try lia. apply (allw_le l (S j') last); auto; lia.
    - destruct (swap_winok first last l i' j') as (l1 & E1 & W1 & N1); try lia.
      rewrite E1; cbn [bind].
      destruct (IH (S i') j' (if m =? i' then j' else m) (S cnt) l1)
        as (i2 & m2 & c2 & l2 & E2 & W2 & H1 & H2 & H3 & H4 & H5 & H6); auto; try lia.
      + rewrite (winok_length _ _ _ _ W1). auto.
      + destruct (Nat.eqb_spec m i'); lia.
      + destruct (Nat.eqb_spec m i'); lia.
      + destruct (Nat.eqb_spec m i') as [->|Hmi].
        * rewrite N1, tr_r. auto.
        * rewrite N1, tr_o by lia. auto.
      + apply (swap_allw l l1 i' j'); auto. intros k x Hk1 Hk2 Hx.
        destruct (Nat.eq_dec k i') as [->|Hk].
        * rewrite tr_l in Hx. congruence.
        * rewrite tr_o in Hx by lia. apply (Ha' k); auto; lia.
      + apply (swap_allw l l1 i' j'); auto. intros k x Hk1 Hk2 Hx.
        destruct (Nat.eq_dec k j') as [->|Hk].
        * rewrite tr_r in Hx. congruence.
        * rewrite tr_o in Hx by lia. apply (Hb' k); auto; lia.
      + exists i2, m2, c2, l2. split; auto. split; [eapply winok_trans; eauto|repeat split; auto].
  Qed.

  Definition round_ok first last l (r : round) : Prop :=
    match r with
    | Done l' => winok first last l l' /\ sortedw l' first last
    | Restart f l' => winok first last l l' /\ first < f /\ f < last /\
        sortedw l' first f /\
        exists p, allw l' first f (fun x => comp p x = false) /\
                  allw l' f last (fun x => comp x p = false)
    | Split i _ l' => winok first last l l' /\ first < i /\ i < last /\
        exists p, allw l' first (S i) (fun x => comp p x = false) /\
                  allw l' i last (fun x => comp x p = false)
    end.

  Lemma partition_round_spec first last l :
    first + 9 <= last -> last <= length l ->
    exists r, partition_round comp first last (last - first) l = Ok r /\
              round_ok first last l r.
  Proof.
    intros H9 Hll. unfold partition_round. cbv zeta.
    set (len := last - first). set (lm1 := last - 1). set (delta := len / 2).
    set (m := first + delta).
    pose proof (Nat.div_mod_eq len 2) as Hd1.
    pose proof (Nat.mod_upper_bound len 2 ltac:(lia)) as Hd2. fold delta in Hd1.
    pose proof (Nat.div_mod_eq delta 2) as Hd3.
    pose proof (Nat.mod_upper_bound delta 2 ltac:(lia)) as Hd4.
    assert (Hlen : len = last - first) by reflexivity.
    assert (Hlm : lm1 = last - 1) by reflexivity.
    assert (Hmd : m = first + delta) by reflexivity.
    assert (Med : exists c l1,
      (if 1000 <=? len then
         sort_5_impl comp first (first + delta / 2) m (m + delta / 2) lm1 l
       else sort_3_impl comp first m lm1 l) = Ok (c, l1) /\ winok first last l l1 /\
      (forall x y, nth_error l1 first = Some x -> nth_error l1 m = Some y -> comp y x = false) /\
      (forall x y, nth_error l1 m = Some x -> nth_error l1 lm1 = Some y -> comp y x = false)).
    { destruct (Nat.leb_spec 1000 len).
      - apply (sort_5_impl_spec _ _ _ _ _ first last); lia.
      - apply (sort_3_impl_spec _ _ _ first last); lia. }
    clearbody len lm1 delta m.
    destruct Med as (cnt & l1 & E1 & W1 & M1 & M2).
    rewrite E1; cbn [bind].
    pose proof (winok_length _ _ _ _ W1) as L1.
    destruct (rd_ok l1 first) as (x & Rx & Ex); [lia|]. rewrite Rx; cbn [bind].
    destruct (rd_ok l1 m) as (p & Rp & Ep); [lia|]. rewrite Rp; cbn [bind].
    destruct (nth_error_ex l1 lm1) as (z & Ez); [lia|].
    specialize (M1 x p Ex Ep). specialize (M2 p z Ep Ez).
    (* the common tail: from a guarded state to the split *)
    assert (Tail : forall j c l2, first < j -> j < last -> winok first last l1 l2 ->
      nth_error l2 m = Some p ->
      allw l2 first (S first) (fun x => comp x p = true) ->
      allw l2 j last (fun x => comp x p = false) ->
      exists r,
        ('(i, m, cnt, l) <-
          (if S first <? j then part_loop comp (S (length l2)) (S first) j m c l2
           else Ok (S first, m, c, l2)) ;;
        pm <- rd l m ;;
        xi <- rd l i ;;
        if negb (i =? m) && comp pm xi
        then l' <- swap_at l i m ;; Ok (Split i (S cnt) l')
        else Ok (Split i cnt l)) = Ok r /\ round_ok first last l r).
    { intros j c l2 Hfj Hjl W2 Hm2 Ha Hb.
      pose proof (winok_length _ _ _ _ W2) as L2.
      assert (Step : exists i' m' c' l3,
        (if S first <? j then part_loop comp (S (length l2)) (S first) j m c l2
         else Ok (S first, m, c, l2)) = Ok (i', m', c', l3) /\
        winok first last l2 l3 /\ first < i' /\ i' <= m' /\ m' < last /\
        nth_error l3 m' = Some p /\
        allw l3 first i' (fun x => comp x p = true) /\
        allw l3 i' last (fun x => comp x p = false)).
      { destruct (Nat.ltb_spec (S first) j).
        - apply (part_loop_spec first last p); auto; lia.
        - assert (j = S first) by lia. subst j.
          exists (S first), m, c, l2. split; auto. split; [apply winok_refl|].
          repeat split; auto; lia. }
      destruct Step as (i & m' & c' & l3 & E3 & W3 & Hi & Him & Hml & Em & Hlo & Hhi).
      rewrite E3; cbn [bind].
      pose proof (winok_length _ _ _ _ W3) as L3.
      rewrite (rd_some _ _ p Em); cbn [bind].
      destruct (rd_ok l3 i) as (xi & Ri & Ei); [lia|]. rewrite Ri; cbn [bind].
      assert (W : winok first last l l3)
        by (eapply winok_trans; [exact W1|eapply winok_trans; eauto]).
      assert (Cxi : comp xi p = false) by (apply (Hhi i); auto; lia).
      assert (Hpp : comp p p = false) by apply (swo_irrefl _ SW).
      assert (Hlo' : allw l3 first i (fun x => comp p x = false)).
      { eapply allw_impl; [|exact Hlo]. intros a Ha'. eapply swo_asym; eauto. }
      destruct (Nat.eqb_spec i m') as [->|Hne]; cbn [negb andb].
      - exists (Split m' c' l3). split; auto. cbn [round_ok].
        repeat split; auto; try lia; try apply W. exists p. split; auto.
        apply (allw_app l3 first m'); auto. eapply allw_one; [exact Em|auto].
      - destruct (comp p xi) eqn:C.
        + destruct (swap_winok first last l3 i m') as (l4 & E4 & W4 & N4); try lia.
          rewrite E4; cbn [bind]. exists (Split i (S c') l4). split; auto.
          cbn [round_ok].
          assert (W' : winok first last l l4) by (eapply winok_trans; eauto).
          repeat split; auto; try lia; try apply W'. exists p. split.
          * apply (swap_allw l3 l4 i m'); auto. intros k y Hk1 Hk2 Hy.
            destruct (Nat.eq_dec k i) as [->|Hk].
            -- rewrite tr_l in Hy. congruence.
            -- rewrite tr_o in Hy by lia. apply (Hlo' k); auto; lia.
          * apply (swap_allw l3 l4 i m'); auto. intros k y Hk1 Hk2 Hy.
            destruct (Nat.eq_dec k i) as [->|Hk].
            -- rewrite tr_l in Hy. congruence.
            -- destruct (Nat.eq_dec k m') as [->|Hk'].
               ++ rewrite tr_r in Hy. congruence.
               ++ rewrite tr_o in Hy by lia. apply (Hhi k); auto; lia.
        + exists (Split i c' l3). split; auto. cbn [round_ok].
          repeat split; auto; try lia; try apply W. exists p. split; auto.
          apply (allw_app l3 first i); auto. eapply allw_one; eauto. }
    destruct (comp x p) eqn:C; cbn [negb].
    - cbn [bind]. apply Tail; auto; try lia; try apply winok_refl.
      + eapply allw_one; eauto.
      + replace last with (S lm1) by lia. eapply allw_one; eauto.
    - destruct (find_guard_spec first m p l1 Ep (S (length l1)) lm1) as (o & Eo & Ho); try lia.
      rewrite Eo; cbn [bind]. destruct o as [j l2|l0].
      + destruct Ho as (J1 & J2 & Esw & (xj & Ej & Cj) & Hge).
        cbn [bind].
        destruct (swap_winok first last l1 first j) as (l2' & E2 & W2 & N2); try lia.
        assert (l2' = l2) by congruence. subst l2'.
        assert (Hpp : comp p p = false) by apply (swo_irrefl _ SW).
        apply Tail; auto; try lia.
        * rewrite N2, tr_o; auto; [lia|]. intros ->. congruence.
        * eapply allw_one; [rewrite N2, tr_l; exact Ej|auto].
        * apply (swap_allw l1 l2 first j); auto. intros k y Hk1 Hk2 Hy.
          destruct (Nat.eq_dec k j) as [->|Hk].
          -- rewrite tr_r in Hy. congruence.
          -- rewrite tr_o in Hy by lia.
             destruct (Nat.eq_dec k lm1) as [->|Hkl]; [congruence|].
             apply (Hge k); auto; lia.
      + destruct Ho as (-> & Hge).
        assert (Hall : allw l1 first last (fun y => comp y x = false)).
        { intros k y Hk1 Hk2 Hy. apply (swo_neg_trans comp SW y p x); auto.
          destruct (Nat.eq_dec k first) as [->|Hkf]; [congruence|].
          destruct (Nat.eq_dec k lm1) as [->|Hkl]; [congruence|].
          apply (Hge k); auto; lia. }
        destruct (eq_branch_spec first last x l1) as (r & Er & Hr); auto; try lia.
        rewrite Er; cbn [bind]. destruct r as [l2|[i l2]].
        * destruct Hr as [W2 S2]. exists (Done l2). split; auto. split; auto.
          eapply winok_trans; eauto.
        * destruct Hr as (W2 & I1 & I2 & Hlo & Hhi). exists (Restart i l2). split; auto.
          cbn [round_ok].
          assert (Hall2 : allw l2 first last (fun y => comp y x = false))
            by (eapply winok_allw; eauto; lia).
          split; [eapply winok_trans; eauto|]. repeat split; auto.
          -- apply (sortedw_alleq l2 first i x); auto. eapply allw_le; [| |exact Hall2]; lia.
          -- exists x. split; auto. eapply allw_le; [| |exact Hall2]; lia.
  Qed.

  (** Sorting both sides of a split sorts the window. *)
  Lemma split_sorted l first i last p :
    first < i -> i < last ->
    sortedw l first i -> sortedw l (S i) last ->
    allw l first (S i) (fun x => comp p x = false) ->
    allw l i last (fun x => comp x p = false) ->
    sortedw l first last.
  Proof.
    intros H1 H2 H3 H4 H5 H6.
    apply (sortedw_join l first i last p); auto.
    - apply (sortedw_join l i (S i) last p); auto.
      + apply sortedw_short; lia.
      + eapply allw_le; [| |exact H5]; lia.
      + eapply allw_le; [| |exact H6]; lia.
    - eapply allw_le; [| |exact H5]; lia.
  Qed.

  Lemma allw_keep l l' f t a b P :
    winok f t l l' -> a <= f -> t <= b -> b <= length l ->
    allw l a b P -> allw l' a b P.
  Proof.
    intros W H1 H2 H3. apply winok_allw; auto. eapply winok_weaken; [| |exact W]; auto.
  Qed.

  Lemma sort_fuel_spec limit : forall fuel first last l,
    first <= last -> last <= length l -> last - first < fuel ->
    exists l', sort_fuel comp fuel limit first last l = Ok l' /\
      winok first last l l' /\ sortedw l' first last.
  Proof.
    induction fuel as [|fuel IH]; intros first last l Hfl Hll Hfuel; [lia|].
    cbn [sort_fuel].
    destruct (special comp first (last - first) l) as [r|] eqn:Sp.
    - destruct (special_spec _ _ _ _ Sp) as (l' & -> & W & Hs); [lia|].
      replace (first + (last - first)) with last in * by lia.
      exists l'. auto.
    - apply special_none in Sp.
      destruct (last - first <? limit).
      + apply insertion_sort_3_spec; lia.
      + destruct (partition_round_spec first last l) as (r & Er & Hr); try lia.
        rewrite Er; cbn [bind]. destruct r as [l1|f l1|i cnt l1]; cbn [round_ok] in Hr.
        * destruct Hr as [W S1]. exists l1. auto.
        * destruct Hr as (W1 & F1 & F2 & S1 & p & Hlo & Hhi).
          pose proof (winok_length _ _ _ _ W1) as L1.
          destruct (IH f last l1) as (l2 & E2 & W2 & S2); try lia.
          exists l2. split; auto. split.
          -- eapply winok_trans; [exact W1|]. eapply winok_weaken; [| |exact W2]; lia.
          -- apply (sortedw_join l2 first f last p); auto.
             ++ eapply winok_sortedw_out; [exact W2| |exact S1]. lia.
             ++ eapply winok_allw_out; [exact W2| |exact Hlo]. lia.
             ++ eapply winok_allw; [exact W2| |exact Hhi]. lia.
        * destruct Hr as (W1 & I1 & I2 & p & Hlo & Hhi).
          pose proof (winok_length _ _ _ _ W1) as L1.
          (* invariant carried through any work on the two halves *)
          set (Inv := fun l2 => winok first last l l2 /\
                 allw l2 first (S i) (fun x => comp p x = false) /\
                 allw l2 i last (fun x => comp x p = false)).
          assert (Hl : forall l2 l3, Inv l2 -> winok first i l2 l3 -> Inv l3).
          { intros l2 l3 (V1 & V2 & V3) W3. split; [|split].
            - eapply winok_trans; [exact V1|]. eapply winok_weaken; [| |exact W3]; lia.
            - eapply allw_keep; [exact W3| | | |exact V2]; try lia.
              rewrite (winok_length _ _ _ _ V1). lia.
            - eapply winok_allw_out; [exact W3| |exact V3]. lia. }
          assert (Hrt : forall l2 l3, Inv l2 -> winok (S i) last l2 l3 -> Inv l3).
          { intros l2 l3 (V1 & V2 & V3) W3. split; [|split].
            - eapply winok_trans; [exact V1|]. eapply winok_weaken; [| |exact W3]; lia.
            - eapply winok_allw_out; [exact W3| |exact V2]. lia.
            - eapply allw_keep; [exact W3| | | |exact V3]; try lia.
              rewrite (winok_length _ _ _ _ V1). lia. }
          assert (Hlen : forall l2, Inv l2 -> length l2 = length l)
            by (intros l2 (V1 & _); apply (winok_length _ _ _ _ V1)).
          assert (Fin : forall l2, Inv l2 -> sortedw l2 first i -> sortedw l2 (S i) last ->
                    winok first last l l2 /\ sortedw l2 first last).
          { intros l2 (V1 & V2 & V3) S1 S2. split; auto. eapply split_sorted; eauto. }
          assert (Inv1 : Inv l1) by (split; auto).
          assert (Both : forall l2, Inv l2 ->
            exists l',
              (if i - first <? last - i then
                 l' <- sort_fuel comp fuel limit first i l2 ;;
                 sort_fuel comp fuel limit (S i) last l'
               else
                 l' <- sort_fuel comp fuel limit (S i) last l2 ;;
                 sort_fuel comp fuel limit first i l') = Ok l' /\
              winok first last l l' /\ sortedw l' first last).
          { intros l2 V2. pose proof (Hlen _ V2) as L2.
            destruct (i - first <? last - i).
            - destruct (IH first i l2) as (l3 & E3 & W3 & S3); try lia.
              rewrite E3; cbn [bind].
              pose proof (Hl _ _ V2 W3) as V3. pose proof (Hlen _ V3) as L3.
              destruct (IH (S i) last l3) as (l4 & E4 & W4 & S4); try lia.
              exists l4. split; auto. pose proof (Hrt _ _ V3 W4) as V4.
              apply Fin; auto. eapply winok_sortedw_out; [exact W4| |exact S3]. lia.
            - destruct (IH (S i) last l2) as (l3 & E3 & W3 & S3); try lia.
              rewrite E3; cbn [bind].
              pose proof (Hrt _ _ V2 W3) as V3. pose proof (Hlen _ V3) as L3.
              destruct (IH first i l3) as (l4 & E4 & W4 & S4); try lia.
              exists l4. split; auto. pose proof (Hl _ _ V3 W4) as V4.
              apply Fin; auto. eapply winok_sortedw_out; [exact W4| |exact S3]. lia. }
          destruct (cnt =? 0); [|apply Both; auto].
          destruct (insertion_sort_incomplete_spec first i l1) as (fs & l2 & E2 & W2 & S2);
            try lia.
          rewrite E2; cbn [bind].
          pose proof (Hl _ _ Inv1 W2) as V2. pose proof (Hlen _ V2) as L2.
          destruct (insertion_sort_incomplete_spec (S i) last l2) as (ss & l3 & E3 & W3 & S3);
            try lia.
          rewrite E3; cbn [bind].
          pose proof (Hrt _ _ V2 W3) as V3. pose proof (Hlen _ V3) as L3.
          destruct ss; destruct fs.
          -- exists l3. split; auto. apply Fin; auto.
             eapply winok_sortedw_out; [exact W3| |exact (S2 eq_refl)]. lia.
          -- destruct (IH first i l3) as (l4 & E4 & W4 & S4); try lia.
             exists l4. split; auto. pose proof (Hl _ _ V3 W4) as V4.
             apply Fin; auto. eapply winok_sortedw_out; [exact W4| |exact (S3 eq_refl)]. lia.
          -- destruct (IH (S i) last l3) as (l4 & E4 & W4 & S4); try lia.
             exists l4. split; auto. pose proof (Hrt _ _ V3 W4) as V4.
             apply Fin; auto. eapply winok_sortedw_out; [exact W4| |]; [lia|].
             eapply winok_sortedw_out; [exact W3| |exact (S2 eq_refl)]. lia.
          -- apply Both; auto.
  Qed.

  (** List form. *)
  Lemma sort_sorts limit pre mid post :
    exists mid', sort comp limit (length pre) (length pre + length mid) (pre ++ mid ++ post)
                   = Ok (pre ++ mid' ++ post) /\
      Permutation mid mid' /\ sorted_by comp mid'.
  Proof.
    unfold sort.
    destruct (sort_fuel_spec limit (S (length pre + length mid - length pre))
                (length pre) (length pre + length mid) (pre ++ mid ++ post))
      as (l' & E & (H1 & H2 & H3) & Hs).
    - lia.
    - rewrite !app_length. lia.
    - lia.
    - destruct (frame_split pre mid post l' H3 H2) as [mid' [-> Hp]].
      exists mid'. split; auto. split; auto.
      apply sorted_by_nth. intros i j x y Hij Hx Hy.
      pose proof (nth_error_some_lt _ _ _ Hy). pose proof (nth_error_some_lt _ _ _ Hx).
      pose proof (Permutation_length Hp).
      apply (Hs (length pre + i) (length pre + j) x y); try lia.
      + rewrite nth_error_app2 by lia. rewrite nth_error_app1 by lia.
        rewrite <- Hx. f_equal. lia.
      + rewrite nth_error_app2 by lia. rewrite nth_error_app1 by lia.
        rewrite <- Hy. f_equal. lia.
  Qed.
End Sort.
