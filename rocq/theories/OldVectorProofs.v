(** Proofs about Vector of deprecated/daw_vector.h. *)
From Verif Require Import Common CommonProofs OldVector SpecOldVector.
From Coq Require Import Lia.
Open Scope nat_scope.

Section Basics.
  Context {A : Type}.
  Lemma upd_upd (l : list A) i x y : upd (upd l i x) i y = upd l i y.
  Proof. revert i. induction l as [|a l IH]; intros [|i]; cbn; auto. now rewrite IH. Qed.
  Lemma upd_comm (l : list A) i j x y : i <> j -> upd (upd l i x) j y = upd (upd l j y) i x.
  Proof.
    revert i j. induction l as [|a l IH]; intros [|i] [|j] N; cbn; auto; try congruence.
    rewrite IH by lia. reflexivity.
  Qed.
  Lemma upd_same (l : list A) i x : nth_error l i = Some x -> upd l i x = l.
  Proof. revert i. induction l as [|a l IH]; intros [|i] H; cbn in *; try congruence. now rewrite IH. Qed.
  Lemma upd_mid (pre post : list A) x y : upd (pre ++ x :: post) (length pre) y = pre ++ y :: post.
  Proof. induction pre as [|a pre IH]; cbn; auto. now rewrite IH. Qed.
  Lemma nth_mid (pre post : list A) x : nth_error (pre ++ x :: post) (length pre) = Some x.
  Proof. induction pre; cbn; auto. Qed.
  Lemma repeat_add (x : A) n m : repeat x (n + m) = repeat x n ++ repeat x m.
  Proof. induction n; cbn; congruence. Qed.
  Lemma nth_repeat (x : A) n k : k < n -> nth_error (repeat x n) k = Some x.
  Proof. revert k; induction n; intros [|k] H; cbn; auto; try lia. apply IHn. lia. Qed.
  Lemma nth_map_some (l : list A) k : k < length l -> nth_error (map Some l) k = Some (nth_error l k).
  Proof. revert k; induction l; intros [|k] H; cbn in *; auto; try lia. apply IHl. lia. Qed.
End Basics.

Section VecProofs.
  Context {T : Type} (esize page : nat) (usable : nat -> nat) (trivial : bool) (moved : T -> T) (dflt : T).
  Hypothesis MA : malloc_ok esize page usable.
  Hypothesis TM : trivial = true -> forall x, moved x = x.
  Notation mem := (memory T).

  Definition cellsof (n : nat) (l : list T) : list (option T) := map Some l ++ repeat None (n - length l).
  (** The representation: content, capacity and block. *)
  Definition rep (h : mem) (v : vec) (l : list T) : Prop :=
    len v = length l /\ length l <= room v /\
    match first v with
    | None => room v = 0
    | Some a => exists b, nth_error h a = Some (Some b) /\ esize * room v <= bytes b /\
                          cells b = cellsof (bytes b / esize) l
    end.
  Definition owns (h0 h : mem) (v : vec) : Prop := only_new h0 h (fun a => first v = Some a) /\ length h0 <= length h
    /\ (forall a, first v = Some a -> length h0 <= a).

  Lemma room_cells b r : esize * r <= bytes b -> r <= bytes (T := T) b / esize.
  Proof. intros H. destruct MA as (E & _). apply Nat.div_le_lower_bound; lia. Qed.
  Lemma cellsof_length n l : length l <= n -> length (cellsof n l) = n.
  Proof. intros H. unfold cellsof. rewrite app_length, map_length, repeat_length. lia. Qed.
  Lemma cellsof_nth n l i : i < length l -> nth_error (cellsof n l) i = Some (nth_error l i).
  Proof. intros H. unfold cellsof. rewrite nth_error_app1 by (rewrite map_length; lia). now apply nth_map_some. Qed.

  Lemma load_ok (h : mem) a b i x : nth_error h a = Some (Some b) -> nth_error (cells b) i = Some (Some x) ->
    load h (Some a) i = Ok x.
  Proof. intros H K. unfold load, cell. rewrite H. rewrite (rd_some _ _ _ K). reflexivity. Qed.
  Lemma set_ok (h : mem) a b i c : nth_error h a = Some (Some b) -> i < length (cells b) ->
    set_cell h (Some a) i c = Ok (upd h a (Some (Block (bytes b) (upd (cells b) i c)))).
  Proof. intros H K. unfold set_cell. rewrite H. apply Nat.ltb_lt in K. now rewrite K. Qed.
  Lemma set_mid (h : mem) a n pre c post c' : nth_error h a = Some (Some (Block n (pre ++ c :: post))) ->
    set_cell h (Some a) (length pre) c' = Ok (upd h a (Some (Block n (pre ++ c' :: post)))).
  Proof.
    intros H. rewrite (set_ok _ _ _ _ _ H); cbn [cells bytes].
    - now rewrite upd_mid.
    - rewrite app_length. cbn. lia.
  Qed.
  Lemma load_mid (h : mem) a n pre x post : nth_error h a = Some (Some (Block n (pre ++ Some x :: post))) ->
    load h (Some a) (length pre) = Ok x.
  Proof. intros H. eapply load_ok; [exact H|]. cbn [cells]. apply nth_mid. Qed.

  Lemma relocate_ok keeps l : forall (h : mem) a d na nd pre1 post1 pre2 old post2,
    a <> d -> length pre1 = length pre2 -> length old = length l ->
    nth_error h a = Some (Some (Block na (pre1 ++ map Some l ++ post1))) ->
    nth_error h d = Some (Some (Block nd (pre2 ++ old ++ post2))) ->
    relocate keeps h (Some a) (length pre1) (length l) (Some d) =
    Ok (upd (upd h a (Some (Block na (pre1 ++ map Some (map keeps l) ++ post1)))) d
            (Some (Block nd (pre2 ++ map Some l ++ post2)))).
  Proof.
    induction l as [|x l IH]; intros h a d na nd pre1 post1 pre2 old post2 N L1 L2 Ha Hd.
    - destruct old; [|discriminate L2]. cbn in *. rewrite (upd_same h a) by exact Ha. now rewrite (upd_same h d) by exact Hd.
    - destruct old as [|o old]; [discriminate L2|]. injection L2 as L2.
      cbn [relocate length map app] in *. unfold construct_at.
      rewrite (load_mid _ _ _ _ _ _ Ha). cbn [bind].
      rewrite L1. rewrite (set_mid h d _ _ _ _ (Some x) Hd). cbn [bind]. rewrite <- L1.
      assert (Ad : a < length h) by (eapply nth_error_some_lt; exact Ha).
      assert (Dd : d < length h) by (eapply nth_error_some_lt; exact Hd).
      rewrite (set_mid _ a na pre1 (Some x) (map Some l ++ post1)) by (rewrite nth_error_upd_ne by exact N; exact Ha).
      cbn [bind].
      replace (S (length pre1)) with (length (pre1 ++ [Some (keeps x)])) by (rewrite app_length; cbn; lia).
      rewrite (IH _ a d na nd (pre1 ++ [Some (keeps x)]) post1 (pre2 ++ [Some x]) old post2).
      + f_equal. rewrite <- !app_assoc. cbn [app].
        rewrite upd_upd. rewrite (upd_comm h d a) by congruence. rewrite upd_upd. reflexivity.
      + exact N.
      + rewrite !app_length. cbn. lia.
      + exact L2.
      + rewrite <- app_assoc. cbn [app]. apply nth_error_upd_eq. rewrite upd_length. exact Ad.
      + rewrite nth_error_upd_ne by congruence. rewrite <- app_assoc. cbn [app]. apply nth_error_upd_eq. exact Dd.
  Qed.

  Lemma snoc_app {A} (l : list A) x r : (l ++ [x]) ++ r = l ++ x :: r.
  Proof. now rewrite <- app_assoc. Qed.

  Lemma destroy_n_ok l : forall (h : mem) a n post, nth_error h a = Some (Some (Block n (map Some l ++ post))) ->
    destroy_n h (Some a) (length l) = Ok (upd h a (Some (Block n (repeat None (length l) ++ post)))).
  Proof.
    induction l as [|x l IH] using rev_ind; intros h a n post H.
    - cbn in *. now rewrite (upd_same h a) by exact H.
    - rewrite app_length, Nat.add_comm. cbn [length Nat.add destroy_n]. unfold destroy_at.
      rewrite map_app in H. cbn [map] in H. rewrite snoc_app in H.
      assert (E : length l = length (map Some l)) by (now rewrite map_length).
      pose proof (load_mid _ _ _ _ _ _ H) as Ld. rewrite <- E in Ld. rewrite Ld. cbn [bind].
      pose proof (set_mid _ _ _ _ _ _ None H) as St. rewrite <- E in St. rewrite St. cbn [bind].
      rewrite (IH _ a n (None :: post)) by (apply nth_error_upd_eq; eapply nth_error_some_lt; exact H).
      rewrite upd_upd. replace (repeat None (length l) ++ None :: post) with (repeat (@None T) (S (length l)) ++ post).
      { reflexivity. }
      rewrite <- (Nat.add_1_r (length l)), repeat_add, <- app_assoc. reflexivity.
  Qed.
  Lemma assign_all_ok vs : forall (h : mem) a n pre old post, trivial = true \/ Forall (fun c => c <> None) old ->
    length old = length vs ->
    nth_error h a = Some (Some (Block n (pre ++ old ++ post))) ->
    assign_all trivial h (Some a) (length pre) vs = Ok (upd h a (Some (Block n (pre ++ map Some vs ++ post)))).
  Proof.
    induction vs as [|x vs IH]; intros h a n pre old post W L H.
    - destruct old; [|discriminate L]. cbn in *. now rewrite (upd_same h a) by exact H.
    - destruct old as [|o old]; [discriminate L|]. injection L as L. cbn [assign_all app map] in *.
      assert (A : assign_at trivial h (Some a) (length pre) x = Ok (upd h a (Some (Block n (pre ++ Some x :: old ++ post))))).
      { unfold assign_at, cell. rewrite H. cbn [cells]. rewrite (rd_some _ _ _ (nth_mid pre (old ++ post) o)). cbn [bind].
        rewrite (set_mid _ _ _ _ _ _ (Some x) H). destruct o; [reflexivity|].
        destruct W as [W|W]; [now rewrite W|]. inversion W; congruence. }
      rewrite A. cbn [bind].
      replace (S (length pre)) with (length (pre ++ [Some x])) by (rewrite app_length; cbn; lia).
      rewrite (IH _ a n (pre ++ [Some x]) old post).
      + rewrite upd_upd, snoc_app. reflexivity.
      + destruct W as [W|W]; [now left|]. right. now inversion W.
      + exact L.
      + rewrite snoc_app. apply nth_error_upd_eq. eapply nth_error_some_lt; exact H.
  Qed.

  Lemma rep_block (h : mem) v l a : rep h v l -> first v = Some a ->
    exists n, nth_error h a = Some (Some (Block n (cellsof (n / esize) l))) /\ esize * room v <= n /\ length l <= n / esize.
  Proof.
    intros (L1 & L2 & L3) F. rewrite F in L3. destruct L3 as (b & Hb & R & C). exists (bytes b).
    rewrite <- C. destruct b as [n c]. cbn [bytes cells] in *. split; [exact Hb|]. split; [exact R|].
    pose proof (room_cells (Block n c) (room v) R) as K. cbn [bytes] in K. lia.
  Qed.
  Lemma rep_intro (h : mem) a l n r : nth_error h a = Some (Some (Block n (cellsof (n / esize) l))) ->
    esize * r <= n -> length l <= r -> rep h (Vec (Some a) (length l) r) l.
  Proof. intros H R L. split; [reflexivity|]. split; [exact L|]. cbn. exists (Block n (cellsof (n / esize) l)). auto. Qed.
  Lemma rep_none (h : mem) v l : rep h v l -> first v = None -> l = [] /\ v = v_empty.
  Proof.
    intros (L1 & L2 & L3) F. rewrite F in L3. destruct l; [|cbn in L2; lia].
    destruct v as [f s r]. cbn in *. subst. auto.
  Qed.
  Lemma rep_len (h : mem) v l : rep h v l -> len v = length l.
  Proof. intros R. apply R. Qed.
  Lemma rep_get (h : mem) v l i x : rep h v l -> nth_error l i = Some x -> v_get h v i = Ok x.
  Proof.
    intros R H. unfold v_get. pose proof (nth_error_some_lt _ _ _ H) as K.
    destruct (first v) as [a|] eqn:F.
    - destruct (rep_block _ _ _ _ R F) as (n & Hb & _ & _). eapply load_ok; [exact Hb|]. cbn [cells].
      rewrite cellsof_nth by exact K. now rewrite H.
    - destruct (rep_none _ _ _ R F) as (-> & _). cbn in K. lia.
  Qed.
  Lemma rep_holds (h : mem) v l : rep h v l -> holds h v l.
  Proof. intros R. split; [exact (rep_len _ _ _ R)|]. intros i x. apply rep_get. exact R. Qed.

  Lemma round_ge n : n < round_to_page_size page n.
  Proof.
    destruct MA as (_ & P & _). unfold round_to_page_size.
    pose proof (Nat.div_mod n page ltac:(lia)) as D. pose proof (Nat.mod_upper_bound n page ltac:(lia)). nia.
  Qed.
  Lemma calc_ge (h : mem) v sz : sz <= calc_new_size page h v sz.
  Proof.
    unfold calc_new_size. destruct (sz <=? _) eqn:E; [now apply Nat.leb_le|].
    pose proof (round_ge (Nat.max sz (room v * 2))). lia.
  Qed.
  Lemma calc_room (h : mem) v l sz : rep h v l -> room v <= calc_new_size page h v sz.
  Proof.
    intros R. unfold calc_new_size. destruct (sz <=? _) eqn:E.
    - unfold alloc_size. destruct (first v) as [a|] eqn:F.
      + destruct (rep_block _ _ _ _ R F) as (n & Hb & Hr & _). rewrite Hb. cbn [bytes]. destruct MA as (M & _). nia.
      + destruct (rep_none _ _ _ R F) as (_ & ->). cbn. lia.
    - pose proof (round_ge (Nat.max sz (room v * 2))). lia.
  Qed.
  Lemma realloc_fresh (h : mem) v sz : 0 < sz ->
    reallocate esize page usable h (first v) (calc_new_size page h v sz) =
    let (h, a) := allocate esize page usable h (calc_new_size page h v sz) in (h, Some a).
  Proof.
    intros S0. unfold reallocate, allocate. destruct (_ <? _) eqn:E; [|reflexivity]. exfalso. apply Nat.ltb_lt in E.
    destruct MA as (M & _).
    assert (D : alloc_size h (first v) / esize <= alloc_size h (first v)) by (apply Nat.div_le_upper_bound; nia).
    unfold calc_new_size in E. destruct (sz <=? _) eqn:L; [lia|]. apply Nat.leb_gt in L.
    pose proof (round_ge (Nat.max sz (room v * 2))). lia.
  Qed.
  Definition newb (count : nat) : nat := usable (round_to_page_size page (esize * count)).
  Lemma newb_ge c : esize * c <= newb c.
  Proof.
    unfold newb. destruct MA as (_ & _ & U). pose proof (U (round_to_page_size page (esize * c))).
    pose proof (round_ge (esize * c)). lia.
  Qed.
  Lemma newb_cells c : c <= newb c / esize.
  Proof. destruct MA as (M & _). apply Nat.div_le_lower_bound; [lia|]. apply newb_ge. Qed.
  Lemma allocate_eq (h : mem) c : allocate esize page usable h c =
    (h ++ [Some (Block (newb c) (repeat None (newb c / esize)))], length h).
  Proof. reflexivity. Qed.

  Lemma nth_snoc {A} (l : list A) x : nth_error (l ++ [x]) (length l) = Some x.
  Proof. apply nth_mid. Qed.

  (** Ownership through the changes of memory. *)
  Lemma live_upd (h : mem) a b c : a < length h -> live (upd h a (Some b)) c <-> live h c \/ c = a.
  Proof.
    intros L. unfold live. destruct (Nat.eq_dec c a) as [->|N].
    - rewrite nth_error_upd_eq by exact L. split; [now right|]. intros _. eauto.
    - rewrite nth_error_upd_ne by exact N. split; [now left|]. intros [H|H]; [exact H|congruence].
  Qed.
  Lemma owns_upd (h0 h : mem) v v' a b : owns h0 h v -> first v = Some a -> a < length h -> first v' = Some a ->
    owns h0 (upd h a (Some b)) v'.
  Proof.
    intros ((O1 & O2) & O3 & O4) F L F'. split; [split|split].
    - intros c C. rewrite nth_error_upd_ne; [now apply O1|]. specialize (O4 _ F). lia.
    - intros c C. rewrite (live_upd h a b c L), (O2 c C), F, F'. split; [intros [H|H]; congruence|]. intros H. left. exact H.
    - now rewrite upd_length.
    - intros c C. rewrite F' in C. rewrite <- F in C. auto.
  Qed.
  Lemma owns_same (h0 h : mem) v v' : owns h0 h v -> first v' = first v -> owns h0 h v'.
  Proof. intros O E. unfold owns, only_new in *. rewrite E. exact O. Qed.
  Lemma owns_empty (h0 : mem) : owns h0 h0 v_empty.
  Proof.
    split; [split|split; [lia|]].
    - reflexivity.
    - intros a L. split; [|discriminate]. intros (b & B). apply nth_error_some_lt in B. lia.
    - discriminate.
  Qed.

  Lemma grow_ok (h0 h : mem) v l sz : rep h v l -> owns h0 h v -> len v < sz -> room v <= sz ->
    exists h' v', resize_impl esize page usable moved h v sz = Ok (h', v') /\ rep h' v' l /\ owns h0 h' v' /\
      room v' = calc_new_size page h v sz /\ first v <> first v' /\
      (forall a, first v = Some a -> nth_error h' a = Some None).
  Proof.
    intros R O K C. pose proof (rep_len _ _ _ R) as Ln. unfold resize_impl.
    replace (sz <=? len v) with false by (symmetry; apply Nat.leb_gt; lia).
    replace (room v <=? sz) with true by (symmetry; apply Nat.leb_le; lia).
    rewrite realloc_fresh by lia. rewrite allocate_eq.
    set (ns := calc_new_size page h v sz).
    assert (NS : length l <= ns).
    { pose proof (calc_ge h v sz). fold ns in H. rewrite <- Ln. lia. }
    pose proof (newb_cells ns) as NC. destruct (first v) as [a|] eqn:F.
    - destruct (rep_block _ _ _ _ R F) as (n & Hb & Hr & Hl).
      assert (La : a < length h) by (eapply nth_error_some_lt; exact Hb).
      replace (length h =? a) with false by (symmetry; apply Nat.eqb_neq; lia).
      set (h1 := h ++ [_]).
      assert (Ha : nth_error h1 a = Some (Some (Block n ([] ++ map Some l ++ repeat None (n / esize - length l))))).
      { unfold h1. rewrite nth_error_app1 by exact La. exact Hb. }
      assert (Hd : nth_error h1 (length h) = Some (Some (Block (newb ns)
        ([] ++ repeat None (length l) ++ repeat None (newb ns / esize - length l))))).
      { unfold h1. rewrite nth_snoc. cbn [app]. rewrite <- repeat_add.
        replace (length l + (newb ns / esize - length l)) with (newb ns / esize) by lia. reflexivity. }
      rewrite Ln. change 0 with (length (@nil (option T))) at 1.
      rewrite (relocate_ok moved l h1 a (length h) _ _ [] _ [] _ _ ltac:(lia) eq_refl (repeat_length _ _) Ha Hd).
      cbn [bind app]. set (h2 := upd (upd h1 a _) _ _). unfold v_clear. rewrite F, Ln.
      assert (L1 : length h1 = S (length h)) by (unfold h1; rewrite app_length; cbn; lia).
      assert (Ha2 : nth_error h2 a = Some (Some (Block n (map Some (map moved l) ++ repeat None (n / esize - length l))))).
      { unfold h2. rewrite nth_error_upd_ne by lia. apply nth_error_upd_eq. lia. }
      pose proof (destroy_n_ok (map moved l) h2 a _ _ Ha2) as D. rewrite map_length in D. rewrite D. cbn [bind].
      unfold deallocate.
      set (h3 := upd h2 a _). assert (L2 : length h2 = S (length h)) by (unfold h2; rewrite !upd_length; exact L1).
      assert (H3 : nth_error h3 a = Some (Some (Block n (repeat None (length l) ++ repeat None (n / esize - length l))))).
      { unfold h3. apply nth_error_upd_eq. lia. }
      rewrite H3. cbn [bind]. exists (upd h3 a None), (Vec (Some (length h)) (length l) ns).
      assert (HN : nth_error (upd h3 a None) (length h) = Some (Some (Block (newb ns) (cellsof (newb ns / esize) l)))).
      { rewrite nth_error_upd_ne by lia. unfold h3. rewrite nth_error_upd_ne by lia. unfold h2. apply nth_error_upd_eq.
        rewrite upd_length. lia. }
      assert (HA : nth_error (upd h3 a None) a = Some None).
      { apply nth_error_upd_eq. unfold h3. rewrite upd_length. lia. }
      assert (HO : forall c, c <> a -> c < length h -> nth_error (upd h3 a None) c = nth_error h c).
      { intros c N L. rewrite nth_error_upd_ne by exact N. unfold h3. rewrite nth_error_upd_ne by exact N. unfold h2.
        rewrite nth_error_upd_ne by lia. rewrite nth_error_upd_ne by exact N. unfold h1. now rewrite nth_error_app1. }
      assert (LL : length (upd h3 a None) = S (length h)) by (unfold h3; rewrite !upd_length; exact L2).
      split; [reflexivity|]. split; [apply rep_intro with (newb ns); [exact HN|apply newb_ge|exact NS]|].
      split; [|split; [reflexivity|split]].
      + destruct O as ((O1 & O2) & O3 & O4). rewrite F in *. specialize (O4 a eq_refl). split; [split|split].
        * intros c L. rewrite HO by lia. now apply O1.
        * intros c L. cbn [first]. destruct (Nat.eq_dec c a) as [->|N].
          -- split; [intros (b & B); congruence|]. intros E. injection E. lia.
          -- destruct (Nat.eq_dec c (length h)) as [->|N'].
             ++ split; [reflexivity|]. intros _. eexists. exact HN.
             ++ split; [|intros E; congruence]. intros (b & B). pose proof (nth_error_some_lt _ _ _ B).
                rewrite HO in B by lia. assert (X : live h c) by (exists b; exact B). apply (O2 c L) in X. congruence.
        * lia.
        * cbn [first]. intros c E. injection E as <-. lia.
      + cbn. intros E. injection E. lia.
      + intros c E. injection E as <-. exact HA.
    - destruct (rep_none _ _ _ R F) as (-> & ->). cbn [first len v_empty relocate bind v_clear destroy_n deallocate].
      eexists. exists (Vec (Some (length h)) 0 ns). split; [reflexivity|]. split; [|split; [|split; [reflexivity|split; [discriminate|discriminate]]]].
      + apply (rep_intro _ _ [] (newb ns)); [|apply newb_ge|lia]. rewrite nth_snoc. unfold cellsof. cbn. now rewrite Nat.sub_0_r.
      + destruct O as ((O1 & O2) & O3 & O4). split; [split|split].
        * intros c L. rewrite nth_error_app1 by lia. now apply O1.
        * intros c L. cbn [first]. destruct (Nat.eq_dec c (length h)) as [->|N'].
          -- split; [reflexivity|]. intros _. eexists. apply nth_snoc.
          -- split; [|intros E; congruence]. intros (b & B). pose proof (nth_error_some_lt _ _ _ B) as Lb.
             rewrite app_length in Lb. cbn in Lb. rewrite nth_error_app1 in B by lia.
             assert (X : live h c) by (exists b; exact B). apply (O2 c L) in X. discriminate X.
        * rewrite app_length. lia.
        * cbn [first]. intros c E. injection E as <-. lia.
  Qed.

  Lemma rep_upd (h0 h : mem) v l l' a n : rep h v l -> owns h0 h v -> first v = Some a ->
    nth_error h a = Some (Some (Block n (cellsof (n / esize) l))) -> esize * room v <= n -> length l' <= room v ->
    let h' := upd h a (Some (Block n (cellsof (n / esize) l'))) in
    let v' := Vec (Some a) (length l') (room v) in
    rep h' v' l' /\ owns h0 h' v'.
  Proof.
    intros R O F Hb Hr L h' v'. pose proof (nth_error_some_lt _ _ _ Hb) as La. split.
    - apply rep_intro with n; [|exact Hr|exact L]. apply nth_error_upd_eq. exact La.
    - apply (owns_upd h0 h v); auto.
  Qed.
  Lemma cellsof_snoc n l x : length l < n ->
    cellsof n (l ++ [x]) = map Some l ++ Some x :: repeat None (n - length l - 1) /\
    cellsof n l = map Some l ++ None :: repeat None (n - length l - 1).
  Proof.
    intros L. unfold cellsof. rewrite map_app, app_length. cbn [map length]. rewrite snoc_app.
    replace (n - (length l + 1)) with (n - length l - 1) by lia. split; [reflexivity|].
    replace (n - length l) with (S (n - length l - 1)) at 1 by lia. reflexivity.
  Qed.
  Lemma rep_room_ok (h : mem) v l : rep h v l -> length l <= room v.
  Proof. intros R. apply R. Qed.

  Lemma push_room (h0 h : mem) v l x : rep h v l -> owns h0 h v -> length l < room v ->
    exists h', construct_at h (first v) (len v) x = Ok h' /\
      rep h' (Vec (first v) (len v + 1) (room v)) (l ++ [x]) /\ owns h0 h' (Vec (first v) (len v + 1) (room v)).
  Proof.
    intros R O L. destruct (first v) as [a|] eqn:F; [|destruct (rep_none _ _ _ R F) as (-> & ->); cbn in L; lia].
    destruct (rep_block _ _ _ _ R F) as (n & Hb & Hr & Hl). pose proof (rep_len _ _ _ R) as Ln.
    assert (Lc : length l < n / esize).
    { pose proof (room_cells (Block n []) (room v) Hr) as K. cbn in K. lia. }
    destruct (cellsof_snoc (n / esize) l x Lc) as (C1 & C2).
    unfold construct_at. rewrite Ln. pose proof Hb as Hb'. rewrite C2 in Hb'.
    pose proof (set_mid _ _ _ _ _ _ (Some x) Hb') as St. rewrite map_length in St. rewrite St, <- C1.
    eexists. split; [reflexivity|].
    assert (L' : length (l ++ [x]) <= room v) by (rewrite app_length; cbn; lia).
    pose proof (rep_upd h0 h v l (l ++ [x]) a n R O F Hb Hr L') as K. rewrite app_length in K. exact K.
  Qed.
  Lemma push_ok (h0 h : mem) v l x : rep h v l -> owns h0 h v ->
    exists h' v', v_push_back esize page usable moved h v x = Ok (h', v') /\ rep h' v' (l ++ [x]) /\ owns h0 h' v'.
  Proof.
    intros R O. unfold v_push_back. pose proof (rep_len _ _ _ R) as Ln. destruct (room v <=? len v) eqn:E.
    - apply Nat.leb_le in E. destruct (grow_ok h0 h v l (len v + 1) R O ltac:(lia) ltac:(lia)) as (h1 & v1 & -> & R1 & O1 & Rm & _).
      cbn [bind]. pose proof (calc_ge h v (len v + 1)) as K.
      destruct (push_room h0 h1 v1 l x R1 O1 ltac:(lia)) as (h2 & -> & R2 & O2). cbn [bind]. eauto.
    - apply Nat.leb_gt in E. cbn [bind].
      destruct (push_room h0 h v l x R O ltac:(lia)) as (h2 & -> & R2 & O2). cbn [bind]. eauto.
  Qed.

  Lemma cellsof_pop n l x : length l < n -> upd (cellsof n (l ++ [x])) (length l) None = cellsof n l.
  Proof.
    intros L. destruct (cellsof_snoc n l x L) as (C1 & C2). rewrite C1, C2.
    pose proof (upd_mid (map Some l) (repeat None (n - length l - 1)) (Some x) None) as U.
    rewrite map_length in U. exact U.
  Qed.
  Lemma pop_ok (h0 h : mem) v l x : rep h v (l ++ [x]) -> owns h0 h v ->
    exists h', destroy_at h (first v) (len v - 1) = Ok h' /\
      rep h' (Vec (first v) (len v - 1) (room v)) l /\ owns h0 h' (Vec (first v) (len v - 1) (room v)).
  Proof.
    intros R O. destruct (first v) as [a|] eqn:F.
    2:{ destruct (rep_none _ _ _ R F) as (E & _). destruct l; discriminate E. }
    destruct (rep_block _ _ _ _ R F) as (n & Hb & Hr & Hl). pose proof (rep_len _ _ _ R) as Ln.
    rewrite app_length in *. cbn [length] in *.
    replace (len v - 1) with (length l) by lia. unfold destroy_at.
    rewrite (load_ok _ _ _ (length l) x Hb).
    2:{ cbn [cells]. rewrite cellsof_nth by (rewrite app_length; cbn; lia). now rewrite nth_snoc. }
    cbn [bind]. rewrite (set_ok _ _ _ (length l) None Hb) by (cbn [cells]; rewrite cellsof_length; rewrite ?app_length; cbn; lia).
    cbn [cells bytes]. rewrite cellsof_pop by lia. eexists. split; [reflexivity|].
    pose proof (rep_room_ok _ _ _ R) as Rm. rewrite app_length in Rm. cbn in Rm.
    exact (rep_upd h0 h v _ l a n R O F Hb Hr ltac:(lia)).
  Qed.
  Lemma firstn_snoc {A} (l : list A) x k : k <= length l -> firstn k (l ++ [x]) = firstn k l.
  Proof. intros L. rewrite firstn_app. replace (k - length l) with 0 by lia. cbn. now rewrite app_nil_r. Qed.
  Lemma shrink_ok k : forall (h0 h : mem) v l, rep h v l -> owns h0 h v -> k <= length l ->
    exists h' v', shrink h v k = Ok (h', v') /\ rep h' v' (firstn (length l - k) l) /\ owns h0 h' v' /\
      room v' = room v /\ first v' = first v.
  Proof.
    induction k as [|k IH]; intros h0 h v l R O L.
    - cbn. exists h, v. rewrite Nat.sub_0_r, firstn_all. auto.
    - destruct l as [|x l] using rev_ind; [cbn in L; lia|]. clear IHl. rewrite app_length in *. cbn [length] in *.
      destruct (pop_ok h0 h v l x R O) as (h1 & D & R1 & O1). cbn [shrink]. rewrite D. cbn [bind].
      destruct (IH h0 h1 _ l R1 O1 ltac:(lia)) as (h2 & v2 & -> & R2 & O2 & Rm & Fs).
      exists h2, v2. split; [reflexivity|]. rewrite firstn_snoc by lia.
      replace (length l + 1 - S k) with (length l - k) by lia. auto.
  Qed.
  Lemma clear_ok (h0 h : mem) v l : rep h v l -> owns h0 h v ->
    exists h' v', v_clear h v = Ok (h', v') /\ rep h' v' [] /\ owns h0 h' v' /\ first v' = first v /\ v' = Vec (first v) 0 (room v).
  Proof.
    intros R O. unfold v_clear. rewrite (rep_len _ _ _ R). destruct (first v) as [a|] eqn:F.
    - destruct (rep_block _ _ _ _ R F) as (n & Hb & Hr & Hl). unfold cellsof in Hb.
      rewrite (destroy_n_ok l h a n _ Hb). cbn [bind]. eexists. eexists. split; [reflexivity|].
      rewrite <- repeat_add. replace (length l + (n / esize - length l)) with (n / esize) by lia.
      pose proof (rep_upd h0 h v l [] a n R O F Hb Hr (Nat.le_0_l _)) as K. unfold cellsof in K. cbn [map length app] in K.
      rewrite Nat.sub_0_r in K. destruct K. auto.
    - destruct (rep_none _ _ _ R F) as (-> & ->). cbn. exists h, v_empty. auto.
  Qed.
  Lemma assign_end_ok (h0 h : mem) v l vs : trivial = true \/ vs = [] -> rep h v l -> owns h0 h v -> length l + length vs <= room v ->
    exists h', assign_all trivial h (first v) (len v) vs = Ok h' /\
      rep h' (Vec (first v) (len v + length vs) (room v)) (l ++ vs) /\ owns h0 h' (Vec (first v) (len v + length vs) (room v)).
  Proof.
    intros W R O L. pose proof (rep_len _ _ _ R) as Ln. destruct (first v) as [a|] eqn:F.
    - destruct (rep_block _ _ _ _ R F) as (n & Hb & Hr & Hl).
      pose proof (room_cells (Block n []) (room v) Hr) as K. cbn in K.
      assert (E : cellsof (n / esize) l = map Some l ++ repeat None (length vs) ++ repeat None (n / esize - length l - length vs)).
      { unfold cellsof. rewrite <- repeat_add. f_equal. f_equal. lia. }
      pose proof Hb as Hb'. rewrite E in Hb'.
      assert (W' : trivial = true \/ Forall (fun c : option T => c <> None) (repeat None (length vs))).
      { destruct W as [W|W]; [now left|right; subst; constructor]. }
      pose proof (assign_all_ok vs h a n _ _ _ W' (repeat_length _ _) Hb') as A.
      rewrite map_length in A. rewrite Ln, A. eexists. split; [reflexivity|].
      assert (E' : cellsof (n / esize) (l ++ vs) = map Some l ++ map Some vs ++ repeat None (n / esize - length l - length vs)).
      { unfold cellsof. rewrite map_app, app_length, <- app_assoc.
        replace (n / esize - (length l + length vs)) with (n / esize - length l - length vs) by lia. reflexivity. }
      rewrite <- E'. pose proof (rep_upd h0 h v l (l ++ vs) a n R O F Hb Hr) as U. rewrite app_length in U. exact (U L).
    - destruct (rep_none _ _ _ R F) as (-> & ->). cbn in L. destruct vs; [|cbn in L; lia]. cbn. exists h. auto.
  Qed.
  Lemma firstn_ge {A} (l : list A) n : length l <= n -> firstn n l = l.
  Proof. apply firstn_all2. Qed.
  Lemma resize_ok (h0 h : mem) v l n : trivial = true \/ n <= length l -> rep h v l -> owns h0 h v ->
    exists h' v', v_resize esize page usable trivial moved dflt h v n = Ok (h', v') /\
      rep h' v' (firstn n l ++ repeat dflt (n - length l)) /\ owns h0 h' v'.
  Proof.
    intros W R O. unfold v_resize. pose proof (rep_len _ _ _ R) as Ln. destruct (le_lt_dec n (len v)) as [L|L].
    - unfold resize_impl. replace (n <=? len v) with true by (symmetry; apply Nat.leb_le; lia).
      destruct (shrink_ok (len v - n) h0 h v l R O ltac:(lia)) as (h1 & v1 & -> & R1 & O1 & Rm & Fs). cbn [bind].
      replace (length l - (len v - n)) with n in R1 by lia.
      assert (L1 : len v1 = n) by (rewrite (rep_len _ _ _ R1), firstn_length; lia).
      rewrite L1, Nat.sub_diag. cbn [repeat assign_all bind]. replace (n - length l) with 0 by lia. cbn [repeat].
      rewrite app_nil_r. exists h1, v1. split; [|auto]. destruct v1; cbn in *; subst. reflexivity.
    - assert (G : exists h1 v1, resize_impl esize page usable moved h v n = Ok (h1, v1) /\ rep h1 v1 l /\ owns h0 h1 v1 /\ n <= room v1).
      { destruct (le_lt_dec (room v) n) as [C|C].
        - destruct (grow_ok h0 h v l n R O L C) as (h1 & v1 & E & R1 & O1 & Rm & _). exists h1, v1.
          pose proof (calc_ge h v n). split; [exact E|]. split; [exact R1|]. split; [exact O1|lia].
        - exists h, v. unfold resize_impl. replace (n <=? len v) with false by (symmetry; apply Nat.leb_gt; lia).
          replace (room v <=? n) with false by (symmetry; apply Nat.leb_gt; lia). split; [reflexivity|]. split; [exact R|]. split; [exact O|lia]. }
      destruct G as (h1 & v1 & -> & R1 & O1 & Rm). cbn [bind]. pose proof (rep_len _ _ _ R1) as L1.
      destruct (assign_end_ok h0 h1 v1 l (repeat dflt (n - len v1))) as (h2 & -> & R2 & O2); auto.
      + destruct W as [W|W]; [now left|]. lia.
      + rewrite repeat_length. lia.
      + cbn [bind]. rewrite repeat_length in R2, O2. replace (len v1 + (n - len v1)) with n in R2, O2 by lia.
        rewrite firstn_ge by lia. rewrite <- L1. eauto.
  Qed.
  Lemma reserve_ok (h0 h : mem) v l n : rep h v l -> owns h0 h v ->
    exists h' v', v_reserve esize page usable moved h v n = Ok (h', v') /\ rep h' v' l /\ owns h0 h' v' /\ n <= room v'.
  Proof.
    intros R O. unfold v_reserve. destruct (room v <? n) eqn:E.
    - apply Nat.ltb_lt in E. pose proof (rep_room_ok _ _ _ R) as Rm. pose proof (rep_len _ _ _ R) as Ln.
      destruct (grow_ok h0 h v l n R O ltac:(lia) ltac:(lia)) as (h1 & v1 & E1 & R1 & O1 & Rm1 & _).
      exists h1, v1. pose proof (calc_ge h v n). split; [exact E1|]. split; [exact R1|]. split; [exact O1|lia].
    - apply Nat.ltb_ge in E. exists h, v. auto.
  Qed.
  Lemma cellsof_upd n l i x : i < length l -> upd (cellsof n l) i (Some x) = cellsof n (upd l i x).
  Proof.
    intros L. unfold cellsof. rewrite upd_length. revert i L. induction l as [|y l IH]; intros [|i] L; cbn in *; try lia; auto.
    f_equal. specialize (IH i ltac:(lia)). 
    assert (G : forall r r' : list (option T), upd (map Some l ++ r) i (Some x) = map Some (upd l i x) ++ r).
    { clear - L. revert i L. induction l as [|z l IH]; intros [|i] L r r'; cbn in *; try lia; auto. f_equal. apply IH; [lia|exact r]. }
    apply G. exact [].
  Qed.
  Lemma write_ok (h0 h : mem) v l i x : rep h v l -> owns h0 h v -> i < length l ->
    exists h', v_write trivial h v i x = Ok (h', v) /\ rep h' v (upd l i x) /\ owns h0 h' v.
  Proof.
    intros R O L. unfold v_write. destruct (nth_error_ex _ _ L) as (y & Y).
    pose proof (rep_get _ _ _ _ _ R Y) as G. unfold v_get in G. rewrite G. cbn [bind].
    destruct (first v) as [a|] eqn:F.
    2:{ destruct (rep_none _ _ _ R F) as (-> & _). cbn in L. lia. }
    destruct (rep_block _ _ _ _ R F) as (n & Hb & Hr & Hl). unfold assign_at, cell. rewrite Hb. cbn [cells].
    rewrite (rd_some _ i (Some y)) by (rewrite cellsof_nth by exact L; now rewrite Y). cbn [bind].
    rewrite (set_ok _ _ _ i (Some x) Hb) by (cbn [cells]; rewrite cellsof_length; lia). cbn [cells bytes bind].
    rewrite cellsof_upd by exact L. eexists. split; [reflexivity|].
    pose proof (rep_upd h0 h v l (upd l i x) a n R O F Hb Hr) as K. rewrite upd_length in K.
    specialize (K (rep_room_ok _ _ _ R)). cbn zeta in K. rewrite <- (rep_len _ _ _ R), <- F in K.
    destruct v; exact K.
  Qed.
  Lemma destroy_ok (h0 h : mem) v l : rep h v l -> owns h0 h v ->
    exists h', v_destroy h v = Ok h' /\ only_new h0 h' (fun _ => False).
  Proof.
    intros R O. unfold v_destroy. destruct (clear_ok h0 h v l R O) as (h1 & v1 & -> & R1 & O1 & F1 & _). cbn [bind].
    destruct O1 as ((A1 & A2) & A3 & A4). destruct (first v1) as [a|] eqn:F.
    - destruct (rep_block _ _ _ _ R1 F) as (n & Hb & _). cbn [deallocate]. rewrite Hb. eexists. split; [reflexivity|].
      specialize (A4 a eq_refl). split.
      + intros c C. rewrite nth_error_upd_ne by lia. now apply A1.
      + intros c C. split; [|contradiction]. intros (b & B). destruct (Nat.eq_dec c a) as [->|N].
        * rewrite nth_error_upd_eq in B by (eapply nth_error_some_lt; exact Hb). discriminate B.
        * rewrite nth_error_upd_ne in B by exact N. assert (X : live h1 c) by (exists b; exact B).
          apply (A2 c C) in X. congruence.
    - cbn. eexists. split; [reflexivity|]. split; [exact A1|]. intros c C. rewrite (A2 c C). split; [discriminate|contradiction].
  Qed.

  Lemma cellsof_nth_all n l j : length l <= n -> nth_error (cellsof n l) j =
    if j <? length l then Some (nth_error l j) else if j <? n then Some None else None.
  Proof.
    intros L. destruct (j <? length l) eqn:E.
    - apply Nat.ltb_lt in E. now apply cellsof_nth.
    - apply Nat.ltb_ge in E. destruct (j <? n) eqn:E2.
      + apply Nat.ltb_lt in E2. unfold cellsof. rewrite nth_error_app2 by (rewrite map_length; lia). rewrite map_length.
        apply nth_repeat. lia.
      + apply Nat.ltb_ge in E2. apply nth_error_None. rewrite cellsof_length; lia.
  Qed.
  Lemma overlap_ok k n : forall (h : mem) a N s (cs : list (option T)), trivial = true -> 1 <= k ->
    nth_error h a = Some (Some (Block N cs)) -> s + n + k <= length cs ->
    (forall i, s <= i < s + n -> exists x, nth_error cs i = Some (Some x)) ->
    exists cs', overlap_loop moved h (Some a) s k n = Ok (upd h a (Some (Block N cs'))) /\ length cs' = length cs /\
      forall j, nth_error cs' j = if (s + k <=? j) && (j <? s + n + k) then nth_error cs (j - k) else nth_error cs j.
  Proof.
    induction n as [|n IH]; intros h a N s cs W K H L X.
    - exists cs. cbn [overlap_loop]. rewrite (upd_same h a) by exact H. split; [reflexivity|]. split; [reflexivity|]. intros j.
      destruct (Nat.leb_spec (s + k) j), (Nat.ltb_spec j (s + 0 + k)); cbn [andb]; auto; lia.
    - destruct (X (s + n) ltac:(lia)) as (x & E). cbn [overlap_loop]. unfold construct_at.
      rewrite (load_ok _ _ _ _ _ H E). cbn [bind].
      rewrite (set_ok _ _ _ (s + n + k) (Some x) H) by (cbn [cells]; lia). cbn [bind cells bytes].
      pose proof (nth_error_some_lt _ _ _ H) as La.
      set (cs1 := upd cs (s + n + k) (Some x)).
      assert (H1 : nth_error (upd h a (Some (Block N cs1))) a = Some (Some (Block N cs1))) by (now apply nth_error_upd_eq).
      rewrite (set_ok _ _ _ (s + n) (Some (moved x)) H1) by (cbn [cells]; unfold cs1; rewrite upd_length; lia).
      cbn [bind cells bytes]. rewrite (TM W x). rewrite (upd_same cs1).
      2:{ unfold cs1. rewrite nth_error_upd_ne by lia. exact E. }
      rewrite upd_upd.
      destruct (IH (upd h a (Some (Block N cs1))) a N s cs1 W K H1) as (cs' & E' & L' & V).
      + unfold cs1. rewrite upd_length. lia.
      + intros i I1. unfold cs1. rewrite nth_error_upd_ne by lia. apply X. lia.
      + exists cs'. rewrite upd_upd in E'. split; [exact E'|]. split; [rewrite L'; unfold cs1; apply upd_length|].
        intros j. rewrite V. unfold cs1.
        destruct (Nat.leb_spec (s + k) j), (Nat.ltb_spec j (s + n + k)), (Nat.ltb_spec j (s + S n + k)); cbn [andb]; try lia.
        * rewrite nth_error_upd_ne by lia. reflexivity.
        * assert (j = s + n + k) by lia. subst j. rewrite nth_error_upd_eq by lia.
          replace (s + n + k - k) with (s + n) by lia. now rewrite E.
        * rewrite nth_error_upd_ne by lia. reflexivity.
        * rewrite nth_error_upd_ne by lia. reflexivity.
  Qed.
  Lemma assign_nth vs : forall (h : mem) a N i (cs : list (option T)), trivial = true ->
    nth_error h a = Some (Some (Block N cs)) -> i + length vs <= length cs ->
    exists cs', assign_all trivial h (Some a) i vs = Ok (upd h a (Some (Block N cs'))) /\ length cs' = length cs /\
      forall j, nth_error cs' j = if (i <=? j) && (j <? i + length vs) then Some (nth_error vs (j - i)) else nth_error cs j.
  Proof.
    intros h a N i cs W H L.
    assert (E : cs = firstn i cs ++ firstn (length vs) (skipn i cs) ++ skipn (length vs) (skipn i cs)).
    { rewrite firstn_skipn. now rewrite firstn_skipn. }
    pose proof H as H'. rewrite E in H'.
    assert (Lo : length (firstn (length vs) (skipn i cs)) = length vs) by (rewrite firstn_length, skipn_length; lia).
    pose proof (assign_all_ok vs h a N _ _ _ (or_introl W) Lo H') as A.
    rewrite firstn_length, Nat.min_l in A by lia. rewrite A. eexists. split; [reflexivity|]. split.
    - rewrite !app_length, map_length, firstn_length, !skipn_length. lia.
    - intros j. destruct (Nat.leb_spec i j) as [J|J]; cbn [andb].
      + rewrite nth_error_app2 by (rewrite firstn_length; lia). rewrite firstn_length, Nat.min_l by lia.
        destruct (Nat.ltb_spec j (i + length vs)) as [J2|J2].
        * rewrite nth_error_app1 by (rewrite map_length; lia). apply nth_map_some. lia.
        * rewrite nth_error_app2 by (rewrite map_length; lia). rewrite map_length, !nth_error_skipn. f_equal. lia.
      + rewrite nth_error_app1 by (rewrite firstn_length; lia). rewrite nth_error_firstn.
        replace (j <? i) with true by (symmetry; apply Nat.ltb_lt; lia). reflexivity.
  Qed.
  (** What insert does, cell by cell. *)
  Lemma insert_cells (h0 h : mem) v l i vs : trivial = true -> rep h v l -> owns h0 h v -> i <= length l -> 1 <= length vs ->
    exists h' v' a N cs, v_insert esize page usable trivial moved h v i vs = Ok (h', v') /\
      first v' = Some a /\ len v' = length vs + length l /\ len v' <= room v' /\ esize * room v' <= N /\ owns h0 h' v' /\
      nth_error h' a = Some (Some (Block N cs)) /\ length cs = N / esize /\ room v' <= N / esize /\
      forall j, nth_error cs j =
        if (i <=? j) && (j <? i + length vs) then Some (nth_error vs (j - i))
        else if (i <? length l) && ((2 * length vs <=? j) && (j <? length l + length vs)) then nth_error (cellsof (N / esize) l) (j - length vs)
        else nth_error (cellsof (N / esize) l) j.
  Proof.
    intros W R O L K. unfold v_insert. pose proof (rep_len _ _ _ R) as Ln.
    replace (len v <? i) with false by (symmetry; apply Nat.ltb_ge; lia).
    assert (G : exists h1 v1, (if room v <=? length vs + len v then resize_impl esize page usable moved h v (length vs + len v) else Ok (h, v)) = Ok (h1, v1)
      /\ rep h1 v1 l /\ owns h0 h1 v1 /\ length vs + length l <= room v1).
    { destruct (room v <=? length vs + len v) eqn:E.
      - apply Nat.leb_le in E. destruct (grow_ok h0 h v l (length vs + len v) R O ltac:(lia) E) as (h1 & v1 & E1 & R1 & O1 & Rm & _).
        pose proof (calc_ge h v (length vs + len v)). exists h1, v1. split; [exact E1|]. split; [exact R1|]. split; [exact O1|lia].
      - apply Nat.leb_gt in E. exists h, v. split; [reflexivity|]. split; [exact R|]. split; [exact O|lia]. }
    destruct G as (h1 & v1 & -> & R1 & O1 & Rm). cbn [bind].
    destruct (first v1) as [a|] eqn:F.
    2:{ destruct (rep_none _ _ _ R1 F) as (-> & ->). cbn in Rm. lia. }
    destruct (rep_block _ _ _ _ R1 F) as (N & Hb & Hr & Hl).
    pose proof (room_cells (Block N []) (room v1) Hr) as Rc. cbn in Rc.
    set (c0 := cellsof (N / esize) l) in *. assert (Lc0 : length c0 = N / esize) by (now apply cellsof_length).
    pose proof (nth_error_some_lt _ _ _ Hb) as La.
    assert (G : exists c1, (if i <? len v then overlapped_relocate moved h1 (Some a) (len v) (length vs) else Ok h1) =
        Ok (upd h1 a (Some (Block N c1))) /\ length c1 = N / esize /\
        forall j, nth_error c1 j = if (i <? length l) && ((2 * length vs <=? j) && (j <? length l + length vs)) then nth_error c0 (j - length vs)
          else nth_error c0 j).
    { rewrite Ln. destruct (i <? length l) eqn:E; cbn [andb].
      - unfold overlapped_relocate. replace (length vs =? 0) with false by (symmetry; apply Nat.eqb_neq; lia).
        destruct (le_lt_dec (length l) (length vs)) as [C|C].
        + replace (length l - length vs) with 0 by lia. exists c0. cbn [overlap_loop]. rewrite (upd_same h1 a) by exact Hb.
          split; [reflexivity|]. split; [exact Lc0|]. intros j.
          destruct (Nat.leb_spec (2 * length vs) j), (Nat.ltb_spec j (length l + length vs)); cbn [andb]; auto. lia.
        + destruct (overlap_ok (length vs) (length l - length vs) h1 a N (length vs) c0 W K Hb) as (c1 & E1 & L1 & V).
          * lia.
          * intros q Q. unfold c0. rewrite cellsof_nth by lia. destruct (nth_error_ex l q ltac:(lia)) as (y & Y). rewrite Y. eauto.
          * exists c1. split; [exact E1|]. split; [lia|]. intros j. rewrite V.
            replace (length vs + length vs) with (2 * length vs) by lia.
            replace (length vs + (length l - length vs) + length vs) with (length l + length vs) by lia. reflexivity.
      - exists c0. rewrite (upd_same h1 a) by exact Hb. auto. }
    destruct G as (c1 & -> & L1 & V1). cbn [bind].
    destruct (assign_nth vs (upd h1 a (Some (Block N c1))) a N i c1 W) as (c2 & -> & L2 & V2).
    - now apply nth_error_upd_eq.
    - lia.
    - cbn [bind]. rewrite upd_upd. do 2 eexists. exists a, N, c2. split; [reflexivity|]. cbn [first len room].
      split; [reflexivity|]. split; [lia|]. split; [lia|]. split; [exact Hr|].
      split; [apply (owns_upd h0 h1 v1); auto|]. split; [now apply nth_error_upd_eq|]. split; [lia|]. split; [exact Rc|].
      intros j. rewrite V2. destruct ((i <=? j) && (j <? i + length vs)); [reflexivity|]. apply V1.
  Qed.
  Lemma ins_nth {A} (l vs : list A) i j : i <= length l ->
    nth_error (firstn i l ++ vs ++ skipn i l) j =
    if j <? i then nth_error l j else if j <? i + length vs then nth_error vs (j - i) else nth_error l (j - length vs).
  Proof.
    intros L. destruct (Nat.ltb_spec j i) as [J|J].
    - rewrite nth_error_app1 by (rewrite firstn_length; lia). rewrite nth_error_firstn.
      now replace (j <? i) with true by (symmetry; apply Nat.ltb_lt; lia).
    - rewrite nth_error_app2 by (rewrite firstn_length; lia). rewrite firstn_length, Nat.min_l by lia.
      destruct (Nat.ltb_spec j (i + length vs)).
      + rewrite nth_error_app1 by lia. reflexivity.
      + rewrite nth_error_app2 by lia. rewrite nth_error_skipn. f_equal. lia.
  Qed.
  Lemma ins_length {A} (l vs : list A) i : i <= length l -> length (firstn i l ++ vs ++ skipn i l) = length vs + length l.
  Proof. intros L. rewrite !app_length, firstn_length, skipn_length. lia. Qed.
  Lemma insert_ok (h0 h : mem) v l i vs : rep h v l -> owns h0 h v -> i <= length l ->
    harmless trivial l (Insert i vs) = true ->
    exists h' v', v_insert esize page usable trivial moved h v i vs = Ok (h', v') /\
      rep h' v' (firstn i l ++ vs ++ skipn i l) /\ owns h0 h' v'.
  Proof.
    intros R O L W. cbn in W. destruct vs as [|x vs0].
    - rewrite app_nil_l, firstn_skipn. unfold v_insert. pose proof (rep_len _ _ _ R) as Ln.
      replace (len v <? i) with false by (symmetry; apply Nat.ltb_ge; lia). cbn [length Nat.add].
      assert (E : (if room v <=? len v then resize_impl esize page usable moved h v (len v) else Ok (h, v)) = Ok (h, v)).
      { destruct (room v <=? len v); [|reflexivity]. unfold resize_impl. rewrite Nat.leb_refl, Nat.sub_diag. reflexivity. }
      rewrite E. cbn [bind]. replace (if i <? len v then _ else Ok h) with (Ok h) by (destruct (i <? len v); reflexivity).
      cbn [bind assign_all]. exists h, v. split; [destruct v; reflexivity|]. auto.
    - set (vs := x :: vs0) in *. replace (length vs =? 0) with false in W by reflexivity. cbn [orb] in W.
      apply andb_true_iff in W. destruct W as (W & C).
      destruct (insert_cells h0 h v l i vs W R O L) as (h' & v' & a & N & cs & E & F & Lv & Lr & Rb & O' & Hb & Lc & Rc & V); [unfold vs; cbn; lia|].
      exists h', v'. split; [exact E|]. split; [|exact O'].
      assert (EC : cs = cellsof (N / esize) (firstn i l ++ vs ++ skipn i l)).
      { apply list_eq_nth. intros j. rewrite V. assert (Ll : length l <= N / esize) by lia.
        rewrite (cellsof_nth_all (N / esize) (firstn i l ++ vs ++ skipn i l)) by (rewrite ins_length by exact L; lia).
        rewrite ins_length, ins_nth by exact L. rewrite !(cellsof_nth_all (N / esize) l) by exact Ll.
        assert (C' : i = length l \/ length vs <= i <= 2 * length vs).
        { apply orb_true_iff in C. destruct C as [C|C]; [left; now apply Nat.eqb_eq|right].
          apply andb_true_iff in C. destruct C as (C1 & C2). apply Nat.leb_le in C1, C2. lia. }
        assert (K : 1 <= length vs) by (unfold vs; cbn; lia). clear - C' K L Ll Lv Lr Rc. revert C' K Lv. generalize (length vs) as k. intros k C K Lv.
        destruct (Nat.leb_spec i j), (Nat.ltb_spec j (i + k)), (Nat.ltb_spec i (length l)), (Nat.leb_spec (2 * k) j), (Nat.ltb_spec j (length l + k)), (Nat.ltb_spec j (k + length l)), (Nat.ltb_spec j i), (Nat.ltb_spec (j - k) (length l)), (Nat.ltb_spec j (length l)), (Nat.ltb_spec (j - k) (N / esize)), (Nat.ltb_spec j (N / esize)); cbn [andb]; try reflexivity; try lia. }
      rewrite EC in Hb. destruct v' as [f s r]. cbn [first len room] in *. subst f.
      replace s with (length (firstn i l ++ vs ++ skipn i l)) by (rewrite ins_length by exact L; lia).
      apply rep_intro with N; [exact Hb|exact Rb|]. rewrite ins_length by exact L. lia.
  Qed.

  Lemma run_ok os : forall (h0 h : mem) v l l', rep h v l -> owns h0 h v -> list_run trivial dflt os l = Some l' ->
    exists h' v', v_run esize page usable trivial moved dflt os (h, v) = Ok (h', v') /\ rep h' v' l' /\ owns h0 h' v'.
  Proof.
    induction os as [|o os IH]; intros h0 h v l l' R O Q.
    - injection Q as <-. cbn. eauto.
    - cbn [list_run] in Q. destruct (harmless trivial l o) eqn:W; [|discriminate Q].
      destruct (list_step dflt l o) as [l1|] eqn:St; [|discriminate Q].
      assert (G : exists h1 v1, v_step esize page usable trivial moved dflt (h, v) o = Ok (h1, v1) /\ rep h1 v1 l1 /\ owns h0 h1 v1).
      { destruct o as [x|i| | |n|n|i vs|i x]; cbn [v_step list_step] in *.
        - injection St as <-. now apply push_ok.
        - discriminate W.
        - destruct l as [|y l _] using rev_ind; [discriminate St|].
          replace (length (l ++ [y]) =? 0) with false in St by (rewrite app_length; symmetry; apply Nat.eqb_neq; cbn; lia).
          injection St as <-. rewrite removelast_last. unfold v_pop_back. pose proof (rep_len _ _ _ R) as Ln. rewrite app_length in Ln. cbn in Ln.
          replace (len v =? 0) with false by (symmetry; apply Nat.eqb_neq; lia).
          destruct (pop_ok h0 h v l y R O) as (h1 & -> & R1 & O1). cbn [bind]. eauto.
        - injection St as <-. destruct (clear_ok h0 h v l R O) as (h1 & v1 & E & R1 & O1 & _). eauto.
        - injection St as <-. apply resize_ok; auto. cbn in W. apply orb_true_iff in W.
          destruct W as [W|W]; [now left|right; now apply Nat.leb_le].
        - injection St as <-. destruct (reserve_ok h0 h v l n R O) as (h1 & v1 & E & R1 & O1 & _). eauto.
        - destruct (length l <? i) eqn:Li; [discriminate St|]. apply Nat.ltb_ge in Li. injection St as <-. now apply insert_ok.
        - destruct (i <? length l) eqn:Li; [|discriminate St]. apply Nat.ltb_lt in Li. injection St as <-.
          destruct (write_ok h0 h v l i x R O Li) as (h1 & E & R1 & O1). eauto. }
      destruct G as (h1 & v1 & E & R1 & O1). cbn [v_run]. rewrite E. cbn [bind]. eapply IH; eauto.
  Qed.

  Notation vrun := (v_run esize page usable trivial moved dflt).
  Lemma rep_empty (h : mem) : rep h v_empty [].
  Proof. split; [reflexivity|]. split; [cbn; lia|]. reflexivity. Qed.
  (** Vectors made by harmless histories. *)
  Lemma reach (h0 h : mem) os v l : list_run trivial dflt os [] = Some l -> vrun os (h0, v_empty) = Ok (h, v) ->
    rep h v l /\ owns h0 h v.
  Proof.
    intros Q E. destruct (run_ok os h0 h0 v_empty [] l (rep_empty h0) (owns_empty h0) Q) as (h' & v' & E' & R & O).
    rewrite E in E'. injection E' as -> ->. auto.
  Qed.
  Lemma rep_frame (h h' : mem) v l : (forall a, first v = Some a -> nth_error h' a = nth_error h a) -> rep h v l -> rep h' v l.
  Proof.
    intros E (R1 & R2 & R3). split; [exact R1|]. split; [exact R2|]. destruct (first v) as [a|] eqn:F; [|exact R3].
    rewrite (E a eq_refl). exact R3.
  Qed.
  Lemma rep_lt (h : mem) v l a : rep h v l -> first v = Some a -> a < length h.
  Proof. intros R F. destruct (rep_block _ _ _ _ R F) as (n & Hb & _). eapply nth_error_some_lt; exact Hb. Qed.
  Lemma reach2 (h0 h1 h2 : mem) os1 os2 v w l m :
    list_run trivial dflt os1 [] = Some l -> vrun os1 (h0, v_empty) = Ok (h1, v) ->
    list_run trivial dflt os2 [] = Some m -> vrun os2 (h1, v_empty) = Ok (h2, w) ->
    rep h2 v l /\ rep h2 w m /\ owns h1 h2 w /\ (forall a, first v = Some a -> a < length h1) /\ owns h0 h1 v.
  Proof.
    intros Q1 E1 Q2 E2. destruct (reach _ _ _ _ _ Q1 E1) as (R1 & O1). destruct (reach _ _ _ _ _ Q2 E2) as (R2 & O2).
    split; [|split; [exact R2|split; [exact O2|split; [|exact O1]]]].
    - apply rep_frame with h1; [|exact R1]. intros a F. apply O2. eapply rep_lt; [exact R1|exact F].
    - intros a F. eapply rep_lt; [exact R1|exact F].
  Qed.

  Lemma history (h0 : mem) os l : list_run trivial dflt os [] = Some l ->
    exists h v, vrun os (h0, v_empty) = Ok (h, v) /\ holds h v l /\ len v <= room v /\
      only_new h0 h (fun a => first v = Some a) /\
      exists h', v_destroy h v = Ok h' /\ only_new h0 h' (fun _ => False).
  Proof.
    intros Q. destruct (run_ok os h0 h0 v_empty [] l (rep_empty h0) (owns_empty h0) Q) as (h & v & E & R & O).
    exists h, v. split; [exact E|]. split; [now apply rep_holds|]. split; [rewrite (rep_len _ _ _ R); now apply rep_room_ok with h|].
    split; [apply O|]. eapply destroy_ok; eauto.
  Qed.
  Lemma reserve_spec (h0 h : mem) os v l n : list_run trivial dflt os [] = Some l -> vrun os (h0, v_empty) = Ok (h, v) ->
    exists h' v', v_reserve esize page usable moved h v n = Ok (h', v') /\ holds h' v' l /\ n <= room v' /\ room v <= room v' /\
      forall x, len v' < room v' -> exists h2 v2, v_push_back esize page usable moved h' v' x = Ok (h2, v2) /\ first v2 = first v' /\ room v2 = room v'.
  Proof.
    intros Q E. destruct (reach _ _ _ _ _ Q E) as (R & O).
    assert (G : exists h' v', v_reserve esize page usable moved h v n = Ok (h', v') /\ rep h' v' l /\ owns h0 h' v' /\ n <= room v' /\ room v <= room v').
    { unfold v_reserve. destruct (room v <? n) eqn:E1.
      - apply Nat.ltb_lt in E1. pose proof (rep_room_ok _ _ _ R) as Rm. pose proof (rep_len _ _ _ R) as Ln.
        destruct (grow_ok h0 h v l n R O ltac:(lia) ltac:(lia)) as (h1 & v1 & E2 & R1 & O1 & Rm1 & _).
        pose proof (calc_ge h v n). exists h1, v1. split; [exact E2|]. split; [exact R1|]. split; [exact O1|]. split; lia.
      - apply Nat.ltb_ge in E1. exists h, v. auto. }
    destruct G as (h' & v' & E' & R' & O' & K1 & K2). exists h', v'. split; [exact E'|]. split; [now apply rep_holds|].
    split; [exact K1|]. split; [exact K2|]. intros x L. unfold v_push_back.
    replace (room v' <=? len v') with false by (symmetry; apply Nat.leb_gt; lia). cbn [bind].
    destruct (push_room h0 h' v' l x R' O') as (h2 & -> & _); [rewrite <- (rep_len _ _ _ R'); lia|]. cbn [bind].
    do 2 eexists. split; [reflexivity|]. auto.
  Qed.

  Lemma assign_raw (h : mem) a b i x vs : trivial = false -> nth_error h a = Some (Some b) -> nth_error (cells b) i = Some None ->
    assign_all trivial h (Some a) i (x :: vs) = UB.
  Proof.
    intros W H N. cbn [assign_all]. unfold assign_at, cell. rewrite H, (rd_some _ _ _ N). cbn [bind]. now rewrite W.
  Qed.
  Lemma assign_raw_end (h : mem) v l x vs : trivial = false -> rep h v l -> length l < room v ->
    assign_all trivial h (first v) (length l) (x :: vs) = UB.
  Proof.
    intros W R L. destruct (first v) as [a|] eqn:F; [|destruct (rep_none _ _ _ R F) as (-> & ->); cbn in L; lia].
    destruct (rep_block _ _ _ _ R F) as (n & Hb & Hr & Hl).
    pose proof (room_cells (Block n []) (room v) Hr) as Rc. cbn in Rc.
    eapply assign_raw; [exact W|exact Hb|]. cbn [cells]. rewrite cellsof_nth_all by lia.
    rewrite Nat.ltb_irrefl. replace (length l <? n / esize) with true by (symmetry; apply Nat.ltb_lt; lia). reflexivity.
  Qed.
  Lemma resize_raw (h0 h : mem) os v l n : trivial = false -> list_run trivial dflt os [] = Some l -> vrun os (h0, v_empty) = Ok (h, v) ->
    length l < n -> v_resize esize page usable trivial moved dflt h v n = UB.
  Proof.
    intros W Q E L. destruct (reach _ _ _ _ _ Q E) as (R & O). unfold v_resize. pose proof (rep_len _ _ _ R) as Ln.
    assert (G : exists h1 v1, resize_impl esize page usable moved h v n = Ok (h1, v1) /\ rep h1 v1 l /\ n <= room v1).
    { destruct (le_lt_dec (room v) n) as [C|C].
      - destruct (grow_ok h0 h v l n R O ltac:(lia) C) as (h1 & v1 & E1 & R1 & O1 & Rm & _). exists h1, v1.
        pose proof (calc_ge h v n). split; [exact E1|]. split; [exact R1|lia].
      - exists h, v. unfold resize_impl. replace (n <=? len v) with false by (symmetry; apply Nat.leb_gt; lia).
        replace (room v <=? n) with false by (symmetry; apply Nat.leb_gt; lia). split; [reflexivity|]. split; [exact R|lia]. }
    destruct G as (h1 & v1 & -> & R1 & Rm). cbn [bind]. rewrite (rep_len _ _ _ R1).
    destruct (n - length l) as [|k] eqn:K; [lia|]. cbn [repeat]. rewrite (assign_raw_end h1 v1 l) by (auto; lia). reflexivity.
  Qed.
  Lemma insert_raw (h0 h : mem) os v l vs : trivial = false -> list_run trivial dflt os [] = Some l -> vrun os (h0, v_empty) = Ok (h, v) ->
    vs <> [] -> v_insert esize page usable trivial moved h v (length l) vs = UB.
  Proof.
    intros W Q E N. destruct (reach _ _ _ _ _ Q E) as (R & O). unfold v_insert. pose proof (rep_len _ _ _ R) as Ln.
    destruct vs as [|x vs]; [congruence|]. rewrite Ln, Nat.ltb_irrefl.
    assert (G : exists h1 v1, (if room v <=? length (x :: vs) + length l then resize_impl esize page usable moved h v (length (x :: vs) + length l) else Ok (h, v)) = Ok (h1, v1)
      /\ rep h1 v1 l /\ length l < room v1).
    { destruct (room v <=? _) eqn:E1.
      - apply Nat.leb_le in E1. cbn [length] in *. destruct (grow_ok h0 h v l (S (length vs) + length l) R O ltac:(lia) E1) as (h1 & v1 & E2 & R1 & O1 & Rm & _).
        pose proof (calc_ge h v (S (length vs) + length l)). exists h1, v1. split; [exact E2|]. split; [exact R1|lia].
      - apply Nat.leb_gt in E1. cbn [length] in *. exists h, v. split; [reflexivity|]. split; [exact R|lia]. }
    destruct G as (h1 & v1 & -> & R1 & Rm). cbn [bind]. rewrite (assign_raw_end h1 v1 l) by auto. reflexivity.
  Qed.
  Lemma insert_wrong (h0 h : mem) os v l i vs : trivial = true -> list_run trivial dflt os [] = Some l -> vrun os (h0, v_empty) = Ok (h, v) ->
    NoDup l -> vs <> [] -> i < length l -> ~ (length vs <= i <= 2 * length vs) ->
    exists h' v', v_insert esize page usable trivial moved h v i vs = Ok (h', v') /\ len v' = length vs + length l /\
      ~ holds h' v' (firstn i l ++ vs ++ skipn i l).
  Proof.
    intros W Q E ND N L C. destruct (reach _ _ _ _ _ Q E) as (R & O).
    assert (K : 1 <= length vs) by (destruct vs; [congruence|cbn; lia]).
    destruct (insert_cells h0 h v l i vs W R O ltac:(lia) K) as (h' & v' & a & M & cs & E' & F & Lv & Lr & Rb & O' & Hb & Lc & Rc & V).
    exists h', v'. split; [exact E'|]. split; [exact Lv|]. intros (H1 & H2).
    assert (Rd : forall j x, nth_error (firstn i l ++ vs ++ skipn i l) j = Some x -> nth_error cs j = Some (Some x)).
    { intros j x J. specialize (H2 j x J). unfold v_get, load, cell in H2. rewrite F, Hb in H2. cbn [cells] in H2.
      unfold rd in H2. destruct (nth_error cs j) as [[y|]|]; cbn [bind] in H2; congruence. }
    assert (Ll : length l <= M / esize) by lia.
    destruct (le_lt_dec (length vs) i) as [C1|C1].
    - (* i > 2k: cell 2k *)
      destruct (nth_error_ex l (2 * length vs) ltac:(lia)) as (x & X).
      pose proof (Rd (2 * length vs) x) as Y. rewrite ins_nth in Y by lia.
      replace (2 * length vs <? i) with true in Y by (symmetry; apply Nat.ltb_lt; lia). specialize (Y X).
      rewrite V in Y. replace (i <=? 2 * length vs) with false in Y by (symmetry; apply Nat.leb_gt; lia).
      replace (i <? length l) with true in Y by (symmetry; apply Nat.ltb_lt; lia). rewrite Nat.leb_refl in Y.
      replace (2 * length vs <? length l + length vs) with true in Y by (symmetry; apply Nat.ltb_lt; lia). cbn [andb] in Y.
      rewrite cellsof_nth in Y by lia. injection Y as Y.
      assert (Z : 2 * length vs - length vs = 2 * length vs).
      { apply (proj1 (NoDup_nth_error l) ND); [lia|]. exact (eq_trans Y (eq_sym X)). }
      lia.
    - (* i < k: cell i + k *)
      destruct (nth_error_ex l i L) as (x & X).
      pose proof (Rd (i + length vs) x) as Y. rewrite ins_nth in Y by lia.
      replace (i + length vs <? i) with false in Y by (symmetry; apply Nat.ltb_ge; lia). rewrite Nat.ltb_irrefl in Y.
      replace (i + length vs - length vs) with i in Y by lia. specialize (Y X). rewrite V in Y.
      rewrite Nat.ltb_irrefl, Bool.andb_false_r in Y.
      replace (2 * length vs <=? i + length vs) with false in Y by (symmetry; apply Nat.leb_gt; lia). cbn [andb] in Y.
      rewrite Bool.andb_false_r in Y. rewrite cellsof_nth_all in Y by exact Ll.
      destruct (Nat.ltb_spec (i + length vs) (length l)) as [D|D].
      + injection Y as Y. assert (Z : i + length vs = i) by (apply (proj1 (NoDup_nth_error l) ND); [lia|congruence]). lia.
      + destruct (i + length vs <? M / esize); discriminate Y.
  Qed.

  Lemma push_self_room (h0 h : mem) os v l i x : list_run trivial dflt os [] = Some l -> vrun os (h0, v_empty) = Ok (h, v) ->
    nth_error l i = Some x -> len v < room v ->
    exists h' v', v_push_self esize page usable moved h v i = Ok (h', v') /\ holds h' v' (l ++ [x]).
  Proof.
    intros Q E X L. destruct (reach _ _ _ _ _ Q E) as (R & O). unfold v_push_self.
    replace (room v <=? len v) with false by (symmetry; apply Nat.leb_gt; lia). cbn [bind].
    pose proof (rep_get _ _ _ _ _ R X) as G. unfold v_get in G. rewrite G. cbn [bind].
    destruct (push_room h0 h v l x R O) as (h1 & -> & R1 & _); [rewrite <- (rep_len _ _ _ R); exact L|]. cbn [bind].
    do 2 eexists. split; [reflexivity|]. now apply rep_holds.
  Qed.
  Lemma push_self_full (h0 h : mem) os v l i : list_run trivial dflt os [] = Some l -> vrun os (h0, v_empty) = Ok (h, v) ->
    i < length l -> len v = room v -> v_push_self esize page usable moved h v i = UB.
  Proof.
    intros Q E X L. destruct (reach _ _ _ _ _ Q E) as (R & O). unfold v_push_self.
    replace (room v <=? len v) with true by (symmetry; apply Nat.leb_le; lia).
    destruct (grow_ok h0 h v l (len v + 1) R O ltac:(lia) ltac:(lia)) as (h1 & v1 & -> & R1 & O1 & Rm & _ & D). cbn [bind].
    destruct (first v) as [a|] eqn:F; [|reflexivity]. unfold load, cell. rewrite (D a eq_refl). reflexivity.
  Qed.
  Lemma range_ok (h : mem) vs : trivial = true ->
    exists h' v, v_range esize page usable trivial h vs = Ok (h', v) /\ rep h' v vs /\ owns h h' v.
  Proof.
    intros W. unfold v_range. rewrite allocate_eq. set (c := round_to_page_size page (length vs)).
    pose proof (round_ge (length vs)) as G. fold c in G. pose proof (newb_cells c) as NC.
    set (h1 := h ++ [_]). assert (H1 : nth_error h1 (length h) = Some (Some (Block (newb c) (cellsof (newb c / esize) [])))).
    { unfold h1. rewrite nth_snoc. unfold cellsof. cbn. now rewrite Nat.sub_0_r. }
    assert (R : rep h1 (Vec (Some (length h)) 0 c) []) by (apply (rep_intro _ _ [] (newb c)); [exact H1|apply newb_ge|cbn; lia]).
    assert (O : owns h h1 (Vec (Some (length h)) 0 c)).
    { unfold h1. split; [split|split].
      - intros a A. now rewrite nth_error_app1.
      - intros a A. cbn [first]. destruct (Nat.eq_dec a (length h)) as [->|N].
        + split; [reflexivity|]. intros _. eexists. apply nth_snoc.
        + split; [|congruence]. intros (b & B). apply nth_error_some_lt in B. rewrite app_length in B. cbn in B. lia.
      - rewrite app_length. lia.
      - cbn. intros a A. injection A as <-. lia. }
    destruct (assign_end_ok h h1 _ [] vs (or_introl W) R O) as (h2 & E & R2 & O2); [cbn; lia|]. cbn [first len room] in *.
    rewrite E. cbn [bind]. do 2 eexists. split; [reflexivity|]. split; [exact R2|exact O2].
  Qed.
  Lemma range_spec (h : mem) vs : trivial = true ->
    exists h' v, v_range esize page usable trivial h vs = Ok (h', v) /\ holds h' v vs /\ only_new h h' (fun a => first v = Some a) /\
      exists h2, v_destroy h' v = Ok h2 /\ only_new h h2 (fun _ => False).
  Proof.
    intros W. destruct (range_ok h vs W) as (h' & v & E & R & O). exists h', v. split; [exact E|]. split; [now apply rep_holds|].
    split; [apply O|]. eapply destroy_ok; eauto.
  Qed.
  Lemma range_raw (h : mem) vs : trivial = false -> vs <> [] -> v_range esize page usable trivial h vs = UB.
  Proof.
    intros W N. destruct vs as [|x vs]; [congruence|]. unfold v_range. rewrite allocate_eq.
    set (c := round_to_page_size page _). pose proof (round_ge (length (x :: vs))) as G. fold c in G. pose proof (newb_cells c) as NC.
    rewrite (assign_raw _ _ (Block (newb c) (repeat None (newb c / esize))) 0 x vs W); [reflexivity|apply nth_snoc|].
    cbn [cells]. apply nth_repeat. cbn [length] in G. lia.
  Qed.

  Lemma copy_cells_ok l : forall (h : mem) a d na nd pre1 post1 pre2 old post2,
    a <> d -> length pre1 = length pre2 -> length old = length l ->
    nth_error h a = Some (Some (Block na (pre1 ++ map Some l ++ post1))) ->
    nth_error h d = Some (Some (Block nd (pre2 ++ old ++ post2))) ->
    copy_cells h (Some a) (length pre1) (length l) (Some d) =
    Ok (upd h d (Some (Block nd (pre2 ++ map Some l ++ post2)))).
  Proof.
    induction l as [|x l IH]; intros h a d na nd pre1 post1 pre2 old post2 N L1 L2 Ha Hd.
    - destruct old; [|discriminate L2]. cbn in *. now rewrite (upd_same h d) by exact Hd.
    - destruct old as [|o old]; [discriminate L2|]. injection L2 as L2.
      cbn [copy_cells length map app] in *. unfold construct_at.
      rewrite (load_mid _ _ _ _ _ _ Ha). cbn [bind].
      rewrite L1. rewrite (set_mid h d _ _ _ _ (Some x) Hd). cbn [bind]. rewrite <- L1.
      replace (S (length pre1)) with (length (pre1 ++ [Some x])) by (rewrite app_length; cbn; lia).
      rewrite (IH _ a d na nd (pre1 ++ [Some x]) post1 (pre2 ++ [Some x]) old post2).
      + rewrite snoc_app, upd_upd. reflexivity.
      + exact N.
      + rewrite !app_length. cbn. lia.
      + exact L2.
      + rewrite nth_error_upd_ne by exact N. rewrite snoc_app. exact Ha.
      + rewrite snoc_app. apply nth_error_upd_eq. eapply nth_error_some_lt; exact Hd.
  Qed.
  (** The copy is right, but its block has room for fewer elements than it says. *)
  Lemma copy_ok (h : mem) v l : rep h v l ->
    exists h', v_copy esize page usable h v = Ok (h', Vec (Some (length h)) (length l) (room v)) /\
      nth_error h' (length h) = Some (Some (Block (newb (length l)) (cellsof (newb (length l) / esize) l))) /\
      length h' = S (length h) /\ (forall a, a < length h -> nth_error h' a = nth_error h a).
  Proof.
    intros R. unfold v_copy. rewrite allocate_eq, (rep_len _ _ _ R). set (h1 := h ++ [_]).
    pose proof (newb_cells (length l)) as NC.
    assert (Hd : nth_error h1 (length h) = Some (Some (Block (newb (length l))
      ([] ++ repeat None (length l) ++ repeat None (newb (length l) / esize - length l))))).
    { unfold h1. rewrite nth_snoc. cbn [app]. rewrite <- repeat_add.
      replace (length l + (newb (length l) / esize - length l)) with (newb (length l) / esize) by lia. reflexivity. }
    assert (L1 : length h1 = S (length h)) by (unfold h1; rewrite app_length; cbn; lia).
    exists (upd h1 (length h) (Some (Block (newb (length l)) (cellsof (newb (length l) / esize) l)))). split; [|split; [|split]].
    - destruct (first v) as [a|] eqn:F.
      + destruct (rep_block _ _ _ _ R F) as (n & Hb & _). pose proof (nth_error_some_lt _ _ _ Hb) as La.
        assert (Ha : nth_error h1 a = Some (Some (Block n ([] ++ map Some l ++ repeat None (n / esize - length l))))).
        { unfold h1. rewrite nth_error_app1 by exact La. exact Hb. }
        change 0 with (length (@nil (option T))) at 1.
        rewrite (copy_cells_ok l h1 a (length h) _ _ [] _ [] _ _ ltac:(lia) eq_refl (repeat_length _ _) Ha Hd). reflexivity.
      + destruct (rep_none _ _ _ R F) as (-> & ->). cbn [length copy_cells bind]. rewrite (upd_same h1); [reflexivity|].
        rewrite Hd. unfold cellsof. reflexivity.
    - apply nth_error_upd_eq. lia.
    - rewrite upd_length. exact L1.
    - intros a A. rewrite nth_error_upd_ne by lia. unfold h1. now rewrite nth_error_app1.
  Qed.
  Lemma owns_new (h h' : mem) v : first v = Some (length h) -> length h' = S (length h) -> live h' (length h) ->
    (forall a, a < length h -> nth_error h' a = nth_error h a) -> owns h h' v.
  Proof.
    intros F L V E. split; [split|split].
    - exact E.
    - intros a A. rewrite F. split.
      + intros (b & B). apply nth_error_some_lt in B. f_equal. lia.
      + intros X. injection X as <-. exact V.
    - lia.
    - intros a A. rewrite F in A. injection A as <-. lia.
  Qed.
  (** The copy, with the capacity that it really has. *)
  Lemma copy_rep (h : mem) v l r : rep h v l -> length l <= r -> esize * r <= newb (length l) ->
    exists h', v_copy esize page usable h v = Ok (h', Vec (Some (length h)) (length l) (room v)) /\
      rep h' (Vec (Some (length h)) (length l) r) l /\ owns h h' (Vec (Some (length h)) (length l) r) /\ rep h' v l.
  Proof.
    intros R L1 L2. destruct (copy_ok h v l R) as (h' & E & H & L & K). exists h'. split; [exact E|].
    split; [eapply rep_intro; eauto|]. split.
    - apply owns_new; auto. eexists. exact H.
    - apply rep_frame with h; [|exact R]. intros a F. apply K. eapply rep_lt; [exact R|exact F].
  Qed.
  Lemma destroy_room (h : mem) f n r r' : v_destroy h (Vec f n r) = v_destroy h (Vec f n r').
  Proof. unfold v_destroy, v_clear. cbn [first len]. destruct (destroy_n h f n); reflexivity. Qed.
  Lemma get_room (h : mem) f n r r' i : v_get h (Vec f n r) i = v_get h (Vec f n r') i.
  Proof. reflexivity. Qed.
  Lemma holds_room (h : mem) f n r r' l : holds h (Vec f n r) l -> holds h (Vec f n r') l.
  Proof. intros H. exact H. Qed.

  (** A copy: same elements, separate memory, and what happens to the copy does not
      matter to the original, as long as it does not grow beyond its block. *)
  Lemma copy_spec (h0 h : mem) os v l : list_run trivial dflt os [] = Some l -> vrun os (h0, v_empty) = Ok (h, v) ->
    exists h' w, v_copy esize page usable h v = Ok (h', w) /\ holds h' w l /\ holds h' v l /\
      only_new h h' (fun a => first w = Some a) /\ exists h2, v_destroy h' w = Ok h2 /\ holds h2 v l /\ only_new h h2 (fun _ => False).
  Proof.
    intros Q E. destruct (reach _ _ _ _ _ Q E) as (R & O).
    destruct (copy_rep h v l (length l) R (le_n _) (newb_ge _)) as (h' & E' & R1 & O1 & R2).
    do 2 eexists. split; [exact E'|]. split; [exact (holds_room _ _ _ _ _ _ (rep_holds _ _ _ R1))|]. split; [now apply rep_holds|].
    split; [apply O1|]. destruct (destroy_ok _ _ _ _ R1 O1) as (h2 & D & N). exists h2.
    rewrite (destroy_room h' _ _ (room v) (length l)). split; [exact D|]. split; [|exact N].
    apply rep_holds. apply rep_frame with h; [|exact R]. intros a F. apply N. eapply rep_lt; [exact R|exact F].
  Qed.
  Lemma copy_run (h0 h : mem) os v l os2 l2 : list_run trivial dflt os [] = Some l -> vrun os (h0, v_empty) = Ok (h, v) ->
    esize * room v <= usable (round_to_page_size page (esize * length l)) -> list_run trivial dflt os2 l = Some l2 ->
    exists h' w h2 w2, v_copy esize page usable h v = Ok (h', w) /\ vrun os2 (h', w) = Ok (h2, w2) /\ holds h2 w2 l2 /\ holds h2 v l.
  Proof.
    intros Q E C Q2. destruct (reach _ _ _ _ _ Q E) as (R & O).
    destruct (copy_rep h v l (room v) R (rep_room_ok _ _ _ R) C) as (h' & E' & R1 & O1 & R2).
    destruct (run_ok os2 h h' _ l l2 R1 O1 Q2) as (h2 & w2 & E2 & R3 & O3).
    exists h', (Vec (Some (length h)) (length l) (room v)), h2, w2. split; [exact E'|]. split; [exact E2|]. split; [now apply rep_holds|].
    apply rep_holds. apply rep_frame with h; [|exact R]. intros a F. apply O3. eapply rep_lt; [exact R|exact F].
  Qed.
  (** Pushing beyond the end of the block. *)
  Lemma over_push ys : forall (h : mem) a N l r, nth_error h a = Some (Some (Block N (cellsof (N / esize) l))) ->
    length l <= N / esize -> N / esize < r -> length l + length ys = N / esize + 1 ->
    vrun (map PushBack ys) (h, Vec (Some a) (length l) r) = UB.
  Proof.
    induction ys as [|y ys IH]; intros h a N l r H L1 L2 L3; [cbn in L3; lia|].
    cbn [map v_run v_step]. unfold v_push_back. cbn [len room first].
    replace (r <=? length l) with false by (symmetry; apply Nat.leb_gt; lia). cbn [bind first len room].
    destruct (le_lt_dec (N / esize) (length l)) as [C|C].
    - unfold construct_at, set_cell. rewrite H. cbn [cells]. rewrite cellsof_length by exact L1.
      replace (length l <? N / esize) with false by (symmetry; apply Nat.ltb_ge; lia). reflexivity.
    - destruct (cellsof_snoc (N / esize) l y C) as (C1 & C2). pose proof H as H'. rewrite C2 in H'.
      pose proof (set_mid _ _ _ _ _ _ (Some y) H') as St. rewrite map_length in St. unfold construct_at.
      rewrite St, <- C1. cbn [bind]. replace (length l + 1) with (length (l ++ [y])) by (rewrite app_length; cbn; lia).
      apply IH with N.
      + apply nth_error_upd_eq. eapply nth_error_some_lt; exact H.
      + rewrite app_length. cbn. lia.
      + exact L2.
      + rewrite app_length. cbn in *. lia.
  Qed.
  Lemma copy_overflow (h0 h : mem) os v l ys : list_run trivial dflt os [] = Some l -> vrun os (h0, v_empty) = Ok (h, v) ->
    usable (round_to_page_size page (esize * length l)) / esize < room v ->
    length l + length ys = usable (round_to_page_size page (esize * length l)) / esize + 1 ->
    exists h' w, v_copy esize page usable h v = Ok (h', w) /\ length l + length ys <= room w /\ vrun (map PushBack ys) (h', w) = UB.
  Proof.
    intros Q E C L. destruct (reach _ _ _ _ _ Q E) as (R & O).
    destruct (copy_ok h v l R) as (h' & E' & H & _). do 2 eexists. split; [exact E'|]. fold (newb (length l)) in *.
    cbn [room]. split; [lia|]. eapply over_push; [exact H|apply newb_cells|exact C|exact L].
  Qed.

  Lemma move_spec (h0 h : mem) os v l : list_run trivial dflt os [] = Some l -> vrun os (h0, v_empty) = Ok (h, v) ->
    let (w, v') := v_move v in
    holds h w l /\ room w = room v /\ holds h v' [] /\ v_destroy h v' = Ok h /\
    (exists h', v_destroy h w = Ok h' /\ only_new h0 h' (fun _ => False)) /\
    forall os2 l2, list_run trivial dflt os2 [] = Some l2 -> exists h2 v2, vrun os2 (h, v') = Ok (h2, v2) /\ holds h2 v2 l2 /\ holds h2 w l.
  Proof.
    intros Q E. destruct (reach _ _ _ _ _ Q E) as (R & O). cbn. split; [now apply rep_holds|]. split; [reflexivity|].
    split; [apply rep_holds; apply rep_empty|]. split; [reflexivity|]. split; [eapply destroy_ok; eauto|].
    intros os2 l2 Q2. destruct (run_ok os2 h h v_empty [] l2 (rep_empty h) (owns_empty h) Q2) as (h2 & v2 & E2 & R2 & O2).
    exists h2, v2. split; [exact E2|]. split; [now apply rep_holds|]. apply rep_holds. apply rep_frame with h; [|exact R].
    intros a F. apply O2. eapply rep_lt; [exact R|exact F].
  Qed.

  (** Assignment: the elements are right, the old block is lost. *)
  Lemma copy_assign_spec (h0 h1 h2 : mem) os1 os2 v w l m :
    list_run trivial dflt os1 [] = Some l -> vrun os1 (h0, v_empty) = Ok (h1, v) ->
    list_run trivial dflt os2 [] = Some m -> vrun os2 (h1, v_empty) = Ok (h2, w) ->
    exists h3 v3, v_copy_assign esize page usable h2 v w = Ok (h3, v3) /\ holds h3 v3 m /\ holds h3 w m /\ room v3 = room w /\
      forall a, first v = Some a -> exists h4 h5, v_destroy h3 v3 = Ok h4 /\ v_destroy h4 w = Ok h5 /\ live h5 a.
  Proof.
    intros Q1 E1 Q2 E2. destruct (reach2 _ _ _ _ _ _ _ _ _ Q1 E1 Q2 E2) as (R1 & R2 & O2 & Lv & O1).
    unfold v_copy_assign.
    assert (Fw : forall a, first w = Some a -> length h1 <= a) by (apply O2).
    (* clear v in h2 *)
    assert (G : exists h2' v', v_clear h2 v = Ok (h2', v') /\ length h2' = length h2 /\
      (forall a, first v = Some a -> live h2' a) /\ forall a, first v <> Some a -> nth_error h2' a = nth_error h2 a).
    { unfold v_clear. rewrite (rep_len _ _ _ R1). destruct (first v) as [a|] eqn:F.
      - destruct (rep_block _ _ _ _ R1 F) as (n & Hb & _). unfold cellsof in Hb. rewrite (destroy_n_ok l h2 a n _ Hb).
        cbn [bind]. do 2 eexists. split; [reflexivity|]. split; [apply upd_length|]. split.
        + intros c C. injection C as <-. eexists. apply nth_error_upd_eq. eapply nth_error_some_lt; exact Hb.
        + intros c C. apply nth_error_upd_ne. congruence.
      - destruct (rep_none _ _ _ R1 F) as (-> & ->). cbn. do 2 eexists. split; [reflexivity|]. split; [reflexivity|]. split; [discriminate|reflexivity]. }
    destruct G as (h2' & v' & -> & L2 & Lvv & Fr). cbn [bind].
    assert (R2' : rep h2' w m).
    { apply rep_frame with h2; [|exact R2]. intros a F. apply Fr. intros C. specialize (Fw a F). specialize (Lv a C). lia. }
    destruct (copy_rep h2' w m (length m) R2' (le_n _) (newb_ge _)) as (h3 & E3 & R3 & O3 & R3').
    do 2 eexists. split; [exact E3|]. split; [exact (holds_room _ _ _ _ _ _ (rep_holds _ _ _ R3))|]. split; [now apply rep_holds|].
    split; [reflexivity|]. intros a F.
    rewrite (destroy_room h3 _ _ (room w) (length m)).
    destruct (destroy_ok _ _ _ _ R3 O3) as (h4 & D4 & N4). exists h4.
    assert (La : a < length h2').
    { destruct (Lvv a F) as (b & B). eapply nth_error_some_lt; exact B. }
    assert (R4 : rep h4 w m).
    { apply rep_frame with h2'; [|exact R2']. intros c C. apply N4. eapply rep_lt; [exact R2'|exact C]. }
    assert (La4 : live h4 a) by (destruct (Lvv a F) as (b & B); exists b; rewrite (proj1 N4 a La); exact B).
    assert (D : exists h5, v_destroy h4 w = Ok h5 /\ live h5 a).
    { unfold v_destroy, v_clear. rewrite (rep_len _ _ _ R4). destruct (first w) as [c|] eqn:Fc.
      - destruct (rep_block _ _ _ _ R4 Fc) as (n & Hb & _). unfold cellsof in Hb. rewrite (destroy_n_ok m h4 c n _ Hb).
        cbn [bind first deallocate]. rewrite nth_error_upd_eq by (eapply nth_error_some_lt; exact Hb).
        eexists. split; [reflexivity|]. destruct La4 as (b & B). exists b.
        assert (a <> c) by (specialize (Fw c eq_refl); specialize (Lv a F); lia).
        rewrite !nth_error_upd_ne by assumption. exact B.
      - destruct (rep_none _ _ _ R4 Fc) as (-> & _). cbn. eauto. }
    destruct D as (h5 & D5 & V5). exists h5. auto.
  Qed.
  Lemma move_assign_spec (h0 h1 h2 : mem) os1 os2 v w l m :
    list_run trivial dflt os1 [] = Some l -> vrun os1 (h0, v_empty) = Ok (h1, v) ->
    list_run trivial dflt os2 [] = Some m -> vrun os2 (h1, v_empty) = Ok (h2, w) ->
    exists h3 v3 w3, v_move_assign h2 v w = Ok (h3, v3, w3) /\ holds h3 v3 m /\ room v3 = room w /\ holds h3 w3 [] /\
      forall a, first v = Some a -> exists h4, v_destroy h3 v3 = Ok h4 /\ v_destroy h4 w3 = Ok h4 /\ live h4 a.
  Proof.
    intros Q1 E1 Q2 E2. destruct (reach2 _ _ _ _ _ _ _ _ _ Q1 E1 Q2 E2) as (R1 & R2 & O2 & Lv & O1).
    unfold v_move_assign.
    assert (Fw : forall a, first w = Some a -> length h1 <= a) by (apply O2).
    assert (G : exists h2' v', v_clear h2 v = Ok (h2', v') /\
      (forall a, first v = Some a -> live h2' a) /\ forall a, first v <> Some a -> nth_error h2' a = nth_error h2 a).
    { unfold v_clear. rewrite (rep_len _ _ _ R1). destruct (first v) as [a|] eqn:F.
      - destruct (rep_block _ _ _ _ R1 F) as (n & Hb & _). unfold cellsof in Hb. rewrite (destroy_n_ok l h2 a n _ Hb).
        cbn [bind]. do 2 eexists. split; [reflexivity|]. split.
        + intros c C. injection C as <-. eexists. apply nth_error_upd_eq. eapply nth_error_some_lt; exact Hb.
        + intros c C. apply nth_error_upd_ne. congruence.
      - destruct (rep_none _ _ _ R1 F) as (-> & ->). cbn. do 2 eexists. split; [reflexivity|]. split; [discriminate|reflexivity]. }
    destruct G as (h2' & v' & -> & Lvv & Fr). cbn [bind].
    assert (R2' : rep h2' w m).
    { apply rep_frame with h2; [|exact R2]. intros a F. apply Fr. intros C. specialize (Fw a F). specialize (Lv a C). lia. }
    do 3 eexists. split; [reflexivity|]. split; [now apply rep_holds|]. split; [reflexivity|].
    split; [apply rep_holds; apply rep_empty|]. intros a F.
    unfold v_destroy at 1, v_clear. rewrite (rep_len _ _ _ R2'). destruct (first w) as [c|] eqn:Fc.
    - destruct (rep_block _ _ _ _ R2' Fc) as (n & Hb & _). unfold cellsof in Hb. rewrite (destroy_n_ok m h2' c n _ Hb).
      cbn [bind first deallocate]. rewrite nth_error_upd_eq by (eapply nth_error_some_lt; exact Hb).
      eexists. split; [reflexivity|]. split; [reflexivity|]. destruct (Lvv a F) as (b & B). exists b.
      assert (a <> c) by (specialize (Fw c eq_refl); specialize (Lv a F); lia).
      rewrite !nth_error_upd_ne by assumption. exact B.
    - destruct (rep_none _ _ _ R2' Fc) as (-> & _). cbn. eexists. split; [reflexivity|]. split; [reflexivity|]. apply Lvv. exact F.
  Qed.

  (** Comparison. *)
  Lemma std_equal_ok f (h : mem) v w l m : rep h v l -> rep h w m -> forall n k, k + n = length l -> length l <= length m ->
    std_equal f h (first v) (first w) k n = Ok (forallb (fun p => f (fst p) (snd p)) (skipn k (combine l m))).
  Proof.
    intros R1 R2. induction n as [|n IH]; intros k K L.
    - cbn [std_equal]. rewrite skipn_all2 by (rewrite combine_length; lia). reflexivity.
    - cbn [std_equal]. destruct (nth_error_ex l k ltac:(lia)) as (x & X). destruct (nth_error_ex m k ltac:(lia)) as (y & Y).
      pose proof (rep_get _ _ _ _ _ R1 X) as G1. pose proof (rep_get _ _ _ _ _ R2 Y) as G2. unfold v_get in G1, G2.
      rewrite G1. cbn [bind]. rewrite G2. cbn [bind].
      assert (E : skipn k (combine l m) = (x, y) :: skipn (S k) (combine l m)).
      { clear - X Y. revert l m X Y. induction k as [|k IH]; intros [|a l] [|b m] X Y; cbn in *; try discriminate.
        - congruence.
        - now apply IH. }
      rewrite E. cbn [forallb fst snd]. destruct (f x y); [|reflexivity]. cbn [andb]. apply IH; lia.
  Qed.
  Lemma std_equal_beyond f (h : mem) v w l m : rep h v l -> rep h w m -> forall n k, k + n = length l -> k <= length m -> length m < length l ->
    std_equal f h (first v) (first w) k n = if forallb (fun p => f (fst p) (snd p)) (skipn k (combine l m)) then UB else Ok false.
  Proof.
    intros R1 R2. induction n as [|n IH]; intros k K L0 L; [lia|].
    cbn [std_equal]. destruct (nth_error_ex l k ltac:(lia)) as (x & X).
    pose proof (rep_get _ _ _ _ _ R1 X) as G1. unfold v_get in G1. rewrite G1. cbn [bind].
    destruct (Nat.eq_dec k (length m)) as [E|N].
    - rewrite skipn_all2 by (rewrite combine_length; lia). cbn [forallb]. unfold load, cell.
      destruct (first w) as [a|] eqn:F; [|reflexivity]. destruct (rep_block _ _ _ _ R2 F) as (N & Hb & _ & Hl). rewrite Hb. cbn [cells].
      unfold rd. rewrite E, cellsof_nth_all by exact Hl. rewrite Nat.ltb_irrefl. destruct (length m <? N / esize); reflexivity.
    - destruct (nth_error_ex m k ltac:(lia)) as (y & Y). pose proof (rep_get _ _ _ _ _ R2 Y) as G2. unfold v_get in G2.
      rewrite G2. cbn [bind].
      assert (E : skipn k (combine l m) = (x, y) :: skipn (S k) (combine l m)).
      { clear - X Y. revert l m X Y. induction k as [|k IH]; intros [|a l] [|b m] X Y; cbn in *; try discriminate.
        - congruence.
        - now apply IH. }
      rewrite E. cbn [forallb fst snd]. destruct (f x y); [|reflexivity]. cbn [andb]. apply IH; lia.
  Qed.
  Lemma combine_eq eqb (l : list T) : (forall x y, eqb x y = true <-> x = y) -> forall m, length l = length m ->
    forallb (fun p => eqb (fst p) (snd p)) (combine l m) = true <-> l = m.
  Proof.
    intros Q. induction l as [|x l IH]; intros [|y m] L; cbn in *; try discriminate; [tauto|].
    rewrite andb_true_iff, Q, IH by lia. split; [intros (-> & ->); reflexivity|]. intros E. injection E as -> ->. auto.
  Qed.
  Lemma eq_spec eqb (h0 h1 h2 : mem) os1 os2 v w l m : (forall x y, eqb x y = true <-> x = y) ->
    list_run trivial dflt os1 [] = Some l -> vrun os1 (h0, v_empty) = Ok (h1, v) ->
    list_run trivial dflt os2 [] = Some m -> vrun os2 (h1, v_empty) = Ok (h2, w) ->
    exists b, v_eq eqb h2 v w = Ok b /\ (b = true <-> l = m).
  Proof.
    intros Q Q1 E1 Q2 E2. destruct (reach2 _ _ _ _ _ _ _ _ _ Q1 E1 Q2 E2) as (R1 & R2 & _). unfold v_eq.
    rewrite (rep_len _ _ _ R1), (rep_len _ _ _ R2). destruct (length l =? length m) eqn:L.
    - apply Nat.eqb_eq in L. rewrite (std_equal_ok eqb h2 v w l m R1 R2 (length l) 0) by lia. cbn [skipn].
      eexists. split; [reflexivity|]. now apply combine_eq.
    - apply Nat.eqb_neq in L. exists false. split; [reflexivity|]. split; [discriminate|]. congruence.
  Qed.
  Lemma ne_same (h0 h1 h2 : mem) eqb os1 os2 v w l m :
    list_run trivial dflt os1 [] = Some l -> vrun os1 (h0, v_empty) = Ok (h1, v) ->
    list_run trivial dflt os2 [] = Some m -> vrun os2 (h1, v_empty) = Ok (h2, w) -> length l = length m ->
    v_ne eqb h2 v w = Ok false.
  Proof.
    intros Q1 E1 Q2 E2 L. destruct (reach2 _ _ _ _ _ _ _ _ _ Q1 E1 Q2 E2) as (R1 & R2 & _). unfold v_ne.
    rewrite (rep_len _ _ _ R1), (rep_len _ _ _ R2), L, Nat.eqb_refl. reflexivity.
  Qed.
  Lemma forallb_apart eqb (l : list T) : forall m, forallb (fun p => negb (eqb (fst p) (snd p))) (combine l m) = true <-> apart eqb l m.
  Proof.
    unfold apart. induction l as [|a l IH]; intros [|b m]; cbn [combine forallb fst snd].
    1,2: split; auto; intros _ [|i] x y X Y; discriminate.
    - split; auto. intros _ [|i] x y X Y; discriminate.
    - rewrite andb_true_iff, negb_true_iff, IH. split.
      + intros (A & B) [|i] x y X Y; cbn in X, Y; [congruence|]. exact (B i x y X Y).
      + intros B. split; [exact (B 0 a b eq_refl eq_refl)|]. intros i. exact (B (S i)).
  Qed.
  Lemma ne_other (h0 h1 h2 : mem) eqb os1 os2 v w l m :
    list_run trivial dflt os1 [] = Some l -> vrun os1 (h0, v_empty) = Ok (h1, v) ->
    list_run trivial dflt os2 [] = Some m -> vrun os2 (h1, v_empty) = Ok (h2, w) -> length l <> length m ->
    (apart eqb l m -> length l < length m -> v_ne eqb h2 v w = Ok true) /\
    (apart eqb l m -> length m < length l -> v_ne eqb h2 v w = UB) /\
    (~ apart eqb l m -> v_ne eqb h2 v w = Ok false).
  Proof.
    intros Q1 E1 Q2 E2 L. destruct (reach2 _ _ _ _ _ _ _ _ _ Q1 E1 Q2 E2) as (R1 & R2 & _). unfold v_ne.
    rewrite (rep_len _ _ _ R1), (rep_len _ _ _ R2). rewrite (proj2 (Nat.eqb_neq _ _) L).
    split; [|split].
    - intros A K. rewrite (std_equal_ok _ h2 v w l m R1 R2 (length l) 0) by lia. cbn [skipn].
      now rewrite (proj2 (forallb_apart eqb l m) A).
    - intros A K. rewrite (std_equal_beyond _ h2 v w l m R1 R2 (length l) 0) by lia. cbn [skipn].
      now rewrite (proj2 (forallb_apart eqb l m) A).
    - intros A. assert (F : forallb (fun p => negb (eqb (fst p) (snd p))) (combine l m) = false).
      { destruct (forallb _ (combine l m)) eqn:E; [|reflexivity]. apply forallb_apart in E. contradiction. }
      destruct (le_lt_dec (length l) (length m)) as [C|C].
      + rewrite (std_equal_ok _ h2 v w l m R1 R2 (length l) 0) by lia. cbn [skipn]. now rewrite F.
      + rewrite (std_equal_beyond _ h2 v w l m R1 R2 (length l) 0) by lia. cbn [skipn]. now rewrite F.
  Qed.
End VecProofs.

(** A real page and a real malloc. *)
Lemma copy_overflow_real {T} esize page trivial (moved : T -> T) dflt (h0 : memory T) x :
  (trivial = true -> forall y, moved y = y) -> 2 <= esize < page ->
  exists h v h' w, v_push_back esize page (fun n => n) moved h0 v_empty x = Ok (h, v) /\
    v_copy esize page (fun n => n) h v = Ok (h', w) /\ len w + page / esize <= room w /\
    v_run esize page (fun n => n) trivial moved dflt (repeat (PushBack x) (page / esize)) (h', w) = UB.
Proof.
  intros TM (E1 & E2).
  assert (MA : malloc_ok esize page (fun n => n)) by (split; [lia|split; [lia|auto]]).
  destruct (run_ok esize page (fun n => n) trivial moved dflt MA TM [PushBack x] h0 h0 v_empty [] [x]
    (rep_empty esize h0) (owns_empty h0) eq_refl) as (h & v & E & R & O).
  pose proof E as E'. cbn [v_run v_step] in E'.
  destruct (v_push_back esize page (fun n => n) moved h0 v_empty x) as [[h1 v1]| | |] eqn:P; try discriminate E'.
  cbn [bind] in E'. injection E' as -> ->.
  assert (Rm : room v = page).
  { unfold v_push_back in P. cbn [room len v_empty Nat.leb Nat.add] in P.
    destruct (grow_ok esize page (fun n => n) moved MA h0 h0 v_empty [] 1 (rep_empty esize h0) (owns_empty h0)
      ltac:(cbn; lia) ltac:(cbn; lia)) as (h2 & v2 & G & _ & _ & Rm & _).
    rewrite G in P. cbn [bind] in P. destruct (construct_at h2 (first v2) (len v2) x); try discriminate P.
    cbn [bind] in P. injection P as _ <-. cbn [room]. rewrite Rm. unfold calc_new_size. cbn [first v_empty alloc_size room Nat.mul].
    cbn [Nat.leb Nat.max]. unfold round_to_page_size. rewrite Nat.div_small by lia. lia. }
  assert (RS : round_to_page_size page (esize * length [x]) = page).
  { unfold round_to_page_size. cbn [length]. rewrite Nat.mul_1_r, Nat.div_small by lia. lia. }
  assert (D : page / esize < page) by (apply Nat.div_lt; lia).
  destruct (copy_overflow esize page (fun n => n) trivial moved dflt MA TM h0 h [PushBack x] v [x] (repeat x (page / esize)) eq_refl E)
    as (h' & w & C & L & U).
  - rewrite RS, Rm. exact D.
  - rewrite RS, repeat_length. cbn. lia.
  - exists h, v, h', w. split; [reflexivity|]. split; [exact C|]. rewrite repeat_length in L.
    assert (len w = 1).
    { destruct (copy_ok esize page (fun n => n) MA h v [x] R) as (h3 & C' & _). rewrite C in C'. injection C' as _ ->. reflexivity. }
    split; [cbn [length] in L; lia|].
    replace (repeat (PushBack x) (page / esize)) with (map (@PushBack T) (repeat x (page / esize))); [exact U|].
    clear. induction (page / esize) as [|n IH]; cbn; [reflexivity|]. now rewrite IH.
Qed.
Lemma run_app {T} esize page usable trivial (moved : T -> T) dflt os1 os2 s :
  v_run esize page usable trivial moved dflt (os1 ++ os2) s =
  (s' <- v_run esize page usable trivial moved dflt os1 s ;; v_run esize page usable trivial moved dflt os2 s').
Proof.
  revert s. induction os1 as [|o os IH]; intros s; cbn; [reflexivity|].
  destruct (v_step esize page usable trivial moved dflt s o); cbn; auto.
Qed.
Lemma insert_partial {T} esize page usable (moved : T -> T) dflt :
  malloc_ok esize page usable -> moves_ok true moved ->
  forall h0 os l i vs, list_run true dflt os [] = Some l -> i <= length l ->
  vs = [] \/ i = length l \/ length vs <= i <= 2 * length vs ->
  exists h v, v_run esize page usable true moved dflt (os ++ [Insert i vs]) (h0, v_empty) = Ok (h, v) /\
    holds h v (firstn i l ++ vs ++ skipn i l).
Proof.
  intros M W h0 os l i vs Q L C. 
  destruct (run_ok esize page usable true moved dflt M W os h0 h0 v_empty [] l (rep_empty esize h0) (owns_empty h0) Q) as (h & v & E & R & O).
  destruct (insert_ok esize page usable true moved M W h0 h v l i vs R O L) as (h' & v' & E' & R' & _).
  - cbn. destruct C as [->|[->|C]]; [reflexivity|now rewrite Nat.eqb_refl, orb_true_r|].
    rewrite (proj2 (Nat.leb_le (length vs) i)) by lia. rewrite (proj2 (Nat.leb_le i (length vs + (length vs + 0)))) by lia.
    cbn. now rewrite !orb_true_r.
  - exists h', v'. split; [|exact (rep_holds esize page usable M _ _ _ R')]. rewrite run_app, E. cbn [bind v_run v_step]. rewrite E'. reflexivity.
Qed.

Lemma c200_back_l :
  forall (T : Type) (h : memory T) v l x, holds h v (l ++ [x]) -> v_back h v = Ok x.
Proof.
  intros T h v l x (L & G). specialize (G (length l) x). unfold v_back. rewrite L, app_length. cbn [length].
  rewrite Nat.add_1_r. cbn [Nat.eqb]. rewrite Nat.sub_succ, Nat.sub_0_r. apply G.
  rewrite nth_error_app2 by lia. rewrite Nat.sub_diag. reflexivity.
Qed.
