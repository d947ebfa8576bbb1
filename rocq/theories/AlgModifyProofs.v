From Verif Require Import Common CommonProofs SpecAlg AlgSearch AlgSearchProofs AlgModify.

Lemma wr_at {A} (pre post : list A) x y :
  wr (pre ++ x :: post) (length pre) y = Ok (pre ++ y :: post).
Proof.
  rewrite wr_ok; [|rewrite app_length; cbn; lia]. f_equal.
  induction pre as [|h pre IH]; cbn; auto. rewrite IH. reflexivity.
Qed.

Lemma emits_nil {B} : emits (fun d (out : list B) => Ok (d, out)) [].
Proof.
  intros pre old post H. destruct old; [|discriminate]. cbn. rewrite Nat.add_0_r. reflexivity.
Qed.

Lemma emits_cons {B} (G : nat -> list B -> res (nat * list B)) x r :
  emits G r -> emits (fun d out => out' <- wr out d x ;; G (S d) out') (x :: r).
Proof.
  intros H pre old post Hl. destruct old as [|o old]; [discriminate|].
  cbn [app]. rewrite wr_at. cbn [bind].
  specialize (H (pre ++ [x]) old post). rewrite app_length in H. cbn [length] in H.
  rewrite <- !app_assoc in H. cbn [app] in H.
  replace (S (length pre)) with (length pre + 1) by lia. rewrite H by (cbn in Hl; lia).
  f_equal. f_equal. cbn [length]. lia.
Qed.

Section Write.
  Context {A B : Type}.

  Lemma transform_emits (f : A -> B) l : emits (transform f l) (map f l).
  Proof.
    induction l as [|x t IH]; cbn [transform map]; [apply emits_nil|].
    apply (emits_cons (transform f t)). auto.
  Qed.

  Lemma transform_if_emits p (f : A -> B) l :
    emits (transform_if p f l) (map f (filter p l)).
  Proof.
    induction l as [|x t IH]; cbn [transform_if filter map]; [apply emits_nil|].
    destruct (p x); auto. apply (emits_cons (transform_if p f t)). auto.
  Qed.

  Lemma transform_n_spec (f : A -> B) count : forall src pos pre old post,
    pos + count <= length src -> length old = count ->
    transform_n f src pos count (length pre) (pre ++ old ++ post) =
      Ok (pos + count, length pre + count, pre ++ map f (firstn count (skipn pos src)) ++ post).
  Proof.
    induction count as [|count IH]; intros src pos pre old post Hl Ho; cbn [transform_n].
    - destruct old; [|discriminate]. rewrite !Nat.add_0_r. reflexivity.
    - destruct old as [|o old]; [discriminate|].
      destruct (rd_ok src pos) as (x & R & E); [lia|]. rewrite R. cbn [bind app].
      rewrite wr_at. cbn [bind].
      specialize (IH src (S pos) (pre ++ [f x]) old post).
      rewrite app_length in IH. cbn [length] in IH. rewrite <- !app_assoc in IH. cbn [app] in IH.
      replace (S (length pre)) with (length pre + 1) by lia.
      rewrite IH by (cbn in Ho; lia).
      assert (Es : skipn pos src = x :: skipn (S pos) src).
      { clear - E. revert pos E. induction src as [|h t IHs]; intros [|pos] E; try discriminate.
        - cbn in E. inv E. reflexivity.
        - cbn in E. cbn [skipn]. rewrite (IHs pos E). reflexivity. }
      rewrite Es. cbn [firstn map]. f_equal. f_equal. f_equal; lia.
  Qed.
End Write.

Section Write1.
  Context {A : Type}.

  Lemma copy_emits (l : list A) : emits (copy l) l.
  Proof. pose proof (transform_emits (fun x : A => x) l) as H. rewrite map_id in H. exact H. Qed.

  Lemma copy_if_emits p (l : list A) : emits (copy_if p l) (filter p l).
  Proof.
    induction l as [|x t IH]; cbn [copy_if filter]; [apply emits_nil|].
    destruct (p x); auto. apply (emits_cons (copy_if p t)). auto.
  Qed.

  Lemma copy_n_spec count : forall (src : list A) pos pre old post,
    pos + count <= length src -> length old = count ->
    copy_n src pos count (length pre) (pre ++ old ++ post) =
      Ok (pos + count, length pre + count, pre ++ firstn count (skipn pos src) ++ post).
  Proof.
    intros. unfold copy_n. rewrite transform_n_spec by auto. rewrite map_id. reflexivity.
  Qed.

  Lemma fill_n_emits count (v : A) : emits (fun d out => fill_n d count v out) (repeat v count).
  Proof.
    induction count as [|count IH]; cbn [fill_n repeat]; [apply emits_nil|].
    apply (emits_cons (fun d out => fill_n d count v out)). auto.
  Qed.

  Lemma fill_spec (v : A) : forall mid pre post,
    fill (length pre) (length mid) v (pre ++ mid ++ post) =
      Ok (pre ++ repeat v (length mid) ++ post).
  Proof.
    induction mid as [|m mid IH]; intros pre post; cbn [length fill repeat app]; auto.
    rewrite wr_at. cbn [bind]. specialize (IH (pre ++ [v]) post).
    rewrite app_length in IH. cbn [length] in IH. rewrite <- !app_assoc in IH. cbn [app] in IH.
    replace (S (length pre)) with (length pre + 1) by lia. exact IH.
  Qed.

  Lemma iota_spec succ : forall mid pre (start : A) post,
    iota succ (length pre) (length mid) start (pre ++ mid ++ post) =
      Ok (pre ++ map (fun k => Nat.iter k succ start) (seq 0 (length mid)) ++ post).
  Proof.
    induction mid as [|m mid IH]; intros pre start post; cbn [length iota seq map app]; auto.
    rewrite wr_at. cbn [bind]. specialize (IH (pre ++ [start]) (succ start) post).
    rewrite app_length in IH. cbn [length] in IH. rewrite <- !app_assoc in IH. cbn [app] in IH.
    replace (S (length pre)) with (length pre + 1) by lia. rewrite IH.
    do 2 f_equal. cbn [Nat.iter nat_rect]. f_equal. f_equal.
    rewrite <- seq_shift, map_map. apply map_ext. intros k.
    clear. induction k as [|k IHk]; cbn; auto. unfold Nat.iter in IHk. cbn in IHk. rewrite IHk. auto.
  Qed.

  (** ** remove_if *)
  Lemma remove_if_loop_spec (pred : A -> bool) post pre : forall todo fuel kept gap,
    gap <> [] -> length todo < fuel ->
    exists rest,
      remove_if_loop fuel pred (length pre + length kept) (length pre + length kept + length gap)
        (length pre + length kept + length gap + length todo)
        (pre ++ kept ++ gap ++ todo ++ post) =
      Ok (length pre + length kept + length (filter (fun x => negb (pred x)) todo),
          pre ++ (kept ++ filter (fun x => negb (pred x)) todo) ++ rest ++ post) /\
      length rest + length (filter (fun x => negb (pred x)) todo) = length gap + length todo.
  Proof.
    induction todo as [|x todo IH]; intros fuel kept gap Hg Hf; destruct fuel as [|fuel]; try (cbn in Hf; lia).
    - cbn [remove_if_loop length filter]. rewrite !Nat.add_0_r, Nat.eqb_refl.
      exists gap. rewrite app_nil_r. cbn [app]. auto.
    - cbn [remove_if_loop].
      destruct (Nat.eqb_spec (length pre + length kept + length gap)
                 (length pre + length kept + length gap + length (x :: todo))) as [H|_];
        [cbn in H; lia|].
      rewrite (rd_some _ _ x).
      2:{ rewrite !app_assoc. rewrite <- (app_assoc _ (x :: todo)).
          rewrite nth_error_app2 by (rewrite !app_length; lia).
          rewrite !app_length. rewrite Nat.sub_diag. reflexivity. }
      cbn [bind]. cbn [filter]. destruct (pred x) eqn:P; cbn [negb].
      + specialize (IH fuel kept (gap ++ [x])).
        rewrite app_length in IH. cbn [length] in IH. rewrite <- !app_assoc in IH.
        cbn [app] in IH. destruct IH as (rest & E & Hr); [destruct gap; discriminate|cbn in Hf; lia|].
        exists rest.
        replace (S (length pre + length kept + length gap))
          with (length pre + length kept + (length gap + 1)) by lia.
        replace (length pre + length kept + length gap + length (x :: todo))
          with (length pre + length kept + (length gap + 1) + length todo) by (cbn; lia).
        cbn [app]. rewrite E. split; auto. cbn [length]. lia.
      + destruct gap as [|g gap]; [congruence|].
        replace (length pre + length kept) with (length (pre ++ kept)) by (rewrite app_length; auto).
        replace (pre ++ kept ++ (g :: gap) ++ (x :: todo) ++ post)
          with ((pre ++ kept) ++ g :: (gap ++ x :: todo ++ post))
          by (rewrite <- !app_assoc; reflexivity).
        rewrite wr_at. cbn [bind].
        specialize (IH fuel (kept ++ [x]) (gap ++ [x])).
        rewrite !app_length in IH. cbn [length] in IH. rewrite <- !app_assoc in IH. cbn [app] in IH.
        destruct IH as (rest & E & Hr); [destruct gap; discriminate|cbn in Hf; lia|].
        exists rest. rewrite <- !app_assoc. cbn [app]. rewrite !app_length. cbn [length].
        replace (S (length pre + length kept)) with (length pre + (length kept + 1)) by lia.
        replace (S (length pre + length kept + S (length gap)))
          with (length pre + (length kept + 1) + (length gap + 1)) by lia.
        replace (length pre + length kept + S (length gap) + S (length todo))
          with (length pre + (length kept + 1) + (length gap + 1) + length todo) by lia.
        rewrite E. split; [|lia]. rewrite <- !app_assoc. cbn [app]. do 2 f_equal. lia.
  Qed.

  Lemma find_if_split (P : A -> bool) l : find_if P l < length l ->
    exists a y t, l = a ++ y :: t /\ length a = find_if P l /\ P y = true /\
      forall x, In x a -> P x = false.
  Proof.
    induction l as [|x l IH]; cbn [find_if length]; [lia|]. destruct (P x) eqn:E.
    - intros _. exists [], x, l. repeat split; auto. intros z [].
    - intros H. destruct IH as (a & y & t & -> & H1 & H2 & H3); [lia|].
      exists (x :: a), y, t. repeat split; auto; [cbn; lia|]. intros z [<-|Hz]; auto.
  Qed.

  Lemma filter_keep (P : A -> bool) l : (forall x, In x l -> P x = true) -> filter P l = l.
  Proof.
    induction l as [|x l IH]; cbn; auto. intros H. rewrite (H x) by auto. f_equal. auto.
  Qed.

  Lemma remove_if_spec (pred : A -> bool) pre mid post :
    exists rest,
      remove_if pred (length pre) (length pre + length mid) (pre ++ mid ++ post) =
        Ok (length pre + length (filter (fun x => negb (pred x)) mid),
            pre ++ filter (fun x => negb (pred x)) mid ++ rest ++ post) /\
      length rest + length (filter (fun x => negb (pred x)) mid) = length mid.
  Proof.
    unfold remove_if. cbv zeta.
    replace (length pre + length mid - length pre) with (length mid) by lia.
    rewrite skipn_app, skipn_all, Nat.sub_diag. cbn [skipn app].
    rewrite firstn_app, firstn_all, Nat.sub_diag. cbn [firstn]. rewrite app_nil_r.
    destruct (Nat.eqb_spec (length pre + find_if pred mid) (length pre + length mid)) as [H|H]; cbn [negb].
    - assert (F : filter (fun x => negb (pred x)) mid = mid).
      { apply filter_keep. intros x Hx.
        rewrite (proj1 (is_first_end _ _ _ (find_if_spec pred mid))); auto. lia. }
      rewrite F. exists []. split; [|reflexivity]. cbn [app]. do 2 f_equal. lia.
    - destruct (find_if_split pred mid) as (a & y & t & -> & H1 & H2 & H3).
      { destruct (find_if_spec pred mid) as (X & _). lia. }
      destruct (remove_if_loop_spec pred post pre t
        (S (length (pre ++ (a ++ y :: t) ++ post))) a [y]) as (rest & E & Hr);
        [discriminate|rewrite !app_length; cbn; lia|].
      assert (F : filter (fun x => negb (pred x)) (a ++ y :: t) =
                  a ++ filter (fun x => negb (pred x)) t).
      { rewrite filter_app. cbn [filter]. rewrite H2. cbn [negb]. f_equal.
        apply filter_keep. intros x Hx. rewrite H3; auto. }
      rewrite F. exists rest.
      cbn [length app] in E, Hr. rewrite <- H1.
      replace (S (length pre + length a)) with (length pre + length a + 1) by lia.
      replace (length pre + length (a ++ y :: t)) with (length pre + length a + 1 + length t)
        by (rewrite app_length; cbn; lia).
      rewrite <- !app_assoc in *. cbn [app] in *.
      rewrite E. split.
      + f_equal. f_equal. rewrite app_length. lia.
      + rewrite !app_length. cbn [length]. lia.
  Qed.

  Lemma find_find_if {V} (eqb : A -> V -> bool) v l :
    find eqb v l = find_if (fun x => eqb x v) l.
  Proof. induction l as [|x l IH]; cbn; auto. rewrite IH. reflexivity. Qed.

  Lemma remove_remove_if {V} (eqb : A -> V -> bool) v first last arr :
    remove eqb v first last arr = remove_if (fun x => eqb x v) first last arr.
  Proof.
    unfold remove, remove_if. cbv zeta. rewrite find_find_if.
    destruct (negb _); auto.
    generalize (S (length arr)). intros fuel.
    generalize (S (first + find_if (fun x => eqb x v) (firstn (last - first) (skipn first arr)))).
    generalize (first + find_if (fun x => eqb x v) (firstn (last - first) (skipn first arr))).
    revert arr. induction fuel as [|fuel IH]; intros arr f i; cbn; auto.
    destruct (i =? last); auto. destruct (rd arr i) as [x| | |]; cbn; auto.
    destruct (negb (eqb x v)); auto. destruct (wr arr f x); cbn; auto.
  Qed.

  Lemma remove_spec {V} (eqb : A -> V -> bool) v pre mid post :
    exists rest,
      remove eqb v (length pre) (length pre + length mid) (pre ++ mid ++ post) =
        Ok (length pre + length (filter (fun x => negb (eqb x v)) mid),
            pre ++ filter (fun x => negb (eqb x v)) mid ++ rest ++ post) /\
      length rest + length (filter (fun x => negb (eqb x v)) mid) = length mid.
  Proof. rewrite remove_remove_if. apply (remove_if_spec (fun x => eqb x v)). Qed.

  (** ** reverse *)
  Lemma swap_ends (pre m post : list A) x y :
    swap_at (pre ++ x :: m ++ y :: post) (length pre) (length pre + S (length m)) =
      Ok (pre ++ y :: m ++ x :: post).
  Proof.
    assert (E1 : nth_error (pre ++ x :: m ++ y :: post) (length pre) = Some x)
      by (rewrite nth_error_app2, Nat.sub_diag by lia; reflexivity).
    assert (E2 : nth_error (pre ++ x :: m ++ y :: post) (length pre + S (length m)) = Some y).
    { rewrite nth_error_app2 by lia. replace (length pre + S (length m) - length pre) with (S (length m)) by lia.
      cbn. rewrite nth_error_app2, Nat.sub_diag by lia. reflexivity. }
    rewrite (swap_at_eq _ _ _ _ _ E1 E2). f_equal.
    assert (U : forall (p q : list A) a b, upd (p ++ a :: q) (length p) b = p ++ b :: q).
    { induction p as [|h p IHp]; intros; cbn; auto. rewrite IHp. reflexivity. }
    rewrite U. replace (pre ++ y :: m ++ y :: post) with ((pre ++ y :: m) ++ y :: post)
      by (rewrite <- app_assoc; reflexivity).
    replace (length pre + S (length m)) with (length (pre ++ y :: m)) by (rewrite app_length; reflexivity).
    rewrite U, <- app_assoc. reflexivity.
  Qed.

  Lemma reverse_loop_spec : forall n fuel (m pre post : list A), length m <= n -> m <> [] -> length m <= fuel ->
    reverse_loop fuel (length pre) (length pre + length m - 1) (pre ++ m ++ post) =
      Ok (pre ++ rev m ++ post).
  Proof.
    induction n as [|n IH]; intros fuel m pre post Hn Hm Hf.
    - destruct m; [congruence|cbn in Hn; lia].
    - destruct m as [|x m]; [congruence|]. destruct fuel as [|fuel]; [cbn in Hf; lia|].
      cbn [reverse_loop].
      assert (Hsn : m = [] \/ exists m0 y, m = m0 ++ [y])
        by (clear; destruct m as [|y m0 _] using rev_ind; eauto).
      destruct Hsn as [->|(m0 & y & ->)].
      + cbn [length]. replace (length pre + 1 - 1) with (length pre) by lia.
        rewrite Nat.eqb_refl. reflexivity.
      + rename m0 into m.
        replace (length pre + length (x :: m ++ [y]) - 1) with (length pre + S (length m))
          by (cbn; rewrite app_length; cbn; lia).
        destruct (Nat.eqb_spec (length pre) (length pre + S (length m))) as [H|_]; [lia|]. cbn [negb].
        replace (pre ++ (x :: m ++ [y]) ++ post) with (pre ++ x :: m ++ y :: post)
          by (cbn; rewrite <- app_assoc; reflexivity).
        rewrite swap_ends. cbn [bind].
        assert (Er : rev (x :: m ++ [y]) = y :: rev m ++ [x]).
        { cbn. rewrite rev_app_distr. reflexivity. }
        rewrite Er.
        destruct (Nat.eqb_spec (S (length pre)) (length pre + S (length m))) as [H|H].
        * destruct m; [|cbn in H; lia]. reflexivity.
        * replace (length pre + S (length m)) with (S (length pre + length m)) by lia.
          cbn [dec bind]. specialize (IH fuel m (pre ++ [y]) (x :: post)).
          rewrite app_length in IH. cbn [length] in IH. rewrite <- !app_assoc in IH. cbn [app] in IH.
          cbn [app]. rewrite <- app_assoc. cbn [app].
          cbn [length] in Hn, Hf. rewrite app_length in Hn, Hf. cbn [length] in Hn, Hf.
          rewrite <- IH; try lia.
          -- f_equal; lia.
          -- intros ->. cbn in H. lia.
  Qed.

  Lemma reverse_spec (pre mid post : list A) :
    reverse (length pre) (length pre + length mid) (pre ++ mid ++ post) =
      Ok (pre ++ rev mid ++ post).
  Proof.
    unfold reverse. destruct (Nat.eqb_spec (length pre) (length pre + length mid)) as [H|H].
    - destruct mid; [reflexivity|cbn in H; lia].
    - destruct (length pre + length mid) as [|n] eqn:E; [lia|]. cbn [dec bind].
      replace n with (length pre + length mid - 1) by lia.
      apply (reverse_loop_spec (length mid)); auto.
      + intros ->. cbn in *. lia.
      + rewrite !app_length. lia.
  Qed.

  (** ** split *)
  Lemma split_loop_spec (eqb : A -> bool) d : (forall x, eqb x = true <-> x = d) ->
    forall l result temp,
    (forall x, In x temp -> x <> d) ->
    exists pieces last,
      split_loop eqb l result temp = result ++ pieces /\
      temp ++ l = join d (pieces ++ [last]) /\
      (forall p x, In p (pieces ++ [last]) -> In x p -> x <> d).
  Proof.
    intros Hd. induction l as [|x t IH]; intros result temp Ht; cbn [split_loop].
    - exists [], temp. rewrite !app_nil_r. cbn. repeat split; auto.
      intros p x [<-|[]] Hx; auto.
    - destruct (eqb x) eqn:E.
      + apply Hd in E. subst x.
        destruct (IH (result ++ [temp]) []) as (pieces & last & H1 & H2 & H3); [intros x []|].
        exists (temp :: pieces), last. rewrite H1, <- app_assoc. split; auto. split.
        * cbn [app] in *. rewrite H2. destruct pieces; reflexivity.
        * intros p x [<-|Hp] Hx; eauto.
      + destruct (IH result (temp ++ [x])) as (pieces & last & H1 & H2 & H3).
        { intros z Hz. apply in_app_or in Hz as [Hz|[<-|[]]]; auto.
          intros ->. assert (eqb d = true) by (apply Hd; auto). congruence. }
        exists pieces, last. split; auto. split; auto.
        rewrite <- H2, <- app_assoc. reflexivity.
  Qed.

  Lemma split_spec (eqb : A -> bool) d l : (forall x, eqb x = true <-> x = d) ->
    exists last, l = join d (split eqb l ++ [last]) /\
      (forall p x, In p (split eqb l ++ [last]) -> In x p -> x <> d).
  Proof.
    intros Hd. unfold split.
    destruct (split_loop_spec eqb d Hd l [] []) as (pieces & last & H1 & H2 & H3); [intros x []|].
    cbn [app] in *. rewrite H1. exists last. auto.
  Qed.
End Write1.

(** ** set_intersection *)
Section SetInt.
  Context {A : Type} (comp : A -> A -> bool) (SW : strict_weak comp).

  Lemma subseq_in (r l : list A) x : subseq r l -> In x r -> In x l.
  Proof. induction 1; cbn; intuition. Qed.

  Lemma subseq_sorted r l : subseq r l -> sorted_by comp l -> sorted_by comp r.
  Proof.
    unfold sorted_by. induction 1; intros Hs; auto.
    - inv Hs. auto.
    - inv Hs. constructor; auto. rewrite Forall_forall in *. intros y Hy. apply H3.
      eapply subseq_in; eauto.
  Qed.

  Lemma subseq_nil_l (l : list A) : subseq [] l.
  Proof. induction l; constructor; auto. Qed.

  Lemma count_zero v l : (forall x, In x l -> comp v x = true) -> count_equiv comp v l = 0.
  Proof.
    unfold count_equiv. induction l as [|x l IH]; intros H; cbn; auto.
    rewrite (H x) by (left; auto). rewrite andb_comm. cbn. apply IH. intros y Hy. apply H. right; auto.
  Qed.

  Lemma sorted_head_lt v y l : sorted_by comp (y :: l) -> comp v y = true ->
    forall x, In x (y :: l) -> comp v x = true.
  Proof.
    intros Hs Hv x [<-|Hx]; auto. inv Hs. rewrite Forall_forall in H2.
    apply (swo_lt_le comp SW v y x); auto.
  Qed.

  Lemma count_cons v x l : count_equiv comp v (x :: l) =
    (if negb (comp x v) && negb (comp v x) then 1 else 0) + count_equiv comp v l.
  Proof. unfold count_equiv. cbn. destruct (_ && _); reflexivity. Qed.

  Lemma set_intersection_loop_spec : forall fuel l1 l2,
    length l1 + length l2 < fuel -> sorted_by comp l1 -> sorted_by comp l2 ->
    exists r, emits (set_intersection_loop fuel comp l1 l2) r /\ subseq r l1 /\
      forall v, count_equiv comp v r = Nat.min (count_equiv comp v l1) (count_equiv comp v l2).
  Proof.
    induction fuel as [|fuel IH]; intros l1 l2 Hf S1 S2; [lia|].
    cbn [set_intersection_loop].
    destruct l1 as [|x t1].
    { exists []. split; [apply emits_nil|]. split; [apply subseq_nil_l|]. reflexivity. }
    destruct l2 as [|y t2].
    { exists []. split; [apply emits_nil|]. split; [apply subseq_nil_l|].
      intros v. cbn [count_equiv]. unfold count_equiv at 3. cbn. lia. }
    assert (S1' := S1). assert (S2' := S2). inv S1'. inv S2'.
    cbn [length] in Hf.
    destruct (comp x y) eqn:C.
    - destruct (IH t1 (y :: t2)) as (r & E & Sub & Cn); auto; [cbn; lia|].
      exists r. split; [exact E|]. split; [apply subseq_skip; auto|].
      intros v. rewrite Cn, (count_cons v x).
      destruct (negb (comp x v) && negb (comp v x)) eqn:Ev; auto.
      apply andb_true_iff in Ev as [E1 E2]. apply negb_true_iff in E1, E2.
      rewrite (count_zero v (y :: t2)); [lia|].
      apply sorted_head_lt; auto. apply (swo_le_lt comp SW v x y); auto.
    - destruct (comp y x) eqn:C2; cbn [negb].
      + destruct (IH (x :: t1) t2) as (r & E & Sub & Cn); auto; [cbn; lia|].
        exists r. split; auto. split; auto.
        intros v. rewrite Cn, (count_cons v y).
        destruct (negb (comp y v) && negb (comp v y)) eqn:Ev; auto.
        apply andb_true_iff in Ev as [E1 E2]. apply negb_true_iff in E1, E2.
        rewrite (count_zero v (x :: t1)); [lia|].
        apply sorted_head_lt; auto. apply (swo_le_lt comp SW v y x); auto.
      + destruct (IH t1 t2) as (r & E & Sub & Cn); auto; [lia|].
        exists (x :: r). split; [apply (emits_cons (set_intersection_loop fuel comp t1 t2)); auto|].
        split; [apply subseq_take; auto|].
        intros v. rewrite !count_cons, Cn.
        assert (Eq : negb (comp x v) && negb (comp v x) = negb (comp y v) && negb (comp v y)).
        { destruct (comp x v) eqn:X1, (comp v x) eqn:X2, (comp y v) eqn:Y1, (comp v y) eqn:Y2;
            auto; exfalso;
            try (destruct (swo_incomp _ SW v x y) as [Z1 Z2]; auto; congruence);
            try (destruct (swo_incomp _ SW v y x) as [Z1 Z2]; auto; congruence). }
        rewrite Eq. destruct (negb (comp y v) && negb (comp v y)); lia.
  Qed.

  Lemma set_intersection_spec l1 l2 :
    sorted_by comp l1 -> sorted_by comp l2 ->
    exists r, emits (set_intersection comp l1 l2) r /\ sorted_by comp r /\ subseq r l1 /\
      forall v, count_equiv comp v r = Nat.min (count_equiv comp v l1) (count_equiv comp v l2).
  Proof.
    intros S1 S2. destruct (set_intersection_loop_spec (S (length l1 + length l2)) l1 l2)
      as (r & E & Sub & Cn); auto.
    exists r. split; auto. split; [eapply subseq_sorted; eauto|auto].
  Qed.
End SetInt.

(** ** partition_range *)
Lemma tiles_snoc a b c pieces : tiles a b pieces -> b <= c -> tiles a c (pieces ++ [(b, c)]).
Proof.
  revert a. induction pieces as [|[x y] t IH]; intros a; cbn.
  - intros -> H. auto.
  - intros (-> & H1 & H2) H. auto.
Qed.

Lemma partition_loop_spec sz n : forall rounds a b result,
  a <= b -> b = n -> tiles 0 a result ->
  tiles 0 n (partition_loop rounds (a, b) sz result) /\
  length (partition_loop rounds (a, b) sz result) = length result + rounds + 1.
Proof.
  induction rounds as [|rounds IH]; intros a b result Hab Hb Ht; cbn [partition_loop].
  - subst b. split; [apply tiles_snoc; auto|]. rewrite app_length. cbn. lia.
  - unfold view_pop_front. cbv zeta. set (k := if b - a <? sz then b - a else sz).
    assert (Hk : k <= b - a) by (unfold k; destruct (Nat.ltb_spec (b - a) sz); lia).
    clearbody k. destruct (IH (a + k) b (result ++ [(a, a + k)])) as [H1 H2]; try lia.
    + apply tiles_snoc; auto. lia.
    + split; auto. rewrite H2, app_length. cbn. lia.
Qed.

Lemma partition_range_spec min_size size count : 1 <= count ->
  exists pieces, partition_range min_size size count = Ok pieces /\
    tiles 0 size pieces /\ length pieces = count.
Proof.
  intros H. unfold partition_range. destruct (Nat.eqb_spec count 0); [lia|].
  eexists. split; [reflexivity|].
  destruct (partition_loop_spec (if size / count <? min_size then min_size else size / count)
    size (count - 1) 0 size []) as [H1 H2]; try (cbn; lia).
  split; [exact H1|]. etransitivity; [exact H2|]. cbn. lia.
Qed.

(** ** folds *)
Section Fold.
  Context {A B T : Type}.

  Lemma accumulate_spec (op : T -> A -> T) : forall l init,
    accumulate op l init = fold_left op l init.
  Proof. induction l; intros; cbn; auto. Qed.

  Lemma map_reduce_spec (red : T -> B -> T) (mp : A -> A -> B) : forall l1 l2 init,
    length l1 <= length l2 ->
    map_reduce red mp l1 l2 init =
      Ok (fold_left red (map (fun p => mp (fst p) (snd p)) (combine l1 l2)) init).
  Proof.
    induction l1 as [|x t1 IH]; intros [|y t2] init H; cbn in *; auto; try lia.
    apply IH. lia.
  Qed.

  Lemma map2_emits (f : A -> B -> T) : forall l1 l2, length l1 <= length l2 ->
    emits (map2 f l1 l2) (map (fun p => f (fst p) (snd p)) (combine l1 l2)).
  Proof.
    induction l1 as [|x t1 IH]; intros [|y t2] H; cbn [map2 combine map length] in *;
      try apply emits_nil; try lia.
    cbn [fst snd]. apply (emits_cons (map2 f t1 t2)). apply IH. lia.
  Qed.

  Lemma cartesian_product_spec : forall (l1 : list A) (l2 : list B), length l1 <= length l2 ->
    cartesian_product l1 l2 = Ok (combine l1 l2).
  Proof.
    induction l1 as [|x t1 IH]; intros [|y t2] H; cbn in *; auto; try lia.
    rewrite IH by lia. reflexivity.
  Qed.

  Lemma find_transform_spec (f : A -> B) p l :
    let '(pos, r) := find_transform f p l in
    is_first (fun x => p (f x)) l pos /\
    match r with
    | Some b => exists x, nth_error l pos = Some x /\ b = f x
    | None => pos = length l
    end.
  Proof.
    induction l as [|x t IH]; cbn [find_transform].
    - split; [apply is_first_nil|reflexivity].
    - cbv zeta. destruct (p (f x)) eqn:E.
      + split; [apply is_first_cons_hit; auto|]. exists x. auto.
      + destruct (find_transform f p t) as [pos r]. destruct IH as [H1 H2].
        split; [apply is_first_cons_miss; auto|]. destruct r; auto. cbn. congruence.
  Qed.

  Lemma contains_true_existsb (preds : list (A -> bool)) x :
    contains Bool.eqb true (map (fun p => p x) preds) = existsb (fun p => p x) preds.
  Proof.
    induction preds as [|p preds IH]; cbn; auto. rewrite IH. destruct (p x); auto.
  Qed.

  Lemma find_some_loop_spec (preds : list (A -> bool)) : forall l results,
    let '(pos, r) := find_some_loop preds results l in
    is_first (fun x => existsb (fun p => p x) preds) l pos /\
    (forall x, nth_error l pos = Some x -> r = map (fun p => p x) preds).
  Proof.
    induction l as [|x t IH]; intros results; cbn [find_some_loop].
    - split; [apply is_first_nil|]. intros x Hx. discriminate.
    - rewrite contains_true_existsb. destruct (existsb (fun p => p x) preds) eqn:E.
      + split; [apply is_first_cons_hit; auto|]. intros y Hy. cbn in Hy. inv Hy. reflexivity.
      + specialize (IH (map (fun p => p x) preds)).
        destruct (find_some_loop preds (map (fun p => p x) preds) t) as [pos r].
        destruct IH as [H1 H2]. split; [apply is_first_cons_miss; auto|]. auto.
  Qed.

  Lemma for_each_if_spec (p : A -> bool) l : for_each_if p l = filter p l.
  Proof. induction l as [|x l IH]; cbn; auto. rewrite IH. reflexivity. Qed.
End Fold.

Section PartialSum.
  Context {A : Type}.

  (** The partial sums of [x :: l]. *)
  Lemma partial_sum_loop_emits (op : A -> A -> A) : forall l sum,
    emits (partial_sum_loop op sum l)
      (map (fun k => fold_left op (firstn (S k) l) sum) (seq 0 (length l))).
  Proof.
    induction l as [|x t IH]; intros sum; cbn [partial_sum_loop length seq map]; [apply emits_nil|].
    cbn [firstn fold_left].
    apply (emits_cons (partial_sum_loop op (op sum x) t)).
    specialize (IH (op sum x)). rewrite <- seq_shift, map_map. exact IH.
  Qed.

  Lemma partial_sum_emits (op : A -> A -> A) x l :
    emits (partial_sum op (x :: l))
      (map (fun k => fold_left op (firstn k l) x) (seq 0 (S (length l)))).
  Proof.
    cbn [partial_sum seq map firstn fold_left].
    apply (emits_cons (partial_sum_loop op x l)).
    rewrite <- seq_shift, map_map. apply partial_sum_loop_emits.
  Qed.
End PartialSum.

Lemma c61_find_some_none_l :
  forall A (preds : list (A -> bool)) l,
  (forall x p, In x l -> In p preds -> p x = false) ->
  find_some preds l = (length l, map (fun _ => false) preds).
Proof.
  intros A preds l H. unfold find_some.
  induction l as [|x t IH]; [reflexivity|]. cbn [find_some_loop length].
  assert (E : map (fun p : A -> bool => p x) preds = map (fun _ => false) preds).
  { apply map_ext_in. intros p Hp. apply H; [left; reflexivity|exact Hp]. }
  rewrite contains_true_existsb.
  assert (F : existsb (fun p : A -> bool => p x) preds = false).
  { destruct (existsb (fun p : A -> bool => p x) preds) eqn:X; [|reflexivity].
    apply existsb_exists in X. destruct X as (p & Hp & Hx).
    rewrite (H x p (or_introl eq_refl) Hp) in Hx. discriminate. }
  rewrite F, E, IH; [reflexivity|].
  intros y p Hy Hp. apply H; [right; exact Hy|exact Hp].
Qed.
