(** Correctness of sort_to where it is correct. *)
From Verif Require Import Common CommonProofs SortNet SortNetProofs SortIntro SortIntroProofs SortTo.

Lemma copy_to_spec {A} (input : list A) : forall pre old post,
  length old = length input ->
  copy_to input (length pre) (pre ++ old ++ post) =
    Ok (length pre + length input, pre ++ input ++ post).
Proof.
  induction input as [|x t IH]; intros pre old post Hl.
  - destruct old; [|discriminate]. cbn. rewrite Nat.add_0_r. reflexivity.
  - destruct old as [|y old]; [discriminate|]. cbn [copy_to].
    cbn [app]. rewrite wr_mid by reflexivity. cbn [bind].
    replace (pre ++ x :: old ++ post) with ((pre ++ [x]) ++ old ++ post)
      by (rewrite <- app_assoc; reflexivity).
    replace (S (length pre)) with (length (pre ++ [x])) by (rewrite app_length; simpl; lia).
    rewrite IH by (simpl in Hl; lia).
    rewrite app_length, <- app_assoc. cbn [app length]. f_equal. f_equal. lia.
Qed.

Lemma sort_to_copy_ok {A} (comp : A -> A -> bool) : strict_weak comp ->
  forall limit input pre old post, length old = length input ->
  exists sorted,
    sort_to_copy comp limit input (length pre) (pre ++ old ++ post) =
      Ok (length pre + length input, pre ++ sorted ++ post) /\
    Permutation input sorted /\ sorted_by comp sorted.
Proof.
  intros SW limit input pre old post Hl. unfold sort_to_copy.
  rewrite copy_to_spec by auto. cbn [bind].
  destruct (sort_sorts comp SW limit pre input post) as (mid' & E & P & S).
  rewrite E. cbn [bind]. exists mid'. auto.
Qed.

(** * The counting pass *)

Definition dg (v : Z) : nat := Z.to_nat (Z.rem v 10).

Lemma digit_ok v : (0 <= Z.rem v 10)%Z -> digit v = Ok (dg v) /\ dg v < 10.
Proof.
  intros H. unfold digit, dg.
  destruct (Z.ltb_spec (Z.rem v 10) 0); [lia|]. split; auto.
  pose proof (Z.rem_bound_abs v 10 ltac:(lia)). lia.
Qed.

Definition cnt (d : nat) (l : list Z) : nat :=
  length (filter (fun v => dg v =? d) l).

Lemma cnt_cons d v l : cnt d (v :: l) = (if dg v =? d then 1 else 0) + cnt d l.
Proof. unfold cnt. cbn [filter]. destruct (dg v =? d); reflexivity. Qed.

Lemma count_pass_spec input : forall counts,
  Forall (fun v => (0 <= Z.rem v 10)%Z) input -> length counts = 10 ->
  exists counts', count_pass input counts = Ok counts' /\ length counts' = 10 /\
    forall d c, nth_error counts d = Some c -> nth_error counts' d = Some (c + cnt d input).
Proof.
  induction input as [|v t IH]; intros counts HF Hl.
  - exists counts. repeat split; auto. intros d c Hc. rewrite Hc. f_equal. unfold cnt. simpl. lia.
  - inv HF. cbn [count_pass].
    destruct (digit_ok v) as [E Hd]; auto. rewrite E. cbn [bind].
    destruct (rd_ok counts (dg v)) as (c & R & Ec); [lia|]. rewrite R. cbn [bind].
    rewrite wr_ok by lia. cbn [bind].
    destruct (IH (upd counts (dg v) (S c))) as (counts' & E' & L' & N); auto.
    { rewrite upd_length. auto. }
    exists counts'. split; auto. split; auto.
    intros d c0 Hc0. rewrite cnt_cons.
    destruct (Nat.eqb_spec (dg v) d) as [<-|Hne].
    + rewrite (N (dg v) (S c)) by (apply nth_error_upd_eq; lia).
      f_equal. assert (c0 = c) by congruence. lia.
    + rewrite (N d c0) by (rewrite nth_error_upd_ne; auto).
      f_equal.
Qed.

Fixpoint sum_first (n : nat) (l : list nat) : nat :=
  match n, l with
  | S n, x :: t => x + sum_first n t
  | _, _ => 0
  end.

Lemma partial_sum_nth l : forall s d c, nth_error l d = Some c ->
  nth_error (partial_sum s l) d = Some (s + sum_first d l + c).
Proof.
  induction l as [|x t IH]; intros s d c Hd; destruct d as [|d]; try discriminate.
  - inv Hd. cbn. f_equal. lia.
  - cbn [nth_error] in Hd. cbn [partial_sum nth_error sum_first].
    rewrite (IH _ d c Hd). f_equal. lia.
Qed.

Lemma partial_sum_length l : forall s, length (partial_sum s l) = length l.
Proof. induction l as [|x t IH]; intros s; cbn; auto. Qed.

(** The output as ten segments; segment [d] is still to be filled on the left. *)
Lemma concat_upd (segs : list (list Z)) : forall d j x t v,
  nth_error segs d = Some (j ++ x :: t) ->
  upd (concat segs) (sum_first d (map (@length Z) segs) + length j) v =
  concat (upd segs d (j ++ v :: t)).
Proof.
  induction segs as [|s segs IH]; intros d j x t v Hd; destruct d as [|d]; try discriminate.
  - cbn [nth_error] in Hd. inv Hd. cbn [map sum_first concat upd].
    rewrite <- app_assoc. cbn [app plus]. rewrite upd_mid. rewrite <- app_assoc. reflexivity.
  - cbn [nth_error] in Hd. cbn [map sum_first concat upd].
    rewrite <- (IH d j x t v Hd).
    rewrite <- Nat.add_assoc. generalize (sum_first d (map (@length Z) segs) + length j) as n.
    intros n. clear. induction s as [|a s IHs]; cbn; auto. rewrite IHs. reflexivity.
Qed.

Lemma upd_app_mid {A} (pre mid post : list A) k x : k < length mid ->
  upd (pre ++ mid ++ post) (length pre + k) x = pre ++ upd mid k x ++ post.
Proof.
  intros Hk. induction pre as [|h pre IH]; cbn [app length plus upd].
  - revert k Hk. induction mid as [|m mid IHm]; intros k Hk; cbn in Hk; [lia|].
    destruct k as [|k]; cbn; auto. rewrite IHm by lia. reflexivity.
  - rewrite IH. reflexivity.
Qed.

Lemma sum_first_upd l d n c : nth_error l d = Some c -> sum_first d (upd l d n) = sum_first d l.
Proof.
  revert d. induction l as [|x t IH]; intros d Hd; destruct d as [|d]; try discriminate; auto.
  cbn [upd sum_first]. rewrite IH; auto.
Qed.

Lemma map_upd {A B} (f : A -> B) l : forall d x, map f (upd l d x) = upd (map f l) d (f x).
Proof. induction l as [|h t IH]; intros [|d] x; cbn; auto. rewrite IH. reflexivity. Qed.

Lemma upd_same {A} (l : list A) : forall d x, nth_error l d = Some x -> upd l d x = l.
Proof.
  induction l as [|h t IH]; intros [|d] x H; try discriminate; cbn.
  - inv H. reflexivity.
  - rewrite IH; auto.
Qed.

(** Invariant: segment [d] consists of [cnt d input] old cells followed by the
    already placed elements. *)
Lemma place_asc_spec pre post : forall input counts segs,
  Forall (fun v => (0 <= Z.rem v 10)%Z) input ->
  length segs = 10 -> length counts = 10 ->
  (forall d, d < 10 -> exists j t, nth_error segs d = Some (j ++ t) /\
     length j = cnt d input /\
     nth_error counts d = Some (sum_first d (map (@length Z) segs) + length j)) ->
  exists segs', place_asc input counts (length pre) (pre ++ concat segs ++ post)
                  = Ok (pre ++ concat segs' ++ post) /\
    length segs' = 10 /\
    (forall d j t, d < 10 -> nth_error segs d = Some (j ++ t) -> length j = cnt d input ->
       nth_error segs' d = Some (rev (filter (fun v => dg v =? d) input) ++ t)).
Proof.
  induction input as [|v input IH]; intros counts segs HF Hs Hc Hinv.
  - exists segs. split; auto. split; auto. intros d j t Hd Hj Hl.
    unfold cnt in Hl. cbn in Hl. destruct j; [|discriminate]. exact Hj.
  - inv HF. cbn [place_asc].
    destruct (digit_ok v) as [E Hd]; auto. rewrite E. cbn [bind].
    destruct (Hinv (dg v) Hd) as (j & t & Ej & Lj & Ec).
    rewrite (rd_some _ _ _ Ec). cbn [bind].
    rewrite cnt_cons, Nat.eqb_refl in Lj.
    destruct (list_snoc_inv j) as [->|(j' & x & ->)]; [cbn in Lj; lia|].
    rewrite app_length in *. cbn [length] in *.
    replace (sum_first (dg v) (map (length (A:=Z)) segs) + (length j' + 1))
      with (S (sum_first (dg v) (map (length (A:=Z)) segs) + length j')) by lia.
    cbn [dec bind].
    rewrite <- app_assoc in Ej. cbn [app] in Ej.
    assert (Hbound : sum_first (dg v) (map (@length Z) segs) + length j' < length (concat segs)).
    { clear - Ej. revert Ej. generalize (dg v). induction segs as [|s segs IHs]; intros n Ej;
        destruct n as [|n]; try discriminate.
      - cbn [nth_error] in Ej. inv Ej. cbn [map sum_first concat].
        rewrite !app_length. cbn. lia.
      - cbn [nth_error] in Ej. specialize (IHs n Ej). cbn [map sum_first concat].
        rewrite app_length. lia. }
    rewrite wr_ok by (rewrite !app_length; lia). cbn [bind].
    rewrite upd_app_mid by auto.
    rewrite (concat_upd segs (dg v) j' x t v Ej).
    rewrite wr_ok by lia. cbn [bind].
    assert (Hmap : map (@length Z) (upd segs (dg v) (j' ++ v :: t)) = map (@length Z) segs).
    { rewrite map_upd. apply upd_same.
      erewrite map_nth_error by exact Ej. f_equal. rewrite !app_length. reflexivity. }
    destruct (IH (upd counts (dg v) (sum_first (dg v) (map (length (A:=Z)) segs) + length j'))
                 (upd segs (dg v) (j' ++ v :: t))) as (segs' & E' & L' & N); auto.
    { rewrite upd_length; auto. }
    { rewrite upd_length; auto. }
    { intros d Hd'. rewrite Hmap. destruct (Nat.eq_dec d (dg v)) as [->|Hne].
      - exists j', (v :: t). rewrite !nth_error_upd_eq by lia.
        repeat split; auto. lia.
      - destruct (Hinv d Hd') as (j2 & t2 & Ej2 & Lj2 & Ec2).
        exists j2, t2. rewrite !nth_error_upd_ne by auto.
        repeat split; auto. rewrite Lj2, cnt_cons.
        destruct (Nat.eqb_spec (dg v) d); [congruence|]. reflexivity. }
    exists segs'. split; auto. split; auto.
    intros d j0 t0 Hd0 Hj0 Hl0. cbn [filter].
    rewrite cnt_cons in Hl0.
    destruct (Nat.eqb_spec (dg v) d) as [<-|Hne].
    + rewrite (N (dg v) j' (v :: t)); auto; try lia.
      * cbn [rev]. rewrite <- app_assoc. cbn [app]. do 2 f_equal. f_equal.
        rewrite Ej in Hj0. inv Hj0.
        assert (Heq : forall (a b : list Z) x t t0, a ++ x :: t = b ++ t0 ->
                  length b = S (length a) -> t = t0).
        { induction a as [|h a IHa]; intros b y u u0 Hab Hlb;
            destruct b as [|hb b]; cbn in Hlb; try lia.
          - destruct b; cbn in Hlb; [|lia]. cbn in Hab. congruence.
          - cbn in Hab. inv Hab. apply (IHa b y); auto. }
        apply (Heq j' j0 x t t0); auto. lia.
      * apply nth_error_upd_eq. lia.
    + apply (N d j0 t0); auto. rewrite nth_error_upd_ne; auto.
Qed.

Lemma perm_by_digit input k :
  Forall (fun v => dg v < k) input ->
  Permutation input (concat (map (fun d => rev (filter (fun v => dg v =? d) input)) (seq 0 k))).
Proof.
  induction input as [|v t IH]; intros HF.
  - cbn. replace (concat _) with (@nil Z); auto.
    induction (seq 0 k); cbn; auto.
  - inv HF. specialize (IH H2).
    assert (Hin : In (dg v) (seq 0 k)) by (apply in_seq; lia).
    apply in_split in Hin as (s1 & s2 & Es).
    assert (Hnd : NoDup (seq 0 k)) by apply seq_NoDup. rewrite Es in *.
    apply NoDup_remove_2 in Hnd.
    rewrite !map_app in *. cbn [map] in *. rewrite !concat_app in *. cbn [concat] in *.
    assert (Hsame : forall s, ~ In (dg v) s ->
      map (fun d => rev (filter (fun w => dg w =? d) (v :: t))) s =
      map (fun d => rev (filter (fun w => dg w =? d) t)) s).
    { intros s Hs. apply map_ext_in. intros d Hd. cbn [filter].
      destruct (Nat.eqb_spec (dg v) d); [subst; contradiction|]. reflexivity. }
    rewrite !Hsame by (intros X; apply Hnd; apply in_or_app; auto).
    cbn [filter]. rewrite Nat.eqb_refl. cbn [rev].
    rewrite <- app_assoc. cbn [app]. rewrite !app_assoc. apply Permutation_cons_app.
    rewrite <- !app_assoc. exact IH.
Qed.

Lemma split_segs : forall (lens : list nat) (old : list Z),
  length old = sum_first (length lens) lens ->
  exists segs, concat segs = old /\ map (@length Z) segs = lens.
Proof.
  induction lens as [|n lens IH]; intros old Hl.
  - destruct old; [|discriminate]. exists []. auto.
  - cbn [length sum_first] in Hl.
    destruct (IH (skipn n old)) as (segs & E & M).
    { rewrite skipn_length. lia. }
    exists (firstn n old :: segs). cbn [concat map]. rewrite E, M, firstn_skipn.
    split; auto. f_equal. rewrite firstn_length. lia.
Qed.

Lemma concat_length_map (segs : list (list Z)) :
  length (concat segs) = sum_first (length (map (@length Z) segs)) (map (@length Z) segs).
Proof. induction segs as [|s t IH]; cbn; auto. rewrite app_length, IH. reflexivity. Qed.

Lemma list_as_map_nth {A} (f : nat -> A) : forall l s,
  (forall d, d < length l -> nth_error l d = Some (f (s + d))) -> l = map f (seq s (length l)).
Proof.
  induction l as [|x l IH]; intros s H; cbn; auto. f_equal.
  - specialize (H 0 ltac:(cbn; lia)). cbn in H. rewrite Nat.add_0_r in H. congruence.
  - apply IH. intros d Hd. specialize (H (S d) ltac:(cbn; lia)). cbn in H.
    rewrite H. f_equal. f_equal. lia.
Qed.

Lemma counting_sort_asc comp input pre old post :
  comp 0%Z 1%Z = true -> Forall (fun v => (0 <= Z.rem v 10)%Z) input ->
  length old = length input ->
  exists out', counting_sort comp input (length pre) (pre ++ old ++ post) =
      Ok (length pre + length input, pre ++ out' ++ post) /\ Permutation input out'.
Proof.
  intros Hc HF Hl. unfold counting_sort.
  destruct (count_pass_spec input (repeat 0 10) HF eq_refl) as (counts & E & L & N).
  rewrite E. cbn [bind]. rewrite Hc.
  assert (Hcounts : counts = map (fun d => cnt d input) (seq 0 10)).
  { rewrite <- L. apply list_as_map_nth. intros d Hd. cbn [plus].
    assert (H0 : nth_error (repeat 0 10) d = Some 0).
    { rewrite L in Hd. do 10 (destruct d as [|d]; [reflexivity|]). lia. }
    apply (N d 0 H0). }
  assert (HF' : Forall (fun v => dg v < 10) input).
  { eapply Forall_impl; [|exact HF]. intros v Hv. apply (digit_ok v Hv). }
  pose proof (perm_by_digit input 10 HF') as HP.
  assert (Hsum : length input = sum_first (length counts) counts).
  { rewrite (Permutation_length HP), concat_length_map, map_map.
    rewrite (map_ext _ (fun d => cnt d input)) by (intros; unfold cnt; apply rev_length).
    rewrite <- Hcounts. reflexivity. }
  destruct (split_segs counts old) as (segs & <- & M); [congruence|].
  assert (Hls : length segs = 10) by (rewrite <- (map_length (@length Z) segs), M; auto).
  assert (Hseg : forall d s, nth_error segs d = Some s -> length s = cnt d input).
  { intros d s Hs. pose proof (map_nth_error (@length Z) _ _ Hs) as Hm. rewrite M in Hm.
    pose proof (nth_error_some_lt _ _ _ Hs).
    assert (H0 : nth_error (repeat 0 10) d = Some 0).
    { rewrite Hls in H. do 10 (destruct d as [|d]; [reflexivity|]). lia. }
    rewrite (N d 0 H0) in Hm. cbn in Hm. congruence. }
  destruct (place_asc_spec pre post input (partial_sum 0 counts) segs HF Hls)
    as (segs' & Ep & Ls & Np).
  - rewrite partial_sum_length; auto.
  - intros d Hd. destruct (nth_error_ex segs d) as (s & Es); [lia|].
    exists s, []. rewrite app_nil_r. split; auto. rewrite (Hseg d s Es). split; auto.
    rewrite M. rewrite (partial_sum_nth counts 0 d (cnt d input)); auto.
    rewrite <- M. rewrite (map_nth_error (@length Z) _ _ Es). f_equal. apply Hseg; auto.
  - rewrite Ep. cbn [bind]. exists (concat segs'). split; auto.
    replace segs' with (map (fun d => rev (filter (fun v => dg v =? d) input)) (seq 0 10)); auto.
    rewrite <- Ls. symmetry. apply list_as_map_nth. intros d Hd. cbn [plus].
    destruct (nth_error_ex segs d) as (s & Es); [lia|].
    rewrite (Np d s []); try lia.
    + rewrite app_nil_r. reflexivity.
    + rewrite app_nil_r. auto.
    + apply Hseg; auto.
Qed.

Lemma sort_to_integral_ok comp : strict_weak comp -> comp 0%Z 1%Z = true ->
  forall limit input pre old post,
  Forall (fun v => (0 <= Z.rem v 10)%Z) input -> length old = length input ->
  exists sorted,
    sort_to_integral comp limit input (length pre) (pre ++ old ++ post) =
      Ok (length pre + length input, pre ++ sorted ++ post) /\
    Permutation input sorted /\ sorted_by comp sorted.
Proof.
  intros SW Hc limit input pre old post HF Hl. unfold sort_to_integral.
  destruct (counting_sort_asc comp input pre old post Hc HF Hl) as (out' & E & P).
  rewrite E. cbn [bind].
  destruct (sort_sorts comp SW limit pre out' post) as (mid' & Es & Ps & S).
  rewrite (Permutation_length P), Es. cbn [bind]. exists mid'. repeat split; auto.
  eapply perm_trans; eauto.
Qed.
