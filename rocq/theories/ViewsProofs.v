(** Proofs about the views. *)
From Coq Require Import ZifyBool.
From Verif Require Import Common CommonProofs Ints Math MathProofs Pipelines SpecPipes AlgSearch AlgCompare Iterators IteratorsProofs Views SpecViews.
Open Scope Z_scope.
Local Arguments Z.mul : simpl never.
Local Arguments Z.add : simpl never.
Local Arguments Z.sub : simpl never.
Local Arguments Z.pow : simpl never.
Local Arguments Z.of_nat : simpl never.

Lemma zlen_app {A} (l1 l2 : list A) : zlen (l1 ++ l2) = zlen l1 + zlen l2.
Proof. unfold zlen. rewrite app_length. lia. Qed.
Lemma zlen_nonneg {A} (l : list A) : 0 <= zlen l.
Proof. unfold zlen. lia. Qed.
Lemma zlen_cons {A} (x : A) l : zlen (x :: l) = 1 + zlen l.
Proof. unfold zlen. cbn [length]. lia. Qed.
Lemma zlen_skip {A} n (l : list A) : 0 <= n <= zlen l -> zlen (skip_n n l) = zlen l - n.
Proof. unfold zlen, skip_n. rewrite skipn_length. lia. Qed.
Lemma zlen_front {A} n (l : list A) : 0 <= n <= zlen l -> zlen (front_n n l) = n.
Proof. unfold zlen, front_n. rewrite firstn_length. lia. Qed.

Lemma move_in len p n : 0 <= p + n <= len -> move len p n = Ok (p + n).
Proof. intros L. unfold move. replace ((0 <=? p + n) && (p + n <=? len)) with true by lia. reflexivity. Qed.
Lemma u64_id z : 0 <= z < 2 ^ 64 -> conv u64 z = z.
Proof. intros L. unfold conv, wrap. cbn. apply Z.mod_small. exact L. Qed.
Lemma sz_id z : 0 <= z < 2 ^ 64 -> sz z = z.
Proof. intros L. unfold sz. apply Z.mod_small. exact L. Qed.
Lemma i64_id z : - 2 ^ 63 <= z < 2 ^ 63 -> conv i64 z = z.
Proof.
  intros L. unfold conv, swrap. cbn [signed width i64].
  assert (E : 2 ^ 64 = 2 * 2 ^ (64 - 1)) by reflexivity. assert (E' : 2 ^ (64 - 1) = 2 ^ 63) by reflexivity.
  destruct (Z_lt_ge_dec z 0).
  - rewrite <- (Z_mod_plus_full z 1), Z.mod_small by lia. replace (_ <? _) with false by lia. lia.
  - rewrite Z.mod_small by lia. replace (_ <? _) with true by lia. reflexivity.
Qed.
Lemma calc_i64 z : - 2 ^ 63 <= z < 2 ^ 63 -> calc i64 z = Ok z.
Proof.
  intros L. unfold calc. cbn [signed i64]. change (lowest i64) with (- 2 ^ 63). change (highest i64) with (2 ^ 63 - 1).
  replace (_ && _) with true by lia. reflexivity.
Qed.
Lemma check_true dbg : check dbg true = Ok tt.
Proof. destruct dbg; reflexivity. Qed.

Lemma upd_skip {A} (l1 l2 : list A) i x : upd (l1 ++ l2) (length l1 + i) x = l1 ++ upd l2 i x.
Proof. induction l1 as [|a l1 IH]; [reflexivity|]. cbn. rewrite IH. reflexivity. Qed.

Lemma nth_firstn {A} n : forall (l : list A) i, (i < n)%nat -> nth_error (firstn n l) i = nth_error l i.
Proof.
  induction n as [|n IH]; intros l i L; [lia|]. destruct l as [|x l]; [reflexivity|]. destruct i; [reflexivity|].
  cbn. apply IH. lia.
Qed.
Lemma list_ext {A} : forall l1 l2 : list A, (forall i, nth_error l1 i = nth_error l2 i) -> l1 = l2.
Proof.
  induction l1 as [|x l1 IH]; intros [|y l2] E; [reflexivity | specialize (E 0%nat); discriminate E | specialize (E 0%nat); discriminate E|].
  pose proof (E 0%nat) as E0. injection E0 as ->. f_equal. apply IH. intros i. exact (E (S i)).
Qed.

(** ** Facts about [covers] *)
Section Covers.
  Context {A : Type}.
  Implicit Types mem xs : list A.

  Lemma cov_bounds mem f l xs : covers mem f l xs -> 0 <= f /\ l = f + zlen xs /\ l <= zlen mem.
  Proof.
    intros (pre & post & -> & -> & ->). rewrite !zlen_app.
    pose proof (zlen_nonneg pre). pose proof (zlen_nonneg post). lia.
  Qed.

  Lemma cov_sub mem f l xs a b : covers mem f l xs -> 0 <= a -> a <= b -> b <= zlen xs ->
    covers mem (f + a) (f + b) (front_n (b - a) (skip_n a xs)).
  Proof.
    intros (pre & post & E & F & L) P Q R.
    exists (pre ++ front_n a xs), (skip_n (b - a) (skip_n a xs) ++ post).
    pose proof (zlen_skip a xs ltac:(lia)) as K.
    split; [|split].
    - rewrite E, <- app_assoc. f_equal.
      rewrite (app_assoc (front_n (b - a) _)). unfold front_n, skip_n. rewrite firstn_skipn, app_assoc, firstn_skipn. reflexivity.
    - rewrite zlen_app, zlen_front by lia. lia.
    - rewrite zlen_app, !zlen_front by lia. lia.
  Qed.

  Lemma cov_skip mem f l xs n : covers mem f l xs -> 0 <= n <= zlen xs -> covers mem (f + n) l (skip_n n xs).
  Proof.
    intros C R. pose proof (cov_bounds _ _ _ _ C) as (B1 & B2 & B3).
    pose proof (cov_sub _ _ _ _ n (zlen xs) C ltac:(lia) ltac:(lia) ltac:(lia)) as H.
    rewrite <- B2 in H. unfold front_n in H. rewrite firstn_all2 in H; [exact H|].
    pose proof (zlen_skip n xs ltac:(lia)) as K. unfold zlen in *. lia.
  Qed.
  Lemma cov_front mem f l xs n : covers mem f l xs -> 0 <= n <= zlen xs -> covers mem f (f + n) (front_n n xs).
  Proof.
    intros C R. pose proof (cov_sub _ _ _ _ 0 n C ltac:(lia) ltac:(lia) ltac:(lia)) as H.
    replace (f + 0) with f in H by lia. replace (n - 0) with n in H by lia. exact H.
  Qed.
  Lemma drop_front xs n : 0 <= n <= zlen xs -> drop_n n xs = front_n (zlen xs - n) xs.
  Proof. intros R. unfold drop_n, front_n, zlen in *. f_equal. lia. Qed.
  Lemma back_skip xs n : 0 <= n <= zlen xs -> back_n n xs = skip_n (zlen xs - n) xs.
  Proof. intros R. unfold back_n, skip_n, zlen in *. f_equal. lia. Qed.
  Lemma cov_drop mem f l xs n : covers mem f l xs -> 0 <= n <= zlen xs -> covers mem f (l - n) (drop_n n xs).
  Proof.
    intros C R. pose proof (cov_bounds _ _ _ _ C) as (B1 & B2 & B3). rewrite drop_front by lia.
    replace (l - n) with (f + (zlen xs - n)) by lia. apply (cov_front _ _ _ _ _ C). lia.
  Qed.
  Lemma cov_back mem f l xs n : covers mem f l xs -> 0 <= n <= zlen xs -> covers mem (l - n) l (back_n n xs).
  Proof.
    intros C R. pose proof (cov_bounds _ _ _ _ C) as (B1 & B2 & B3). rewrite back_skip by lia.
    replace (l - n) with (f + (zlen xs - n)) by lia. apply (cov_skip _ _ _ _ _ C). lia.
  Qed.

  Lemma cov_get mem f l xs i : covers mem f l xs -> 0 <= i < zlen xs -> at_pos mem (f + i) = rd xs (Z.to_nat i).
  Proof.
    intros (pre & post & -> & -> & _) R. unfold at_pos. pose proof (zlen_nonneg pre).
    replace (_ <? 0) with false by lia. unfold rd.
    rewrite nth_error_app2 by (unfold zlen in *; lia).
    replace (Z.to_nat (zlen pre + i) - length pre)%nat with (Z.to_nat i) by (unfold zlen; lia).
    rewrite nth_error_app1 by (unfold zlen in *; lia). reflexivity.
  Qed.
  Lemma rd_in xs i : 0 <= i < zlen xs -> exists x, nth_error xs (Z.to_nat i) = Some x /\ rd xs (Z.to_nat i) = Ok x.
  Proof.
    intros R. destruct (nth_error xs (Z.to_nat i)) as [x|] eqn:E.
    - exists x. unfold rd. rewrite E. split; reflexivity.
    - exfalso. apply nth_error_None in E. unfold zlen in R. lia.
  Qed.

  Lemma cov_set mem f l xs i x : covers mem f l xs -> 0 <= i < zlen xs ->
    exists mem', set_pos mem (f + i) x = Ok mem' /\ covers mem' f l (upd xs (Z.to_nat i) x) /\ same_outside f l mem mem'.
  Proof.
    intros (pre & post & E & F & L) R. exists (upd mem (Z.to_nat (f + i)) x).
    pose proof (zlen_nonneg pre). pose proof (zlen_nonneg post).
    assert (B : (Z.to_nat (f + i) < length mem)%nat).
    { rewrite E, !app_length. unfold zlen in *. lia. }
    split; [|split].
    - unfold set_pos. replace (_ <? 0) with false by lia. unfold wr.
      replace (_ <? _)%nat with true by lia. reflexivity.
    - exists pre, post. split; [|split; [exact F|]].
      + rewrite E. replace (Z.to_nat (f + i)) with (length pre + Z.to_nat i)%nat by (unfold zlen in *; lia).
        rewrite upd_skip, upd_app_l by (unfold zlen in *; lia). reflexivity.
      + rewrite L. unfold zlen. rewrite upd_length. reflexivity.
    - split; [apply upd_length|]. intros j J. apply nth_error_upd_ne. unfold zlen in *. lia.
  Qed.

  Lemma same_outside_refl f l mem : same_outside f l mem mem.
  Proof. split; [reflexivity | intros i _; reflexivity]. Qed.

  Lemma read_from_ok xs : forall n mem f l, covers mem f l xs -> (length xs <= n)%nat -> read_from n mem f l = Ok xs.
  Proof.
    induction xs as [|x xs IH]; intros n mem f l C N.
    - pose proof (cov_bounds _ _ _ _ C) as (_ & B & _). unfold zlen in B. cbn [length] in B.
      assert (E : (f =? l) = true) by lia.
      destruct n; cbn [read_from]; rewrite E; reflexivity.
    - pose proof (cov_bounds _ _ _ _ C) as (_ & B & _). rewrite zlen_cons in B. pose proof (zlen_nonneg xs).
      destruct n; [cbn in N; lia|]. cbn [read_from]. replace (f =? l) with false by lia.
      replace f with (f + 0) at 1 by lia. rewrite (cov_get _ _ _ _ 0 C) by (rewrite zlen_cons; lia).
      cbn [rd nth_error Z.to_nat bind].
      assert (C' := cov_skip _ _ _ _ 1 C). rewrite zlen_cons in C'. specialize (C' ltac:(lia)). cbn in C'.
      rewrite (IH _ _ _ _ C') by (cbn in N; lia). reflexivity.
  Qed.
  Lemma cov_read mem f l xs : covers mem f l xs -> read_range mem f l = Ok xs.
  Proof.
    intros C. apply read_from_ok; [exact C|]. destruct C as (pre & post & -> & _). rewrite !app_length. lia.
  Qed.

  Lemma take_while_le (p : A -> bool) xs : 0 <= zlen (take_while p xs) <= zlen xs.
  Proof.
    induction xs as [|x xs IH]; cbn [take_while]; [unfold zlen; cbn; lia|].
    destruct (p x); rewrite ?zlen_cons; unfold zlen in *; cbn [length] in *; lia.
  Qed.
  Lemma drop_while_skip (p : A -> bool) xs : drop_while p xs = skip_n (zlen (take_while p xs)) xs.
  Proof.
    unfold skip_n. induction xs as [|x xs IH]; cbn [take_while drop_while]; [reflexivity|].
    destruct (p x); [|reflexivity]. unfold zlen in *. rewrite Nat2Z.id in *. cbn [length skipn]. exact IH.
  Qed.
  Lemma take_while_front (p : A -> bool) xs : take_while p xs = front_n (zlen (take_while p xs)) xs.
  Proof.
    unfold front_n. induction xs as [|x xs IH]; cbn [take_while]; [reflexivity|].
    destruct (p x); [|reflexivity]. unfold zlen in *. rewrite Nat2Z.id in *. cbn [length firstn]. f_equal. exact IH.
  Qed.
  Lemma scan_ok (p : A -> bool) xs : forall n mem f l, covers mem f l xs -> (length xs <= n)%nat ->
    scan n mem p f l = Ok (f + zlen (take_while p xs)).
  Proof.
    induction xs as [|x xs IH]; intros n mem f l C N.
    - pose proof (cov_bounds _ _ _ _ C) as (_ & B & _). unfold zlen in B. cbn [length] in B.
      assert (E : (f =? l) = true) by lia.
      destruct n; cbn [scan]; rewrite E; f_equal; unfold zlen; cbn; lia.
    - pose proof (cov_bounds _ _ _ _ C) as (B0 & B & B1). rewrite zlen_cons in B. pose proof (zlen_nonneg xs).
      destruct n; [cbn in N; lia|]. cbn [scan take_while]. replace (f =? l) with false by lia.
      replace f with (f + 0) at 1 by lia. rewrite (cov_get _ _ _ _ 0 C) by (rewrite zlen_cons; lia).
      cbn [rd nth_error Z.to_nat bind]. destruct (p x); [|f_equal; unfold zlen; cbn; lia].
      rewrite move_in by lia. cbn [bind].
      assert (C' := cov_skip _ _ _ _ 1 C). rewrite zlen_cons in C'. specialize (C' ltac:(lia)). cbn in C'.
      rewrite (IH _ _ _ _ C') by (cbn in N; lia). f_equal. rewrite zlen_cons. lia.
  Qed.
  Lemma cov_scan (p : A -> bool) mem f l xs : covers mem f l xs ->
    scan (length mem) mem p f l = Ok (f + zlen (take_while p xs)).
  Proof.
    intros C. apply (scan_ok _ _ _ _ _ _ C). destruct C as (pre & post & -> & _). rewrite !app_length. lia.
  Qed.

  (** Loops. *)
  Lemma cov_visits mem f l xs : covers mem f l xs -> visits (ptr_range mem f l) xs.
  Proof.
    unfold visits, ptr_range, forward. cbn [cur]. generalize f at 2. revert f. induction xs as [|x xs IH]; intros f c C.
    - pose proof (cov_bounds _ _ _ _ C) as (_ & B & _). unfold zlen in B. cbn [length] in B.
      apply yields_end; cbn [at_end]; [lia | discriminate].
    - pose proof (cov_bounds _ _ _ _ C) as (B0 & B & B1). rewrite zlen_cons in B. pose proof (zlen_nonneg xs).
      apply yields_step with (s' := f + 1); cbn [at_end get inc]; [lia | | apply move_in; lia | discriminate |].
      + replace f with (f + 0) by lia. rewrite (cov_get _ _ _ _ 0 C) by (rewrite zlen_cons; lia). reflexivity.
      + assert (C' := cov_skip _ _ _ _ 1 C). rewrite zlen_cons in C'. specialize (C' ltac:(lia)). cbn in C'.
        exact (IH _ c C').
  Qed.
  Lemma cov_visits_rev mem f l xs : covers mem f l xs -> visits (rev_range mem f l) (rev xs).
  Proof.
    unfold visits, rev_range, forward. cbn [cur]. generalize l at 2. revert l. induction xs as [|x xs IH] using rev_ind; intros l c C.
    - pose proof (cov_bounds _ _ _ _ C) as (_ & B & _). unfold zlen in B. cbn [length] in B.
      apply yields_end; cbn [at_end]; [lia | discriminate].
    - pose proof (cov_bounds _ _ _ _ C) as (B0 & B & B1). rewrite zlen_app in B. pose proof (zlen_nonneg xs).
      rewrite rev_app_distr. cbn [rev app]. unfold zlen in B at 2. cbn [length] in B.
      apply yields_step with (s' := l + -1); cbn [at_end get inc]; [lia | | apply move_in; lia | discriminate |].
      + rewrite move_in by lia. cbn [bind]. replace (l + -1) with (f + zlen xs) by lia.
        rewrite (cov_get _ _ _ _ _ C); [|rewrite zlen_app; unfold zlen; cbn [length]; lia].
        unfold rd. unfold zlen. rewrite Nat2Z.id, nth_error_app2, Nat.sub_diag by lia. reflexivity.
      + assert (C' := cov_drop _ _ _ _ 1 C). rewrite zlen_app in C'. unfold zlen in C' at 2. cbn [length] in C'.
        specialize (C' ltac:(lia)). unfold drop_n in C'.
        rewrite app_length in C'. cbn [length] in C'.
        replace (length xs + 1 - Z.to_nat 1)%nat with (length xs) in C' by lia.
        rewrite firstn_app, Nat.sub_diag, firstn_all in C'. cbn [firstn] in C'. rewrite app_nil_r in C'.
        apply (fun l => IH l c) in C'. replace (l - 1) with (l + -1) in C' by lia. exact C'.
  Qed.
End Covers.

(** ** Reading *)
Section Reading.
  Context {A : Type}.
  Implicit Types mem xs : list A.

  Lemma cov_small mem f l xs : covers mem f l xs -> fits_memory mem -> 0 <= zlen xs < 2 ^ 63.
  Proof.
    intros C M. pose proof (cov_bounds _ _ _ _ C) as (B1 & B2 & B3). pose proof (zlen_nonneg xs).
    unfold fits_memory in M. lia.
  Qed.
  Lemma sp_cov mem s xs : sp_covers mem s xs -> sp_size s = zlen xs.
  Proof. intros C. apply cov_bounds in C. lia. Qed.

  Lemma sp_reads mem s xs : fits_memory mem -> sp_covers mem s xs ->
    sp_size s = zlen xs /\ sp_empty s = (length xs =? 0)%nat /\
    (exists r, sp_range mem s = Ok r /\ visits r xs) /\
    (exists r, sp_rrange mem s = Ok r /\ visits r (rev xs)) /\
    (exists r, sp_crrange false mem s = Ok r /\ visits r (rev xs)).
  Proof.
    intros M C. pose proof (sp_cov _ _ _ C) as Sz. pose proof (cov_bounds _ _ _ _ C) as (B1 & B2 & B3). pose proof (zlen_nonneg xs).
    split; [exact Sz|]. split; [unfold sp_empty; unfold zlen in *; lia|].
    unfold sp_range, sp_rrange, sp_crrange, sp_end. rewrite move_in by lia. cbn [bind].
    split; [|split]; eexists; (split; [reflexivity|]); [apply cov_visits | apply cov_visits_rev | apply cov_visits_rev]; exact C.
  Qed.
  Lemma sp_const_crev mem s xs : sp_covers mem s xs ->
    exists r, sp_crrange true mem s = Ok r /\ visits r [].
  Proof.
    intros C. pose proof (sp_cov _ _ _ C) as Sz. pose proof (cov_bounds _ _ _ _ C) as (B1 & B2 & B3).
    pose proof (zlen_nonneg xs). unfold sp_crrange, sp_end. rewrite move_in by lia. cbn [bind].
    eexists. split; [reflexivity|]. apply yields_end; cbn; [lia | discriminate].
  Qed.
  Lemma sp_elements mem s xs i : sp_covers mem s xs -> 0 <= i ->
    (forall x, nth_error xs (Z.to_nat i) = Some x -> sp_get mem s i = Ok x /\ sp_at mem s i = Ok x) /\
    (zlen xs <= i -> sp_at mem s i = Throw).
  Proof.
    intros C L. pose proof (sp_cov _ _ _ C) as Sz. pose proof (cov_bounds _ _ _ _ C) as (B1 & B2 & B3).
    split.
    - intros x E. pose proof (nth_error_some_lt _ _ _ E) as K.
      assert (G : sp_get mem s i = Ok x).
      { unfold sp_get. rewrite move_in by (unfold zlen in *; lia). cbn [bind].
        rewrite (cov_get _ _ _ _ _ C) by (unfold zlen; lia). unfold rd. rewrite E. reflexivity. }
      split; [exact G|]. unfold sp_at. replace (i <? sp_size s) with true by (unfold zlen in *; lia). exact G.
    - intros G. unfold sp_at. replace (i <? sp_size s) with false by lia. reflexivity.
  Qed.
  Lemma sp_ends mem s xs x y : fits_memory mem -> 
    (sp_covers mem s (x :: xs) -> sp_front mem s = Ok x) /\ (sp_covers mem s (xs ++ [y]) -> sp_back mem s = Ok y).
  Proof.
    intros M. split; intros C; pose proof (sp_cov _ _ _ C) as Sz; pose proof (cov_bounds _ _ _ _ C) as (B1 & B2 & B3).
    - unfold sp_front. replace (sp_first s) with (sp_first s + 0) by lia.
      rewrite (cov_get _ _ _ _ 0 C) by (rewrite zlen_cons; pose proof (zlen_nonneg xs); lia). reflexivity.
    - pose proof (cov_small _ _ _ _ C M) as K. rewrite zlen_app in *. change (zlen [y]) with 1 in *. pose proof (zlen_nonneg xs).
      unfold sp_back. rewrite sz_id, i64_id, move_in by lia. cbn [bind].
      replace (sp_size s - 1) with (zlen xs) by lia. rewrite (cov_get _ _ _ _ _ C) by (rewrite zlen_app; change (zlen [y]) with 1; lia).
      unfold rd, zlen. rewrite Nat2Z.id, nth_error_app2, Nat.sub_diag by lia. reflexivity.
  Qed.
  Lemma sp_constructed mem first n : 0 <= first -> 0 <= n -> first + n <= zlen mem -> fits_memory mem ->
    sp_covers mem (sp_make first n) (front_n n (skip_n first mem)) /\
    sp_between first (first + n) = Ok (sp_make first n) /\
    (forall last, 0 <= last <= first -> sp_between first last = Ok (sp_make first 0)).
  Proof.
    intros P Q R M. split; [|split].
    - unfold sp_covers, sp_make. cbn [sp_first sp_size].
      pose proof (cov_sub mem 0 (zlen mem) mem first (first + n)) as H.
      replace (first + n - first) with n in H by lia. replace (0 + first) with first in H by lia.
      replace (0 + (first + n)) with (first + n) in H by lia. apply H; try lia.
      exists [], []. rewrite app_nil_r. unfold zlen. cbn. repeat split.
    - unfold fits_memory in M. unfold sp_between, sp_make. replace (first + n - first) with n by lia.
      rewrite calc_i64 by lia. cbn [bind].
      rewrite u64_id by lia. f_equal. f_equal. destruct (0 <? n) eqn:E; lia.
    - intros last L. unfold fits_memory in M. unfold sp_between, sp_make. rewrite calc_i64 by lia. cbn [bind].
      replace (0 <? last - first) with false by lia. reflexivity.
  Qed.

  Lemma cv_reads mem v xs : fits_memory mem -> cv_covers mem v xs ->
    cv_size v = zlen xs /\ cv_empty v = (length xs =? 0)%nat /\
    visits (ptr_range mem (cv_first v) (cv_last v)) xs /\ visits (rev_range mem (cv_first v) (cv_last v)) (rev xs).
  Proof.
    intros M C. pose proof (cov_bounds _ _ _ _ C) as (B1 & B2 & B3). pose proof (cov_small _ _ _ _ C M).
    split; [unfold cv_size; rewrite u64_id by lia; lia|]. split; [unfold cv_empty; unfold zlen in *; lia|].
    split; [apply cov_visits | apply cov_visits_rev]; exact C.
  Qed.
  Lemma cv_elements const dbg mem v xs i : fits_memory mem -> cv_covers mem v xs -> 0 <= i ->
    (forall x, nth_error xs (Z.to_nat i) = Some x -> cv_get const dbg mem v i = Ok x /\ cv_at mem v i = Ok x) /\
    (zlen xs <= i -> cv_at mem v i = Throw).
  Proof.
    intros M C L. pose proof (cov_bounds _ _ _ _ C) as (B1 & B2 & B3). destruct (cv_reads _ _ _ M C) as (Sz & _).
    split.
    - intros x E. pose proof (nth_error_some_lt _ _ _ E) as K.
      assert (G : (p <- move (zlen mem) (cv_first v) i ;; at_pos mem p) = Ok x).
      { rewrite move_in by (unfold zlen in *; lia). cbn [bind].
        rewrite (cov_get _ _ _ _ _ C) by (unfold zlen; lia). unfold rd. rewrite E. reflexivity. }
      unfold cv_get, cv_at. rewrite G, Sz. split.
      + replace (if const then _ else _) with true by (unfold zlen; destruct const; lia). rewrite check_true. reflexivity.
      + replace (zlen xs <=? i) with false by (unfold zlen; lia). reflexivity.
    - intros G. unfold cv_at. rewrite Sz. replace (zlen xs <=? i) with true by lia. reflexivity.
  Qed.
  Lemma cv_ends dbg mem v xs x y : fits_memory mem ->
    (cv_covers mem v (x :: xs) -> cv_front dbg mem v = Ok x) /\ (cv_covers mem v (xs ++ [y]) -> cv_back dbg mem v = Ok y).
  Proof.
    intros M. split; intros C; pose proof (cov_bounds _ _ _ _ C) as (B1 & B2 & B3); destruct (cv_reads _ _ _ M C) as (Sz & Em & _).
    - unfold cv_front. rewrite Em. cbn [length Nat.eqb negb]. rewrite check_true. cbn [bind].
      replace (cv_first v) with (cv_first v + 0) by lia.
      rewrite (cov_get _ _ _ _ 0 C) by (rewrite zlen_cons; pose proof (zlen_nonneg xs); lia). reflexivity.
    - unfold cv_back. rewrite Em, app_length. cbn [length]. replace (_ =? 0)%nat with false by lia. cbn [negb]. rewrite check_true. cbn [bind].
      rewrite zlen_app in *. change (zlen [y]) with 1 in *. pose proof (zlen_nonneg xs).
      rewrite move_in by lia. cbn [bind]. replace (cv_last v + -1) with (cv_first v + zlen xs) by lia.
      rewrite (cov_get _ _ _ _ _ C) by (rewrite zlen_app; change (zlen [y]) with 1; lia).
      unfold rd, zlen. rewrite Nat2Z.id, nth_error_app2, Nat.sub_diag by lia. reflexivity.
  Qed.

  Lemma iv_reads dbg mem v xs i : fits_memory mem -> iv_covers mem v xs -> 0 <= i ->
    iv_empty v = (length xs =? 0)%nat /\
    (forall x, nth_error xs (Z.to_nat i) = Some x -> iv_get dbg mem v i = Ok x /\ (i = 0 -> iv_front dbg mem v = Ok x)) /\
    visits (ptr_range mem (iv_first v) (iv_last v)) xs /\ visits (rev_range mem (iv_first v) (iv_last v)) (rev xs).
  Proof.
    intros M (C & Sz) L. pose proof (cov_bounds _ _ _ _ C) as (B1 & B2 & B3). pose proof (cov_small _ _ _ _ C M).
    split; [unfold iv_empty; unfold zlen in *; lia|]. split.
    - intros x E. pose proof (nth_error_some_lt _ _ _ E) as K.
      assert (G : at_pos mem (iv_first v + i) = Ok x).
      { rewrite (cov_get _ _ _ _ _ C) by (unfold zlen; lia). unfold rd. rewrite E. reflexivity. }
      split.
      + unfold iv_get. rewrite Sz. replace (i <? zlen xs) with true by (unfold zlen; lia). rewrite check_true. cbn [bind].
        rewrite i64_id, move_in by (unfold zlen in *; lia). exact G.
      + intros ->. unfold iv_front, iv_empty. rewrite Sz. replace (negb _) with true by (unfold zlen; lia). rewrite check_true. cbn [bind].
        replace (iv_first v) with (iv_first v + 0) by lia. exact G.
    - split; [apply cov_visits | apply cov_visits_rev]; exact C.
  Qed.

  Lemma vw_reads mem v xs i : fits_memory mem -> vw_covers mem v xs -> 0 <= i ->
    vw_empty v = (length xs =? 0)%nat /\ vw_count v = zlen xs /\
    (forall x, nth_error xs (Z.to_nat i) = Some x -> vw_get mem v i = Ok x /\ vw_at mem v i = Ok x /\ (i = 0 -> vw_front mem v = Ok x) /\
       (i = zlen xs - 1 -> vw_back mem v = Ok x)) /\
    (zlen xs <= i -> vw_at mem v i = Throw) /\
    visits (ptr_range mem (vw_first v) (vw_last v)) xs /\ visits (rev_range mem (vw_first v) (vw_last v)) (rev xs).
  Proof.
    intros M (C & Sz) L. pose proof (cov_bounds _ _ _ _ C) as (B1 & B2 & B3). pose proof (cov_small _ _ _ _ C M).
    assert (Em : vw_empty v = (length xs =? 0)%nat) by (unfold vw_empty; unfold zlen in *; lia).
    assert (Ct : vw_count v = zlen xs).
    { unfold vw_count. rewrite Em, Sz, u64_id by lia. unfold zlen. destruct (length xs =? 0)%nat eqn:E; lia. }
    split; [exact Em|]. split; [exact Ct|]. split; [|split].
    - intros x E. pose proof (nth_error_some_lt _ _ _ E) as K.
      assert (G : at_pos mem (vw_first v + i) = Ok x).
      { rewrite (cov_get _ _ _ _ _ C) by (unfold zlen; lia). unfold rd. rewrite E. reflexivity. }
      assert (G' : vw_get mem v i = Ok x).
      { unfold vw_get. rewrite i64_id, move_in by (unfold zlen in *; lia). exact G. }
      split; [exact G'|]. split; [|split].
      + unfold vw_at. rewrite Ct. replace (i <? zlen xs) with true by (unfold zlen; lia). exact G'.
      + intros ->. unfold vw_front. replace (vw_first v) with (vw_first v + 0) by lia. exact G.
      + intros I'. unfold vw_back. rewrite move_in by (unfold zlen in *; lia). cbn [bind].
        replace (vw_last v + -1) with (vw_first v + i) by lia. exact G.
    - intros G. unfold vw_at. rewrite Ct. replace (i <? zlen xs) with false by lia. reflexivity.
    - split; [apply cov_visits | apply cov_visits_rev]; exact C.
  Qed.
End Reading.

(** ** Histories *)
Section History.
  Context {A V : Type} (eqb : A -> A -> bool).
  Variable step : list A -> V -> vop A -> res (list A * V * list A).
  Variable cov : list A -> V -> list A -> Prop.
  Variables lo hi : V -> Z.
  Variable allowed : vop A -> list A -> bool.
  Definition good_step : Prop := forall mem v xs o,
    fits_memory mem -> cov mem v xs -> allowed o xs = true ->
    exists mem' v', step mem v o = Ok (mem', v', snd (effect eqb o xs)) /\ cov mem' v' (fst (effect eqb o xs)) /\
      same_outside (lo v) (hi v) mem mem' /\ lo v <= lo v' /\ hi v' <= hi v.
  Lemma history (G : good_step) os : forall mem v xs ys outs,
    fits_memory mem -> cov mem v xs -> effects eqb allowed os xs = Some (ys, outs) ->
    exists mem' v', run_ops step os mem v = Ok (mem', v', outs) /\ cov mem' v' ys /\ same_outside (lo v) (hi v) mem mem'.
  Proof.
    induction os as [|o os IH]; intros mem v xs ys outs M C E; cbn [effects run_ops] in *.
    - injection E as <- <-. exists mem, v. repeat split. exact C.
    - destruct (allowed o xs) eqn:L; [|discriminate].
      destruct (G mem v xs o M C L) as (mem1 & v1 & R1 & C1 & (O1 & P1) & B1 & B2).
      destruct (effect eqb o xs) as (zs & out). cbn [fst snd] in *.
      destruct (effects eqb allowed os zs) as [[ws outs']|] eqn:F; [|discriminate]. injection E as <- <-.
      assert (M1 : fits_memory mem1) by (unfold fits_memory, zlen in *; lia).
      destruct (IH mem1 v1 zs ws outs' M1 C1 F) as (mem2 & v2 & R2 & C2 & O2 & P2).
      exists mem2, v2. rewrite R1. cbn [bind]. rewrite R2. cbn [bind].
      split; [reflexivity|]. split; [exact C2|]. split; [lia|].
      intros i B. rewrite P2 by lia. apply P1. exact B.
  Qed.
End History.

Section Steps.
  Context {A : Type} (eqb : A -> A -> bool).
  Implicit Types mem xs : list A.

  Lemma skip_clip n xs : 0 <= n -> skip_n (Z.min n (zlen xs)) xs = skip_n n xs.
  Proof.
    intros L. unfold skip_n. destruct (Z.min_spec n (zlen xs)) as [(_ & ->) | (G & ->)]; [reflexivity|].
    rewrite !skipn_all2 by (unfold zlen in *; lia). reflexivity.
  Qed.
  Lemma front_clip n xs : 0 <= n -> front_n (Z.min n (zlen xs)) xs = front_n n xs.
  Proof.
    intros L. unfold front_n. destruct (Z.min_spec n (zlen xs)) as [(_ & ->) | (G & ->)]; [reflexivity|].
    rewrite !firstn_all2 by (unfold zlen in *; lia). reflexivity.
  Qed.
  Lemma drop_clip n xs : 0 <= n -> drop_n (Z.min n (zlen xs)) xs = drop_n n xs.
  Proof. intros L. unfold drop_n. f_equal. unfold zlen. lia. Qed.
  Lemma back_clip n xs : 0 <= n -> back_n (Z.min n (zlen xs)) xs = back_n n xs.
  Proof. intros L. unfold back_n. f_equal. unfold zlen. lia. Qed.
  Lemma tl_skip xs : tl xs = skip_n 1 xs.
  Proof. destruct xs; reflexivity. Qed.
  Lemma last_drop xs : removelast xs = drop_n 1 xs.
  Proof.
    unfold drop_n. induction xs as [|x xs IH] using rev_ind; [reflexivity|].
    rewrite removelast_last, app_length. cbn [length].
    replace (length xs + 1 - Z.to_nat 1)%nat with (length xs) by lia.
    rewrite firstn_app, Nat.sub_diag, firstn_all. cbn. rewrite app_nil_r. reflexivity.
  Qed.
  Lemma front_one xs x : nth_error xs 0 = Some x -> front_n 1 xs = [x].
  Proof. destruct xs; cbn; [discriminate|]. intros [= ->]. reflexivity. Qed.
  Lemma back_one xs x : nth_error xs (length xs - 1) = Some x -> back_n 1 xs = [x].
  Proof.
    intros E. pose proof (nth_error_some_lt _ _ _ E) as L. unfold back_n.
    destruct (nth_error_split _ _ E) as (l1 & l2 & F & G). change (Z.to_nat 1) with 1%nat.
    assert (K : length xs = (length l1 + S (length l2))%nat) by (rewrite F, app_length; reflexivity).
    replace (length xs - 1)%nat with (length l1) by lia. rewrite F, skipn_app, Nat.sub_diag, skipn_all. cbn [skipn app].
    destruct l2; [reflexivity|]. cbn in K. lia.
  Qed.
  Lemma nonempty_first xs : some_left xs = true -> exists x, nth_error xs 0 = Some x /\ front_n 1 xs = [x] /\ 1 <= zlen xs.
  Proof.
    destruct xs as [|x xs]; [discriminate|]. intros _. exists x. split; [reflexivity|]. split; [reflexivity|].
    rewrite zlen_cons. pose proof (zlen_nonneg xs). lia.
  Qed.
  Lemma nonempty_last xs : some_left xs = true -> exists x, nth_error xs (length xs - 1) = Some x /\ back_n 1 xs = [x] /\ 1 <= zlen xs.
  Proof.
    intros E. assert (L : (0 < length xs)%nat) by (unfold some_left, zlen in E; lia).
    destruct (nth_error xs (length xs - 1)) as [x|] eqn:F.
    - exists x. split; [reflexivity|]. split; [apply back_one; exact F | unfold zlen; lia].
    - apply nth_error_None in F. lia.
  Qed.
  Lemma cov_first mem f l xs x : covers mem f l xs -> nth_error xs 0 = Some x -> at_pos mem f = Ok x.
  Proof.
    intros C E. replace f with (f + 0) by lia. pose proof (nth_error_some_lt _ _ _ E).
    rewrite (cov_get _ _ _ _ 0 C) by (unfold zlen; lia). unfold rd. cbn [Z.to_nat]. rewrite E. reflexivity.
  Qed.
  Lemma cov_last mem f l xs x : covers mem f l xs -> nth_error xs (length xs - 1) = Some x -> at_pos mem (l - 1) = Ok x.
  Proof.
    intros C E. pose proof (nth_error_some_lt _ _ _ E). pose proof (cov_bounds _ _ _ _ C) as (B1 & B2 & B3).
    replace (l - 1) with (f + (zlen xs - 1)) by lia.
    rewrite (cov_get _ _ _ _ _ C) by (unfold zlen in *; lia). unfold rd.
    replace (Z.to_nat (zlen xs - 1)) with (length xs - 1)%nat by (unfold zlen; lia). rewrite E. reflexivity.
  Qed.

  (** span *)
  Lemma sp_prefix mem s xs n : fits_memory mem -> sp_covers mem s xs -> 0 <= n <= zlen xs ->
    sp_remove_prefix mem s n = Ok (Span (sp_first s + n) (zlen xs - n)) /\
    sp_covers mem (Span (sp_first s + n) (zlen xs - n)) (skip_n n xs).
  Proof.
    intros M C L. pose proof (sp_cov _ _ _ C) as Sz. pose proof (cov_bounds _ _ _ _ C) as (B1 & B2 & B3).
    pose proof (cov_small _ _ _ _ C M). split.
    - unfold sp_remove_prefix. rewrite move_in by lia. cbn [bind]. rewrite Sz, sz_id by lia. reflexivity.
    - unfold sp_covers. cbn [sp_first sp_size]. replace (sp_first s + n + _) with (sp_first s + sp_size s) by lia.
      apply (cov_skip _ _ _ _ _ C). exact L.
  Qed.
  Lemma sp_suffix mem s xs n : fits_memory mem -> sp_covers mem s xs -> 0 <= n <= zlen xs ->
    sp_remove_suffix s n = Span (sp_first s) (zlen xs - n) /\ sp_covers mem (Span (sp_first s) (zlen xs - n)) (drop_n n xs).
  Proof.
    intros M C L. pose proof (sp_cov _ _ _ C) as Sz. pose proof (cov_small _ _ _ _ C M). split.
    - unfold sp_remove_suffix. rewrite Sz, sz_id by lia. reflexivity.
    - unfold sp_covers. cbn [sp_first sp_size]. replace (sp_first s + _) with (sp_first s + sp_size s - n) by lia.
      apply (cov_drop _ _ _ _ _ C). exact L.
  Qed.
  Lemma sp_sub mem s xs pos count : fits_memory mem -> sp_covers mem s xs -> 0 <= pos <= zlen xs -> 0 <= count ->
    sp_subspan mem s pos count = Ok (Span (sp_first s + pos) (Z.min count (zlen xs - pos))) /\
    sp_covers mem (Span (sp_first s + pos) (Z.min count (zlen xs - pos))) (front_n count (skip_n pos xs)).
  Proof.
    intros M C L N. pose proof (sp_cov _ _ _ C) as Sz. pose proof (cov_bounds _ _ _ _ C) as (B1 & B2 & B3).
    pose proof (cov_small _ _ _ _ C M). split.
    - unfold sp_subspan. replace (pos <=? sp_size s) with true by lia. rewrite move_in by lia. cbn [bind].
      rewrite Sz, sz_id by lia. reflexivity.
    - unfold sp_covers. cbn [sp_first sp_size]. rewrite <- (front_clip count (skip_n pos xs)), zlen_skip by lia.
      pose proof (cov_sub _ _ _ _ pos (pos + Z.min count (zlen xs - pos)) C ltac:(lia) ltac:(lia) ltac:(lia)) as K.
      replace (pos + Z.min count (zlen xs - pos) - pos) with (Z.min count (zlen xs - pos)) in K by lia.
      replace (sp_first s + pos + _) with (sp_first s + (pos + Z.min count (zlen xs - pos))) by lia. exact K.
  Qed.
  Lemma sp_good : good_step eqb sp_step sp_covers sp_first (fun s => sp_first s + sp_size s) span_allows.
  Proof.
    intros mem s xs o M C L. pose proof (sp_cov _ _ _ C) as Sz. pose proof (cov_bounds _ _ _ _ C) as (B1 & B2 & B3).
    pose proof (cov_small _ _ _ _ C M) as K.
    destruct o; cbn [span_allows] in L; try discriminate L; cbn [sp_step effect fst snd].
    - (* DropFront *) unfold up_to in L. destruct (sp_prefix mem s xs n M C ltac:(lia)) as (R & C').
      rewrite R. cbn [bind]. do 2 eexists. split; [reflexivity|]. split; [exact C'|].
      split; [apply same_outside_refl|]. cbn [sp_first sp_size]. lia.
    - (* DropBack *) unfold up_to in L. destruct (sp_suffix mem s xs n M C ltac:(lia)) as (R & C').
      rewrite R. do 2 eexists. split; [reflexivity|]. split; [exact C'|].
      split; [apply same_outside_refl|]. cbn [sp_first sp_size]. lia.
    - (* PopFront *) destruct (nonempty_first _ L) as (x & E & F & G).
      destruct (sp_prefix mem s xs 1 M C ltac:(lia)) as (R & C').
      unfold sp_pop_front, sp_front. rewrite (cov_first _ _ _ _ _ C E). cbn [bind]. rewrite R. cbn [bind].
      rewrite F, tl_skip. do 2 eexists. split; [reflexivity|]. split; [exact C'|].
      split; [apply same_outside_refl|]. cbn [sp_first sp_size]. lia.
    - (* PopBack *) destruct (nonempty_last _ L) as (x & E & F & G).
      destruct (sp_suffix mem s xs 1 M C ltac:(lia)) as (R & C').
      unfold sp_pop_back, sp_back. rewrite sz_id, i64_id, move_in by lia. cbn [bind].
      replace (sp_first s + (sp_size s - 1)) with (sp_first s + sp_size s - 1) by lia.
      rewrite (cov_last _ _ _ _ _ C E). cbn [bind]. rewrite R, F, last_drop. do 2 eexists. split; [reflexivity|].
      split; [exact C'|]. split; [apply same_outside_refl|]. cbn [sp_first sp_size]. lia.
    - (* PopFrontN *) unfold up_to in L. destruct (sp_prefix mem s xs n M C ltac:(lia)) as (R & C').
      destruct (sp_sub mem s xs 0 n M C ltac:(lia) ltac:(lia)) as (R2 & C2).
      unfold sp_pop_front_n. rewrite R2. cbn [bind]. rewrite R. cbn [bind].
      rewrite (cov_read _ _ _ _ C2). cbn [bind]. do 2 eexists. split; [reflexivity|]. split; [exact C'|].
      split; [apply same_outside_refl|]. cbn [sp_first sp_size]. lia.
    - (* PopBackN *) unfold up_to in L. destruct (sp_suffix mem s xs n M C ltac:(lia)) as (R & C').
      destruct (sp_sub mem s xs (zlen xs - n) n M C ltac:(lia) ltac:(lia)) as (R2 & C2).
      unfold sp_pop_back_n. rewrite Sz, sz_id, R2 by lia. cbn [bind].
      rewrite (cov_read _ _ _ _ C2). cbn [bind]. rewrite R.
      rewrite <- back_skip by lia. unfold front_n. rewrite firstn_all2
        by (unfold back_n; rewrite skipn_length; lia).
      do 2 eexists. split; [reflexivity|]. split; [exact C'|].
      split; [apply same_outside_refl|]. cbn [sp_first sp_size]. lia.
    - (* TryPopBack *) unfold sp_pop, sp_empty. destruct (sp_size s =? 0) eqn:Z0.
      + assert (X : xs = []) by (destruct xs; [reflexivity | rewrite zlen_cons in Sz; pose proof (zlen_nonneg xs); lia]).
        subst xs. cbn. do 2 eexists. split; [reflexivity|]. split; [exact C|]. split; [apply same_outside_refl|]. lia.
      + assert (L' : some_left xs = true) by (unfold some_left; lia).
        destruct (nonempty_last _ L') as (x & E & F & G).
        destruct (sp_suffix mem s xs 1 M C ltac:(lia)) as (R & C').
        unfold sp_back. rewrite sz_id, i64_id, move_in by lia. cbn [bind].
        replace (sp_first s + (sp_size s - 1)) with (sp_first s + sp_size s - 1) by lia.
        rewrite (cov_last _ _ _ _ _ C E). cbn [bind]. rewrite R, F, last_drop. do 2 eexists. split; [reflexivity|].
        split; [exact C'|]. split; [apply same_outside_refl|]. cbn [sp_first sp_size]. lia.
    - (* Sub *) unfold up_to, size_t_value in L. destruct (sp_sub mem s xs pos count M C ltac:(lia) ltac:(lia)) as (R & C').
      rewrite R. cbn [bind]. do 2 eexists. split; [reflexivity|]. split; [exact C'|].
      split; [apply same_outside_refl|]. cbn [sp_first sp_size]. lia.
    - (* Store *) unfold index in L. destruct (cov_set _ _ _ _ i x C ltac:(lia)) as (mem' & W & C' & S').
      unfold sp_set. rewrite move_in by lia. cbn [bind]. rewrite W. cbn [bind].
      do 2 eexists. split; [reflexivity|]. split; [exact C'|]. split; [exact S'|]. lia.
  Qed.

  (** contiguous_view *)
  Lemma cv_prefix mem v xs n : fits_memory mem -> cv_covers mem v xs -> 0 <= n ->
    let n' := Z.min n (zlen xs) in
    cv_remove_prefix mem v n = Ok (CView (cv_first v + n') (cv_last v)) /\
    cv_covers mem (CView (cv_first v + n') (cv_last v)) (skip_n n xs).
  Proof.
    intros M C L. pose proof (cov_bounds _ _ _ _ C) as (B1 & B2 & B3). pose proof (cov_small _ _ _ _ C M).
    destruct (cv_reads _ _ _ M C) as (Sz & _). split.
    - unfold cv_remove_prefix. rewrite Sz, move_in by lia. reflexivity.
    - rewrite <- skip_clip by lia. apply (cov_skip _ _ _ _ _ C). lia.
  Qed.
  Lemma cv_suffix mem v xs n : fits_memory mem -> cv_covers mem v xs -> 0 <= n ->
    let n' := Z.min n (zlen xs) in
    cv_remove_suffix mem v n = Ok (CView (cv_first v) (cv_last v - n')) /\
    cv_covers mem (CView (cv_first v) (cv_last v - n')) (drop_n n xs).
  Proof.
    intros M C L. pose proof (cov_bounds _ _ _ _ C) as (B1 & B2 & B3). pose proof (cov_small _ _ _ _ C M).
    destruct (cv_reads _ _ _ M C) as (Sz & _). split.
    - unfold cv_remove_suffix. rewrite Sz, move_in by lia. reflexivity.
    - rewrite <- drop_clip by lia. apply (cov_drop _ _ _ _ _ C). lia.
  Qed.
  Lemma cv_prefix_dc dbg mem v xs n : fits_memory mem -> cv_covers mem v xs -> 0 <= n <= zlen xs ->
    cv_remove_prefix_dc dbg mem v n = Ok (CView (cv_first v + n) (cv_last v)) /\
    cv_covers mem (CView (cv_first v + n) (cv_last v)) (skip_n n xs).
  Proof.
    intros M C L. pose proof (cov_bounds _ _ _ _ C) as (B1 & B2 & B3).
    destruct (cv_reads _ _ _ M C) as (Sz & _). split.
    - unfold cv_remove_prefix_dc. rewrite Sz. replace (n <=? zlen xs) with true by lia.
      rewrite check_true. cbn [bind]. rewrite move_in by lia. reflexivity.
    - apply (cov_skip _ _ _ _ _ C). lia.
  Qed.
  Lemma cv_suffix_dc dbg mem v xs n : fits_memory mem -> cv_covers mem v xs -> 0 <= n <= zlen xs ->
    cv_remove_suffix_dc dbg mem v n = Ok (CView (cv_first v) (cv_last v - n)) /\
    cv_covers mem (CView (cv_first v) (cv_last v - n)) (drop_n n xs).
  Proof.
    intros M C L. pose proof (cov_bounds _ _ _ _ C) as (B1 & B2 & B3).
    destruct (cv_reads _ _ _ M C) as (Sz & _). split.
    - unfold cv_remove_suffix_dc. rewrite Sz. replace (n <=? zlen xs) with true by lia.
      rewrite check_true. cbn [bind]. rewrite move_in by lia. reflexivity.
    - apply (cov_drop _ _ _ _ _ C). lia.
  Qed.
  Lemma skip_skip a b xs : 0 <= a -> 0 <= b -> skip_n b (skip_n a xs) = skip_n (a + b) xs.
  Proof.
    intros L1 L2. unfold skip_n. rewrite Z2Nat.inj_add by lia. generalize (Z.to_nat a) as n. generalize (Z.to_nat b) as m. intros m n.
    revert xs. induction n as [|n IH]; intros xs; [reflexivity|]. destruct xs; cbn [skipn Nat.add]; [apply skipn_nil | apply IH].
  Qed.

  (** All the operations that go to the first element for which [p] fails. *)
  Lemma cv_skips dbg (p : A -> bool) mem v xs : fits_memory mem -> cv_covers mem v xs ->
    let pos := cv_first v + zlen (take_while p xs) in
    scan (length mem) mem p (cv_first v) (cv_last v) = Ok pos /\
    cv_remove_prefix_dc dbg mem v (conv u64 (pos - cv_first v)) = Ok (CView pos (cv_last v)) /\
    cv_covers mem (CView pos (cv_last v)) (drop_while p xs) /\
    cv_covers mem (CView (cv_first v) pos) (take_while p xs) /\
    cv_first v <= pos <= cv_last v.
  Proof.
    intros M C pos. pose proof (cov_bounds _ _ _ _ C) as (B1 & B2 & B3). pose proof (cov_small _ _ _ _ C M).
    pose proof (take_while_le p xs) as T. unfold pos.
    split; [apply cov_scan; exact C|].
    replace (cv_first v + zlen (take_while p xs) - cv_first v) with (zlen (take_while p xs)) by lia. rewrite u64_id by lia.
    destruct (cv_prefix_dc dbg mem v xs (zlen (take_while p xs)) M C ltac:(lia)) as (R & C').
    split; [exact R|]. split; [rewrite drop_while_skip; exact C'|]. split; [|lia].
    unfold cv_covers. cbn [cv_first cv_last]. rewrite take_while_front at 2. apply (cov_front _ _ _ _ _ C). lia.
  Qed.
  Lemma cv_skips_discard (p : A -> bool) mem v xs : fits_memory mem -> cv_covers mem v xs ->
    let pos := cv_first v + zlen (take_while p xs) in
    exists w, cv_remove_prefix mem v (conv u64 (pos - cv_first v + 1)) = Ok w /\ cv_remove_prefix mem (CView pos (cv_last v)) 1 = Ok w /\
    cv_covers mem w (tl (drop_while p xs)) /\ cv_first v <= cv_first w /\ cv_last w = cv_last v.
  Proof.
    intros M C pos. pose proof (cov_bounds _ _ _ _ C) as (B1 & B2 & B3). pose proof (cov_small _ _ _ _ C M).
    pose proof (take_while_le p xs) as T. destruct (cv_skips true p mem v xs M C) as (_ & _ & C1 & _ & B). fold pos in C1, B.
    set (k := zlen (take_while p xs)) in *.
    destruct (cv_prefix mem v xs (k + 1) M C ltac:(lia)) as (R & C2).
    destruct (cv_prefix mem _ _ 1 M C1 ltac:(lia)) as (R' & C3). cbn [cv_first cv_last] in R', C3.
    replace (pos - cv_first v + 1) with (k + 1) by (unfold pos; lia). rewrite u64_id by lia.
    eexists. split; [exact R|]. split.
    - rewrite R'. f_equal. f_equal. unfold pos. rewrite drop_while_skip, zlen_skip by (fold k; lia). fold k. lia.
    - split; [|cbn; lia]. rewrite tl_skip, drop_while_skip, skip_skip by (fold k; lia). exact C2.
  Qed.
  Lemma cv_good dbg : good_step eqb (cv_step eqb dbg) cv_covers cv_first cv_last cview_allows.
  Proof.
    intros mem v xs o M C L. pose proof (cov_bounds _ _ _ _ C) as (B1 & B2 & B3). pose proof (cov_small _ _ _ _ C M) as K.
    destruct (cv_reads _ _ _ M C) as (Sz & Em & _).
    assert (N : forall x, differs eqb x = not_eq eqb x) by reflexivity.
    assert (N' : forall x, equals eqb x = is_eq eqb x) by reflexivity.
    destruct o; cbn [cview_allows] in L; try discriminate L; cbn [cv_step effect fst snd].
    - unfold size_t_value in L. destruct (cv_prefix mem v xs n M C ltac:(lia)) as (R & C').
      rewrite R. cbn [bind]. do 2 eexists. split; [reflexivity|]. split; [exact C'|].
      split; [apply same_outside_refl|]. cbn [cv_first cv_last]. lia.
    - unfold size_t_value in L. destruct (cv_suffix mem v xs n M C ltac:(lia)) as (R & C').
      rewrite R. cbn [bind]. do 2 eexists. split; [reflexivity|]. split; [exact C'|].
      split; [apply same_outside_refl|]. cbn [cv_first cv_last]. lia.
    - unfold up_to in L. destruct (cv_prefix_dc dbg mem v xs n M C ltac:(lia)) as (R & C').
      rewrite R. cbn [bind]. do 2 eexists. split; [reflexivity|]. split; [exact C'|].
      split; [apply same_outside_refl|]. cbn [cv_first cv_last]. lia.
    - unfold up_to in L. destruct (cv_suffix_dc dbg mem v xs n M C ltac:(lia)) as (R & C').
      rewrite R. cbn [bind]. do 2 eexists. split; [reflexivity|]. split; [exact C'|].
      split; [apply same_outside_refl|]. cbn [cv_first cv_last]. lia.
    - destruct (nonempty_first _ L) as (x & E & F & G).
      unfold cv_pop_front. replace (negb (cv_empty v)) with true by (rewrite Em; unfold zlen in G; lia).
      rewrite check_true. cbn [bind]. rewrite (cov_first _ _ _ _ _ C E). cbn [bind]. rewrite move_in by lia. cbn [bind].
      rewrite F, tl_skip. do 2 eexists. split; [reflexivity|]. split; [apply (cov_skip _ _ _ _ _ C); lia|].
      split; [apply same_outside_refl|]. cbn [cv_first cv_last]. lia.
    - destruct (nonempty_last _ L) as (x & E & F & G).
      unfold cv_pop_back. replace (negb (cv_empty v)) with true by (rewrite Em; unfold zlen in G; lia).
      rewrite check_true. cbn [bind]. rewrite move_in by lia. cbn [bind]. replace (cv_last v + -1) with (cv_last v - 1) by lia.
      rewrite (cov_last _ _ _ _ _ C E). cbn [bind].
      rewrite F, last_drop. do 2 eexists. split; [reflexivity|]. split; [apply (cov_drop _ _ _ _ _ C); lia|].
      split; [apply same_outside_refl|]. cbn [cv_first cv_last]. lia.
    - destruct (cv_skips dbg (not_eq eqb x) mem v xs M C) as (R1 & R2 & C1 & C2 & B).
      destruct (cv_skips_discard (not_eq eqb x) mem v xs M C) as (w & R3 & R4 & C3 & B4 & B5).
      unfold cv_until_discard, cv_until, cv_find. rewrite N, R1. cbn [bind]. destruct discard.
      + rewrite R3. cbn [bind without_first]. do 2 eexists. split; [reflexivity|]. split; [exact C3|].
        split; [apply same_outside_refl|]. lia.
      + rewrite R2. cbn [bind without_first]. do 2 eexists. split; [reflexivity|]. split; [exact C1|].
        split; [apply same_outside_refl|]. cbn [cv_first cv_last]. lia.
    - destruct (cv_skips dbg (is_eq eqb x) mem v xs M C) as (R1 & R2 & C1 & C2 & B).
      destruct (cv_skips_discard (is_eq eqb x) mem v xs M C) as (w & R3 & R4 & C3 & B4 & B5).
      unfold cv_while_discard, cv_while, cv_find_not. rewrite N', R1. cbn [bind]. destruct discard.
      + rewrite R3. cbn [bind without_first]. do 2 eexists. split; [reflexivity|]. split; [exact C3|].
        split; [apply same_outside_refl|]. lia.
      + rewrite R2. cbn [bind without_first]. do 2 eexists. split; [reflexivity|]. split; [exact C1|].
        split; [apply same_outside_refl|]. cbn [cv_first cv_last]. lia.
    - destruct (cv_skips dbg (not_eq eqb x) mem v xs M C) as (R1 & R2 & C1 & C2 & B).
      destruct (cv_skips_discard (not_eq eqb x) mem v xs M C) as (w & R3 & R4 & C3 & B4 & B5).
      unfold cv_pop_until_discard, cv_pop_until, cv_until, cv_find. rewrite N, R1. cbn [bind]. rewrite R2. cbn [bind cv_first cv_last].
      destruct discard.
      + rewrite R4. cbn [bind without_first]. pose proof (cov_read _ _ _ _ C2) as R5. cbn [cv_first cv_last] in *.
        rewrite R5. cbn [bind]. do 2 eexists. split; [reflexivity|]. split; [exact C3|].
        split; [apply same_outside_refl|]. lia.
      + cbn [bind without_first cv_first]. pose proof (cov_read _ _ _ _ C2) as R5. cbn [cv_first cv_last] in *.
        rewrite R5. cbn [bind]. do 2 eexists. split; [reflexivity|]. split; [exact C1|].
        split; [apply same_outside_refl|]. cbn [cv_first cv_last]. lia.
    - destruct (cv_skips dbg (is_eq eqb x) mem v xs M C) as (R1 & R2 & C1 & C2 & B).
      destruct (cv_skips_discard (is_eq eqb x) mem v xs M C) as (w & R3 & R4 & C3 & B4 & B5).
      unfold cv_pop_while_discard, cv_pop_while, cv_while, cv_find_not. rewrite N', R1. cbn [bind]. rewrite R2. cbn [bind cv_first cv_last].
      destruct discard.
      + rewrite R4. cbn [bind without_first]. pose proof (cov_read _ _ _ _ C2) as R5. cbn [cv_first cv_last] in *.
        rewrite R5. cbn [bind]. do 2 eexists. split; [reflexivity|]. split; [exact C3|].
        split; [apply same_outside_refl|]. lia.
      + cbn [bind without_first cv_first]. pose proof (cov_read _ _ _ _ C2) as R5. cbn [cv_first cv_last] in *.
        rewrite R5. cbn [bind]. do 2 eexists. split; [reflexivity|]. split; [exact C1|].
        split; [apply same_outside_refl|]. cbn [cv_first cv_last]. lia.
    - unfold index in L. destruct (cov_set _ _ _ _ i x C ltac:(lia)) as (mem' & W & C' & S').
      unfold cv_set. rewrite Sz. replace (i <=? zlen xs) with true by lia. rewrite check_true. cbn [bind].
      rewrite move_in by lia. cbn [bind]. rewrite W. cbn [bind].
      do 2 eexists. split; [reflexivity|]. split; [exact C'|]. split; [exact S'|]. lia.
  Qed.
End Steps.

Section MoreSteps.
  Context {A : Type} (eqb : A -> A -> bool).
  Implicit Types mem xs : list A.

  (** iter_view *)
  Lemma iv_prefix mem v xs n : fits_memory mem -> iv_covers mem v xs -> 0 <= n ->
    let n' := Z.min n (zlen xs) in
    iv_remove_prefix mem v n = Ok (IView (iv_first v + n') (iv_last v) (zlen xs - n')) /\
    iv_covers mem (IView (iv_first v + n') (iv_last v) (zlen xs - n')) (skip_n n xs).
  Proof.
    intros M (C & Sz) L. pose proof (cov_bounds _ _ _ _ C) as (B1 & B2 & B3). pose proof (cov_small _ _ _ _ C M). split.
    - unfold iv_remove_prefix. cbv zeta. rewrite Sz, i64_id, move_in by lia. cbn [bind]. rewrite sz_id by lia. reflexivity.
    - rewrite <- skip_clip by lia. split; [apply (cov_skip _ _ _ _ _ C); lia|]. cbn [iv_size]. rewrite zlen_skip by lia. reflexivity.
  Qed.
  Lemma take_all_present (p : A -> bool) xs : zlen (take_while p xs) = zlen xs -> existsb (fun x => negb (p x)) xs = false.
  Proof.
    induction xs as [|x xs IH]; cbn [take_while existsb]; [reflexivity|].
    destruct (p x); rewrite ?zlen_cons; [intros E; cbn; apply IH; lia|]. intros E. exfalso.
    pose proof (zlen_nonneg xs). change (zlen []) with 0 in E. lia.
  Qed.
  Lemma iv_skips dbg (p : A -> bool) mem v xs : fits_memory mem -> iv_covers mem v xs ->
    let pos := iv_first v + zlen (take_while p xs) in
    let w := iv_skip_to v pos in
    scan (length mem) mem p (iv_first v) (iv_last v) = Ok pos /\
    iv_covers mem w (drop_while p xs) /\ iv_first w = pos /\ iv_last w = iv_last v /\
    iv_covers mem (iv_between (iv_first v) pos) (take_while p xs) /\
    iv_first v <= pos <= iv_last v /\
    exists w', iv_drop_one mem w = Ok w' /\ iv_covers mem w' (tl (drop_while p xs)) /\ pos <= iv_first w' /\ iv_last w' = iv_last v /\
      (dbg = false \/ existsb (fun x => negb (p x)) xs = true -> iv_remove_one dbg mem w = Ok w').
  Proof.
    intros M (C & Sz) pos w. pose proof (cov_bounds _ _ _ _ C) as (B1 & B2 & B3). pose proof (cov_small _ _ _ _ C M).
    pose proof (take_while_le p xs) as T. set (k := zlen (take_while p xs)) in *.
    assert (Ew : w = IView (iv_first v + k) (iv_last v) (zlen xs - k)).
    { unfold w, iv_skip_to, pos. replace (iv_first v + k - iv_first v) with k by lia. rewrite (u64_id k), Sz, sz_id by lia. reflexivity. }
    assert (Cw : iv_covers mem w (drop_while p xs)).
    { rewrite Ew, drop_while_skip. fold k. split; cbn [iv_first iv_last iv_size]; [apply (cov_skip _ _ _ _ _ C); lia|].
      rewrite zlen_skip by lia. reflexivity. }
    split; [unfold pos, k; apply cov_scan; exact C|]. split; [exact Cw|].
    split; [rewrite Ew; reflexivity|]. split; [rewrite Ew; reflexivity|]. split.
    { unfold iv_between, pos. replace (iv_first v + k - iv_first v) with k by lia. rewrite u64_id by lia.
      rewrite take_while_front. fold k. split; cbn [iv_first iv_last iv_size]; [apply (cov_front _ _ _ _ _ C); lia|].
      rewrite zlen_front by lia. reflexivity. }
    split; [unfold pos; lia|].
    destruct (iv_prefix mem w _ 1 M Cw ltac:(lia)) as (R & C').
    assert (Dl : zlen (drop_while p xs) = zlen xs - k) by (rewrite drop_while_skip; apply zlen_skip; fold k; lia).
    rewrite Dl in *. rewrite <- tl_skip in C'.
    eexists. split; [|split; [exact C'|]].
    - unfold iv_drop_one, iv_empty. rewrite Ew in *. cbn [iv_first iv_last iv_size] in *.
      destruct (zlen xs - k =? 0) eqn:E.
      + f_equal. f_equal; lia.
      + rewrite move_in by lia. cbn [bind]. rewrite sz_id by lia. f_equal. f_equal; lia.
    - cbn [iv_first iv_last]. rewrite Ew at 1 2. cbn [iv_first iv_last]. split; [unfold pos; lia|]. split; [reflexivity|].
      intros D. unfold iv_remove_one. rewrite R.
      assert (Q : check dbg (negb (iv_empty w)) = Ok tt).
      { destruct D as [-> | D]; [reflexivity|]. unfold iv_empty. rewrite Ew. cbn [iv_size].
        destruct (zlen xs - k =? 0) eqn:E; [|apply check_true]. exfalso.
        rewrite take_all_present in D by (fold k; lia). discriminate D. }
      rewrite Q. reflexivity.
  Qed.
  Lemma iv_good dbg : good_step eqb (iv_step eqb dbg) iv_covers iv_first iv_last (iview_allows eqb dbg).
  Proof.
    intros mem v xs o M C L. destruct C as (C0 & Sz). assert (C : iv_covers mem v xs) by (split; assumption).
    pose proof (cov_bounds _ _ _ _ C0) as (B1 & B2 & B3). pose proof (cov_small _ _ _ _ C0 M) as K.
    assert (N : forall x, differs eqb x = not_eq eqb x) by reflexivity.
    assert (N' : forall x, equals eqb x = is_eq eqb x) by reflexivity.
    assert (F1 : forall x l, existsb (fun y => negb (not_eq eqb x y)) l = existsb (is_eq eqb x) l).
    { intros x l. induction l as [|y l IH]; cbn; [reflexivity|]. rewrite IH. unfold not_eq, is_eq. rewrite negb_involutive. reflexivity. }
    destruct o; cbn [iview_allows] in L; try discriminate L; cbn [iv_step effect fst snd].
    - unfold size_t_value in L. destruct (iv_prefix mem v xs n M C ltac:(lia)) as (R & C').
      rewrite R. cbn [bind]. do 2 eexists. split; [reflexivity|]. split; [exact C'|].
      split; [apply same_outside_refl|]. cbn [iv_first iv_last]. lia.
    - unfold index, up_to in L. unfold iv_remove_prefix_dc. rewrite Sz.
      replace (check dbg (n <? zlen xs)) with (Ok tt).
      2:{ destruct dbg; [|reflexivity]. replace (n <? zlen xs) with true by lia. reflexivity. }
      assert (L' : 0 <= n <= zlen xs) by (destruct dbg; lia). cbn [bind].
      rewrite i64_id, move_in, sz_id by lia. cbn [bind]. do 2 eexists. split; [reflexivity|]. split.
      { split; cbn [iv_first iv_last iv_size]; [apply (cov_skip _ _ _ _ _ C0); lia | rewrite zlen_skip by lia; reflexivity]. }
      split; [apply same_outside_refl|]. cbn [iv_first iv_last]. lia.
    - destruct (nonempty_first _ L) as (x & E & F & G).
      unfold iv_pop_front, iv_empty. rewrite Sz. replace (negb (zlen xs =? 0)) with true by lia.
      rewrite check_true. cbn [bind]. rewrite move_in by lia. cbn [bind]. rewrite (cov_first _ _ _ _ _ C0 E). cbn [bind].
      rewrite F, tl_skip, sz_id by lia. do 2 eexists. split; [reflexivity|]. split.
      { split; cbn [iv_first iv_last iv_size]; [apply (cov_skip _ _ _ _ _ C0); lia | rewrite zlen_skip by lia; reflexivity]. }
      split; [apply same_outside_refl|]. cbn [iv_first iv_last]. lia.
    - destruct (iv_skips dbg (not_eq eqb x) mem v xs M C) as (R1 & C1 & W1 & W2 & C2 & B & w' & R3 & C3 & B4 & B5 & _).
      unfold iv_until_discard, iv_until, iv_find. rewrite N, R1. cbn [bind]. destruct discard.
      + rewrite R3. cbn [bind without_first]. do 2 eexists. split; [reflexivity|]. split; [exact C3|].
        split; [apply same_outside_refl|]. lia.
      + cbn [bind without_first]. do 2 eexists. split; [reflexivity|]. split; [exact C1|].
        split; [apply same_outside_refl|]. lia.
    - destruct (iv_skips dbg (is_eq eqb x) mem v xs M C) as (R1 & C1 & W1 & W2 & C2 & B & w' & R3 & C3 & B4 & B5 & _).
      unfold iv_while_discard, iv_while, iv_find_not. rewrite N', R1. cbn [bind]. destruct discard.
      + rewrite R3. cbn [bind without_first]. do 2 eexists. split; [reflexivity|]. split; [exact C3|].
        split; [apply same_outside_refl|]. lia.
      + cbn [bind without_first]. do 2 eexists. split; [reflexivity|]. split; [exact C1|].
        split; [apply same_outside_refl|]. lia.
    - destruct (iv_skips dbg (not_eq eqb x) mem v xs M C) as (R1 & C1 & W1 & W2 & C2 & B & w' & R3 & C3 & B4 & B5 & Q).
      unfold iv_pop_until_discard, iv_pop_until, iv_until, iv_find. rewrite N, R1. cbn [bind]. rewrite W1.
      pose proof (cov_read _ _ _ _ (proj1 C2)) as R5.
      destruct discard.
      + rewrite Q. 2:{ rewrite F1. destruct dbg; [right; exact L | left; reflexivity]. }
        cbn [bind without_first]. rewrite R5. cbn [bind]. do 2 eexists. split; [reflexivity|]. split; [exact C3|].
        split; [apply same_outside_refl|]. lia.
      + cbn [bind without_first]. rewrite R5. cbn [bind]. do 2 eexists. split; [reflexivity|]. split; [exact C1|].
        split; [apply same_outside_refl|]. lia.
    - destruct (iv_skips dbg (is_eq eqb x) mem v xs M C) as (R1 & C1 & W1 & W2 & C2 & B & w' & R3 & C3 & B4 & B5 & Q).
      unfold iv_pop_while_discard, iv_pop_while, iv_while, iv_find_not. rewrite N', R1. cbn [bind]. rewrite W1.
      pose proof (cov_read _ _ _ _ (proj1 C2)) as R5.
      destruct discard.
      + rewrite Q. 2:{ destruct dbg; [right; exact L | left; reflexivity]. }
        cbn [bind without_first]. rewrite R5. cbn [bind]. do 2 eexists. split; [reflexivity|]. split; [exact C3|].
        split; [apply same_outside_refl|]. lia.
      + cbn [bind without_first]. rewrite R5. cbn [bind]. do 2 eexists. split; [reflexivity|]. split; [exact C1|].
        split; [apply same_outside_refl|]. lia.
    - unfold index in L. destruct (cov_set _ _ _ _ i x C0 ltac:(lia)) as (mem' & W & C' & S').
      unfold iv_set. rewrite Sz. replace (i <? zlen xs) with true by lia. rewrite check_true. cbn [bind].
      rewrite i64_id, move_in by lia. cbn [bind]. rewrite W. cbn [bind].
      do 2 eexists. split; [reflexivity|]. split; [|split; [exact S'|lia]].
      split; [exact C'|]. rewrite Sz. unfold zlen. rewrite upd_length. reflexivity.
  Qed.

  (** view *)
  Lemma vw_prefix mem v xs n : fits_memory mem -> vw_covers mem v xs -> 0 <= n <= zlen xs ->
    vw_remove_prefix mem v n = Ok (View (vw_first v + n) (vw_last v) (zlen xs - n)) /\
    vw_covers mem (View (vw_first v + n) (vw_last v) (zlen xs - n)) (skip_n n xs).
  Proof.
    intros M (C & Sz) L. pose proof (cov_bounds _ _ _ _ C) as (B1 & B2 & B3). pose proof (cov_small _ _ _ _ C M). split.
    - unfold vw_remove_prefix. rewrite Sz, i64_id, calc_i64 by lia. cbn [bind]. rewrite move_in by lia. reflexivity.
    - split; cbn [vw_first vw_last vw_size]; [apply (cov_skip _ _ _ _ _ C); lia | rewrite zlen_skip by lia; reflexivity].
  Qed.
  Lemma vw_suffix mem v xs n : fits_memory mem -> vw_covers mem v xs -> 0 <= n <= zlen xs ->
    vw_remove_suffix mem v n = Ok (View (vw_first v) (vw_last v - n) (zlen xs - n)) /\
    vw_covers mem (View (vw_first v) (vw_last v - n) (zlen xs - n)) (drop_n n xs).
  Proof.
    intros M (C & Sz) L. pose proof (cov_bounds _ _ _ _ C) as (B1 & B2 & B3). pose proof (cov_small _ _ _ _ C M). split.
    - unfold vw_remove_suffix. rewrite Sz, i64_id, !calc_i64 by lia. cbn [bind]. rewrite move_in by lia. reflexivity.
    - split; cbn [vw_first vw_last vw_size]; [apply (cov_drop _ _ _ _ _ C); lia | rewrite drop_front, zlen_front by lia; reflexivity].
  Qed.
  Lemma vw_good : good_step eqb vw_step vw_covers vw_first vw_last view_allows.
  Proof.
    intros mem v xs o M C L. destruct C as (C0 & Sz). assert (C : vw_covers mem v xs) by (split; assumption).
    pose proof (cov_bounds _ _ _ _ C0) as (B1 & B2 & B3). pose proof (cov_small _ _ _ _ C0 M) as K.
    destruct (vw_reads mem v xs 0 M C ltac:(lia)) as (Em & Ct & _).
    destruct o; cbn [view_allows] in L; try discriminate L; cbn [vw_step effect fst snd].
    - unfold up_to in L. destruct (vw_prefix mem v xs n M C ltac:(lia)) as (R & C').
      rewrite R. cbn [bind]. do 2 eexists. split; [reflexivity|]. split; [exact C'|].
      split; [apply same_outside_refl|]. cbn [vw_first vw_last]. lia.
    - unfold up_to in L. destruct (vw_suffix mem v xs n M C ltac:(lia)) as (R & C').
      rewrite R. cbn [bind]. do 2 eexists. split; [reflexivity|]. split; [exact C'|].
      split; [apply same_outside_refl|]. cbn [vw_first vw_last]. lia.
    - destruct (nonempty_first _ L) as (x & E & F & G). destruct (vw_prefix mem v xs 1 M C ltac:(lia)) as (R & C').
      unfold vw_pop_front. rewrite (cov_first _ _ _ _ _ C0 E). cbn [bind]. rewrite R. cbn [bind]. rewrite F, tl_skip.
      do 2 eexists. split; [reflexivity|]. split; [exact C'|].
      split; [apply same_outside_refl|]. cbn [vw_first vw_last]. lia.
    - destruct (nonempty_last _ L) as (x & E & F & G). destruct (vw_suffix mem v xs 1 M C ltac:(lia)) as (R & C').
      unfold vw_pop_back, vw_back. rewrite move_in by lia. cbn [bind]. replace (vw_last v + -1) with (vw_last v - 1) by lia.
      rewrite (cov_last _ _ _ _ _ C0 E). cbn [bind]. rewrite R. cbn [bind]. rewrite F, last_drop.
      do 2 eexists. split; [reflexivity|]. split; [exact C'|].
      split; [apply same_outside_refl|]. cbn [vw_first vw_last]. lia.
    - unfold size_t_value in L. unfold vw_pop_front_n. cbv zeta. rewrite Ct.
      replace (if zlen xs <? n then zlen xs else n) with (Z.min n (zlen xs)) by (destruct (zlen xs <? n) eqn:E; lia).
      destruct (vw_prefix mem v xs (Z.min n (zlen xs)) M C ltac:(lia)) as (R & C').
      unfold vw_make. rewrite i64_id, move_in by lia. cbn [bind]. rewrite calc_i64 by lia. cbn [bind]. rewrite R. cbn [bind vw_first vw_last].
      pose proof (cov_front _ _ _ _ (Z.min n (zlen xs)) C0 ltac:(lia)) as C2. rewrite (cov_read _ _ _ _ C2). cbn [bind].
      rewrite front_clip by lia. rewrite skip_clip in C' by lia.
      do 2 eexists. split; [reflexivity|]. split; [exact C'|].
      split; [apply same_outside_refl|]. cbn [vw_first vw_last]. lia.
    - unfold size_t_value in L. unfold vw_pop_back_n. cbv zeta. rewrite Ct.
      replace (if zlen xs <? n then zlen xs else n) with (Z.min n (zlen xs)) by (destruct (zlen xs <? n) eqn:E; lia).
      destruct (vw_suffix mem v xs (Z.min n (zlen xs)) M C ltac:(lia)) as (R & C').
      unfold vw_make. rewrite i64_id, move_in by lia. cbn [bind]. rewrite calc_i64 by lia. cbn [bind]. rewrite R. cbn [bind vw_first vw_last].
      pose proof (cov_back _ _ _ _ (Z.min n (zlen xs)) C0 ltac:(lia)) as C2.
      replace (vw_last v + - Z.min n (zlen xs)) with (vw_last v - Z.min n (zlen xs)) by lia.
      rewrite (cov_read _ _ _ _ C2). cbn [bind].
      rewrite back_clip by lia. rewrite drop_clip in C' by lia.
      do 2 eexists. split; [reflexivity|]. split; [exact C'|].
      split; [apply same_outside_refl|]. cbn [vw_first vw_last]. lia.
    - unfold vw_pop. rewrite Em. destruct (length xs =? 0)%nat eqn:Z0.
      + assert (X : xs = []) by (destruct xs; [reflexivity | discriminate Z0]).
        subst xs. cbn. do 2 eexists. split; [reflexivity|]. split; [exact C|]. split; [apply same_outside_refl|]. lia.
      + assert (L' : some_left xs = true) by (unfold some_left, zlen; lia).
        destruct (nonempty_first _ L') as (x & E & F & G). destruct (vw_prefix mem v xs 1 M C ltac:(lia)) as (R & C').
        unfold vw_front. rewrite (cov_first _ _ _ _ _ C0 E). cbn [bind]. rewrite R. cbn [bind given]. rewrite F, tl_skip.
        do 2 eexists. split; [reflexivity|]. split; [exact C'|].
        split; [apply same_outside_refl|]. cbn [vw_first vw_last]. lia.
    - unfold index in L. destruct (cov_set _ _ _ _ i x C0 ltac:(lia)) as (mem' & W & C' & S').
      unfold vw_set. rewrite i64_id, move_in by lia. cbn [bind]. rewrite W. cbn [bind].
      do 2 eexists. split; [reflexivity|]. split; [|split; [exact S'|lia]].
      split; [exact C'|]. rewrite Sz. unfold zlen. rewrite upd_length. reflexivity.
  Qed.
End MoreSteps.

(** ** Searching, subspan, add_prefix *)
Section Other.
  Context {A : Type} (eqb : A -> A -> bool).
  Implicit Types mem xs : list A.

  Lemma cv_finds mem v xs x : cv_covers mem v xs ->
    cv_find eqb mem v x = Ok (cv_first v + zlen (take_while (not_eq eqb x) xs)) /\
    cv_find_not eqb mem v x = Ok (cv_first v + zlen (take_while (is_eq eqb x) xs)).
  Proof. intros C. split; apply (cov_scan _ _ _ _ _ C). Qed.
  Lemma iv_finds mem v xs x : iv_covers mem v xs ->
    iv_find eqb mem v x = Ok (iv_first v + zlen (take_while (not_eq eqb x) xs)) /\
    iv_find_not eqb mem v x = Ok (iv_first v + zlen (take_while (is_eq eqb x) xs)).
  Proof. intros (C & _). split; apply (cov_scan _ _ _ _ _ C). Qed.

  Lemma cov_part mem first n : 0 <= first -> 0 <= n -> first + n <= zlen mem ->
    covers mem first (first + n) (front_n n (skip_n first mem)).
  Proof.
    intros P Q R. pose proof (cov_sub mem 0 (zlen mem) mem first (first + n)) as H.
    replace (first + n - first) with n in H by lia. replace (0 + first) with first in H by lia.
    replace (0 + (first + n)) with (first + n) in H by lia. apply H; try lia.
    exists [], []. rewrite app_nil_r. unfold zlen. cbn. repeat split.
  Qed.
  Lemma cv_constructed mem first n : 0 <= first -> 0 <= n -> first + n <= zlen mem ->
    cv_make mem first n = Ok (cv_between first (first + n)) /\
    cv_covers mem (cv_between first (first + n)) (front_n n (skip_n first mem)).
  Proof.
    intros P Q R. split; [unfold cv_make; rewrite move_in by lia; reflexivity|]. apply cov_part; assumption.
  Qed.
  Lemma iv_constructed mem first n : fits_memory mem -> 0 <= first -> 0 <= n -> first + n <= zlen mem ->
    iv_make mem first n = Ok (iv_between first (first + n)) /\
    iv_covers mem (iv_between first (first + n)) (front_n n (skip_n first mem)).
  Proof.
    intros M P Q R. unfold fits_memory in M. split.
    - unfold iv_make, iv_between. rewrite i64_id, move_in by lia. cbn [bind]. rewrite u64_id by lia. f_equal. f_equal. lia.
    - split; [apply cov_part; assumption|]. cbn [iv_between iv_size]. rewrite u64_id by lia.
      rewrite zlen_front by (rewrite zlen_skip; lia). lia.
  Qed.
  Lemma vw_constructed mem first n : fits_memory mem -> 0 <= first -> 0 <= n -> first + n <= zlen mem ->
    exists v, vw_make first (first + n) = Ok v /\ vw_covers mem v (front_n n (skip_n first mem)).
  Proof.
    intros M P Q R. unfold fits_memory in M. eexists. split.
    - unfold vw_make. rewrite calc_i64 by lia. reflexivity.
    - split; [apply cov_part; assumption|]. cbn [vw_size]. rewrite zlen_front by (rewrite zlen_skip; lia). lia.
  Qed.

  (** subspan *)
  Lemma cv_subspan_zero mem v xs count : fits_memory mem -> cv_covers mem v xs -> 0 <= count ->
    exists w, cv_subspan mem v 0 count = Ok w /\ cv_covers mem w (front_n count xs).
  Proof.
    intros M C L. pose proof (cov_bounds _ _ _ _ C) as (B1 & B2 & B3). pose proof (cov_small _ _ _ _ C M).
    destruct (cv_reads _ _ _ M C) as (Sz & _). unfold cv_subspan. cbv zeta. rewrite Sz.
    replace (Z.min (zlen xs) 0) with 0 by lia. replace (zlen xs - 0) with (zlen xs) by lia.
    rewrite sz_id by lia. rewrite !move_in by lia. cbn [bind]. eexists. split; [reflexivity|].
    replace (cv_first v + 0) with (cv_first v) by lia. rewrite <- front_clip by lia.
    apply (cov_front _ _ _ _ _ C). lia.
  Qed.
  Lemma cv_subspan_wrong mem v xs offset count : fits_memory mem -> cv_covers mem v xs -> 0 < offset <= zlen xs -> 0 <= count ->
    exists w, cv_subspan mem v offset count = Ok w /\
      cv_size w = sz (zlen (front_n count (skip_n offset xs)) - offset) /\ cv_size w <> zlen (front_n count (skip_n offset xs)).
  Proof.
    intros M C L N. pose proof (cov_bounds _ _ _ _ C) as (B1 & B2 & B3). pose proof (cov_small _ _ _ _ C M).
    destruct (cv_reads _ _ _ M C) as (Sz & _). unfold cv_subspan. cbv zeta. rewrite Sz.
    replace (Z.min (zlen xs) offset) with offset by lia. rewrite sz_id by lia. rewrite !move_in by lia. cbn [bind].
    eexists. split; [reflexivity|].
    rewrite <- (front_clip count (skip_n offset xs)), zlen_front, zlen_skip by (rewrite ?zlen_skip; lia).
    set (m := Z.min count (zlen xs - offset)). unfold cv_size. cbn [cv_first cv_last].
    replace (cv_first v + m - (cv_first v + offset)) with (m - offset) by lia.
    split; [reflexivity|]. unfold conv, wrap. cbn [signed width u64].
    destruct (Z_lt_ge_dec m offset).
    - rewrite <- (Z_mod_plus_full _ 1), Z.mod_small by lia. lia.
    - rewrite Z.mod_small by lia. lia.
  Qed.
  Lemma iv_subspan_zero mem v xs count : fits_memory mem -> iv_covers mem v xs -> 0 <= count ->
    exists w, iv_subspan mem v 0 count = Ok w /\ iv_covers mem w (front_n count xs).
  Proof.
    intros M (C & Sz) L. pose proof (cov_bounds _ _ _ _ C) as (B1 & B2 & B3). pose proof (cov_small _ _ _ _ C M).
    unfold iv_subspan. cbv zeta. rewrite Sz.
    replace (Z.min (zlen xs) 0) with 0 by lia. replace (zlen xs - 0) with (zlen xs) by lia.
    rewrite sz_id by lia. rewrite !i64_id, !move_in by lia. cbn [bind]. eexists. split; [reflexivity|].
    rewrite <- front_clip by lia. unfold iv_between.
    replace (iv_first v + 0) with (iv_first v) by lia.
    split; cbn [iv_first iv_last iv_size]; [apply (cov_front _ _ _ _ _ C); lia|].
    rewrite zlen_front, u64_id by lia. lia.
  Qed.
  Lemma iv_subspan_wrong mem v xs offset count : fits_memory mem -> iv_covers mem v xs -> 0 < offset <= zlen xs -> 0 <= count ->
    exists w, iv_subspan mem v offset count = Ok w /\
      iv_size w = sz (zlen (front_n count (skip_n offset xs)) - offset) /\ iv_size w <> zlen (front_n count (skip_n offset xs)).
  Proof.
    intros M (C & Sz) L N. pose proof (cov_bounds _ _ _ _ C) as (B1 & B2 & B3). pose proof (cov_small _ _ _ _ C M).
    unfold iv_subspan. cbv zeta. rewrite Sz.
    replace (Z.min (zlen xs) offset) with offset by lia. rewrite sz_id by lia. rewrite !i64_id, !move_in by lia. cbn [bind].
    eexists. split; [reflexivity|].
    rewrite <- (front_clip count (skip_n offset xs)), zlen_front, zlen_skip by (rewrite ?zlen_skip; lia).
    set (m := Z.min count (zlen xs - offset)). unfold iv_between. cbn [iv_size].
    replace (iv_first v + m - (iv_first v + offset)) with (m - offset) by lia.
    split; [reflexivity|]. unfold conv, wrap. cbn [signed width u64].
    destruct (Z_lt_ge_dec m offset).
    - rewrite <- (Z_mod_plus_full _ 1), Z.mod_small by lia. lia.
    - rewrite Z.mod_small by lia. lia.
  Qed.

  (** add_prefix and add_suffix undo remove_prefix and remove_suffix. *)
  Lemma cv_add_back mem v xs n : fits_memory mem -> cv_covers mem v xs -> 0 <= n <= zlen xs ->
    (w <- cv_remove_prefix mem v n ;; cv_add_prefix mem w n) = Ok v /\
    (w <- cv_remove_suffix mem v n ;; cv_add_suffix mem w n) = Ok v.
  Proof.
    intros M C L. pose proof (cov_bounds _ _ _ _ C) as (B1 & B2 & B3). destruct v as [f l]. cbn [cv_first cv_last] in *.
    destruct (cv_prefix mem _ xs n M C ltac:(lia)) as (R1 & _). destruct (cv_suffix mem _ xs n M C ltac:(lia)) as (R2 & _).
    rewrite R1, R2. unfold cv_add_prefix, cv_add_suffix. cbn [bind cv_first cv_last]. rewrite !move_in by lia. cbn [bind].
    split; f_equal; f_equal; lia.
  Qed.
  Lemma iv_add_back mem v xs n : fits_memory mem -> iv_covers mem v xs -> 0 <= n <= zlen xs ->
    (w <- iv_remove_prefix mem v n ;; iv_add_prefix mem w n) = Ok v.
  Proof.
    intros M C L. pose proof (cov_bounds _ _ _ _ (proj1 C)) as (B1 & B2 & B3). pose proof (cov_small _ _ _ _ (proj1 C) M).
    destruct (iv_prefix mem _ xs n M C ltac:(lia)) as (R1 & _).
    rewrite R1. unfold iv_add_prefix. cbn [bind iv_first iv_last iv_size]. rewrite i64_id, move_in, sz_id by lia. cbn [bind].
    destruct v as [f l s]. destruct C as (C & Sz). cbn [iv_first iv_last iv_size] in *. f_equal. f_equal; lia.
  Qed.

  (** Assertions of iter_view that refuse valid calls, and one of contiguous_view that
      lets an invalid one through. *)
  Lemma iv_asserts mem v xs x : fits_memory mem -> iv_covers mem v xs ->
    iv_remove_prefix_dc true mem v (zlen xs) = Throw /\
    (exists w, iv_remove_prefix_dc false mem v (zlen xs) = Ok w /\ iv_covers mem w []) /\
    (existsb (is_eq eqb x) xs = false -> iv_pop_until_discard eqb true mem v x = Throw) /\
    (existsb (not_eq eqb x) xs = false -> iv_pop_while_discard eqb true mem v x = Throw).
  Proof.
    intros M C. pose proof (cov_bounds _ _ _ _ (proj1 C)) as (B1 & B2 & B3). pose proof (cov_small _ _ _ _ (proj1 C) M).
    assert (Q : forall p, existsb (fun x => negb (p x)) xs = false -> drop_while p xs = []).
    { intros p. clear. induction xs as [|y ys IH]; cbn; [reflexivity|]. destruct (p y); cbn; [exact IH | discriminate]. }
    assert (U : forall p w, existsb (fun x => negb (p x)) xs = false -> iv_covers mem w (drop_while p xs) -> iv_remove_one true mem w = Throw).
    { intros p w E (_ & Sw). rewrite (Q p E) in Sw. unfold iv_remove_one, iv_empty. rewrite Sw. reflexivity. }
    split; [|split; [|split]].
    - unfold iv_remove_prefix_dc. rewrite (proj2 C). replace (_ <? _) with false by lia. reflexivity.
    - unfold iv_remove_prefix_dc. cbn [check bind]. rewrite i64_id, move_in by lia. cbn [bind andb]. eexists. split; [reflexivity|].
      rewrite (proj2 C). replace (zlen xs - zlen xs) with 0 by lia. change (sz 0) with 0.
      split; [|reflexivity]. cbn [iv_first iv_last].
      pose proof (cov_skip _ _ _ _ (zlen xs) (proj1 C) ltac:(lia)) as K. unfold skip_n, zlen in K. rewrite Nat2Z.id, skipn_all in K. exact K.
    - intros E. destruct (iv_skips true (not_eq eqb x) mem v xs M C) as (R1 & C1 & _).
      unfold iv_pop_until_discard, iv_until, iv_find. change (differs eqb x) with (not_eq eqb x). rewrite R1. cbn [bind].
      rewrite (U (not_eq eqb x) _); [reflexivity | | exact C1].
      rewrite <- E. clear. induction xs as [|y ys IH]; cbn; [reflexivity|]. rewrite IH. unfold not_eq, is_eq. rewrite negb_involutive. reflexivity.
    - intros E. destruct (iv_skips true (is_eq eqb x) mem v xs M C) as (R1 & C1 & _).
      unfold iv_pop_while_discard, iv_while, iv_find_not. change (equals eqb x) with (is_eq eqb x). rewrite R1. cbn [bind].
      rewrite (U (is_eq eqb x) _); [reflexivity | exact E | exact C1].
  Qed.
  Lemma cv_assert_end mem v xs : fits_memory mem -> cv_covers mem v xs -> 
    cv_get true true mem v (zlen xs) = Throw /\ cv_get false true mem v (zlen xs) = at_pos mem (cv_last v).
  Proof.
    intros M C. pose proof (cov_bounds _ _ _ _ C) as (B1 & B2 & B3). destruct (cv_reads _ _ _ M C) as (Sz & _).
    pose proof (zlen_nonneg xs). unfold cv_get. rewrite Sz. split.
    - replace (_ <? _) with false by lia. reflexivity.
    - replace (_ <=? _) with true by lia. rewrite check_true. cbn [bind]. rewrite move_in by lia. cbn [bind]. f_equal. lia.
  Qed.

  (** More than there is. *)
  Lemma sp_too_many mem s xs n : fits_memory mem -> sp_covers mem s xs -> zlen xs < n < 2 ^ 64 ->
    (sp_first s + n <= zlen mem ->
     exists r s', sp_pop_front_n mem s n = Ok (r, s') /\ sp_covers mem r xs /\ sp_size s' = 2 ^ 64 - (n - zlen xs)) /\
    (zlen mem < sp_first s + n -> sp_pop_front_n mem s n = UB) /\
    sp_pop_back_n mem s n = Throw /\
    sp_size (sp_remove_suffix s n) = 2 ^ 64 - (n - zlen xs).
  Proof.
    intros M C L. pose proof (sp_cov _ _ _ C) as Sz. pose proof (cov_bounds _ _ _ _ C) as (B1 & B2 & B3).
    pose proof (cov_small _ _ _ _ C M).
    assert (W : sz (zlen xs - n) = 2 ^ 64 - (n - zlen xs)).
    { unfold sz. rewrite <- (Z_mod_plus_full _ 1), Z.mod_small by lia. lia. }
    destruct (sp_sub mem s xs 0 n M C ltac:(lia) ltac:(lia)) as (R & C').
    replace (front_n n (skip_n 0 xs)) with xs in C' by (unfold front_n, skip_n; rewrite firstn_all2; [reflexivity|]; unfold zlen in *; cbn; lia).
    split; [|split; [|split]].
    - intros G. unfold sp_pop_front_n, sp_remove_prefix. rewrite R. cbn [bind]. rewrite move_in by lia. cbn [bind].
      do 2 eexists. split; [reflexivity|]. split; [exact C'|]. cbn [sp_size]. rewrite Sz. exact W.
    - intros G. unfold sp_pop_front_n, sp_remove_prefix. rewrite R. cbn [bind]. unfold move. replace (_ && _) with false by lia. reflexivity.
    - unfold sp_pop_back_n. rewrite Sz, W. unfold sp_subspan. replace (_ <=? _) with false by lia. reflexivity.
    - unfold sp_remove_suffix. cbn [sp_size]. rewrite Sz. exact W.
  Qed.
  Lemma sp_sub_past mem s xs pos count : sp_covers mem s xs -> zlen xs < pos -> sp_subspan mem s pos count = Throw.
  Proof.
    intros C L. pose proof (sp_cov _ _ _ C) as Sz. unfold sp_subspan. replace (_ <=? _) with false by lia. reflexivity.
  Qed.
  Lemma vw_too_many mem v xs n : fits_memory mem -> vw_covers mem v xs -> zlen xs < n -> vw_first v + n <= zlen mem ->
    exists v', vw_remove_prefix mem v n = Ok v' /\ vw_empty v' = true /\ vw_count v' = 0 /\ vw_last v' < vw_first v'.
  Proof.
    intros M (C & Sz) L N. pose proof (cov_bounds _ _ _ _ C) as (B1 & B2 & B3). pose proof (cov_small _ _ _ _ C M).
    unfold fits_memory in M. unfold vw_remove_prefix. rewrite Sz, i64_id, calc_i64 by lia. cbn [bind]. rewrite move_in by lia. cbn [bind].
    eexists. split; [reflexivity|]. cbn [vw_first vw_last vw_size].
    assert (E : vw_empty (View (vw_first v + n) (vw_last v) (zlen xs - n)) = true) by (unfold vw_empty; cbn [vw_size]; lia).
    split; [exact E|]. split; [unfold vw_count; rewrite E; reflexivity|]. lia.
  Qed.

  (** ** Comparisons *)
  Lemma same_spec l1 : forall l2, same eqb l1 l2 = true <-> Forall2 (fun x y => eqb x y = true) l1 l2.
  Proof.
    induction l1 as [|x l1 IH]; intros [|y l2]; cbn [same].
    - split; [constructor | reflexivity].
    - split; [discriminate | intros F; inversion F].
    - split; [discriminate | intros F; inversion F].
    - destruct (eqb x y) eqn:E.
      + rewrite IH. split; [intros F; constructor; assumption | intros F; inversion F; assumption].
      + split; [discriminate | intros F; inversion F; congruence].
  Qed.
  Lemma forall2_len (l1 l2 : list A) : Forall2 (fun x y => eqb x y = true) l1 l2 -> length l1 = length l2.
  Proof. induction 1; cbn; lia. Qed.
  Lemma cv_equal mem x y xs ys : fits_memory mem -> cv_covers mem x xs -> cv_covers mem y ys ->
    exists b, cv_eq eqb mem x y = Ok b /\ (b = true <-> Forall2 (fun x y => eqb x y = true) xs ys).
  Proof.
    intros M Cx Cy. destruct (cv_reads _ _ _ M Cx) as (Sx & _). destruct (cv_reads _ _ _ M Cy) as (Sy & _).
    unfold cv_eq. rewrite Sx, Sy, (cov_read _ _ _ _ Cx), (cov_read _ _ _ _ Cy). cbn [bind].
    destruct (zlen xs =? zlen ys) eqn:E; eexists; (split; [reflexivity|]); [apply same_spec|].
    split; [discriminate|]. intros F. apply forall2_len in F. unfold zlen in E. lia.
  Qed.
  Lemma iv_equal mem x y xs ys : iv_covers mem x xs -> iv_covers mem y ys ->
    exists b, iv_eq eqb mem x y = Ok b /\ (b = true <-> Forall2 (fun x y => eqb x y = true) xs ys).
  Proof.
    intros (Cx & Sx) (Cy & Sy).
    unfold iv_eq. rewrite Sx, Sy, (cov_read _ _ _ _ Cx), (cov_read _ _ _ _ Cy). cbn [bind].
    destruct (zlen xs =? zlen ys) eqn:E; eexists; (split; [reflexivity|]); [apply same_spec|].
    split; [discriminate|]. intros F. apply forall2_len in F. unfold zlen in E. lia.
  Qed.
End Other.

(** ** Writing *)
Section Writing.
  Context {A : Type}.
  Implicit Types mem xs : list A.

  Lemma app_prefix (l1 l2 r1 r2 : list A) : l1 ++ r1 = l2 ++ r2 -> length l1 = length l2 -> l1 = l2.
  Proof.
    revert l2. induction l1 as [|x l1 IH]; intros [|y l2] E L; try discriminate L; [reflexivity|].
    injection E as -> E. f_equal. apply IH; [exact E | cbn in L; lia].
  Qed.
  Lemma store_all_at (ys : list A) : forall pre old rest, length old = length ys ->
    store_all (pre ++ old ++ rest) (zlen pre) ys = Ok (pre ++ ys ++ rest).
  Proof.
    induction ys as [|y ys IH]; intros pre old rest L; cbn [store_all].
    - destruct old; [reflexivity | discriminate L].
    - destruct old as [|x old]; [discriminate L|]. unfold set_pos. pose proof (zlen_nonneg pre). replace (_ <? 0) with false by lia.
      replace (Z.to_nat (zlen pre)) with (length pre) by (unfold zlen; lia). unfold wr. rewrite !app_length. cbn [length].
      replace (_ <? _)%nat with true by lia. cbn [bind].
      replace (length pre) with (length pre + 0)%nat by lia. rewrite upd_skip. cbn [app upd].
      replace (zlen pre + 1) with (zlen (pre ++ [y])) by (rewrite zlen_app; reflexivity).
      replace (pre ++ y :: old ++ rest) with ((pre ++ [y]) ++ old ++ rest) by (rewrite <- app_assoc; reflexivity).
      rewrite IH by (cbn in L; lia). rewrite <- app_assoc. reflexivity.
  Qed.
  Lemma store_all_ok (ys : list A) mem f l xs : covers mem f l xs -> zlen ys <= zlen xs ->
    exists mem', store_all mem f ys = Ok mem' /\ covers mem' f l (ys ++ skip_n (zlen ys) xs) /\ same_outside f (f + zlen ys) mem mem'.
  Proof.
    intros (pre & post & E & F & G) L. pose proof (zlen_nonneg ys).
    assert (K : length (front_n (zlen ys) xs) = length ys).
    { pose proof (zlen_front (zlen ys) xs ltac:(lia)) as K. unfold zlen in *. lia. }
    assert (E' : mem = pre ++ front_n (zlen ys) xs ++ (skip_n (zlen ys) xs ++ post)).
    { rewrite E. f_equal. rewrite app_assoc. unfold front_n, skip_n. rewrite firstn_skipn. reflexivity. }
    exists (pre ++ ys ++ (skip_n (zlen ys) xs ++ post)). split; [|split].
    - rewrite E', F. apply store_all_at. exact K.
    - exists pre, post. rewrite <- app_assoc. split; [reflexivity|]. split; [exact F|].
      rewrite zlen_app, zlen_skip by lia. lia.
    - rewrite E'. split; [rewrite !app_length; lia|]. intros i [B | B].
      + rewrite !nth_error_app1 by (unfold zlen in *; lia). reflexivity.
      + rewrite !(nth_error_app2 pre) by (unfold zlen in *; lia).
        rewrite (nth_error_app2 ys), (nth_error_app2 (front_n (zlen ys) xs)) by (unfold zlen in *; lia). f_equal. lia.
  Qed.
  Lemma same_outside_trans a b c d (m1 m2 m3 : list A) : a <= c -> d <= b -> a <= b ->
    same_outside a c m1 m2 -> c <= b -> same_outside c b m2 m3 -> same_outside a b m1 m3.
  Proof.
    intros L1 L2 L3 (E1 & P1) L4 (E2 & P2). split; [congruence|]. intros i B. rewrite P2 by lia. apply P1. lia.
  Qed.

  (** One write. *)
  Lemma write_span_ok mem out xs (ys : list A) : sp_covers mem out xs -> zlen ys <= zlen xs ->
    exists mem' out', write_to_span mem out ys = Ok (mem', out') /\
      sp_first out' = sp_first out + zlen ys /\ sp_covers mem' out' (skip_n (zlen ys) xs) /\
      covers mem' (sp_first out) (sp_first out + zlen xs) (ys ++ skip_n (zlen ys) xs) /\
      same_outside (sp_first out) (sp_first out + zlen ys) mem mem'.
  Proof.
    intros C L. pose proof (sp_cov _ _ _ C) as Sz. pose proof (zlen_nonneg ys). unfold write_to_span. replace (_ <=? _) with true by lia.
    destruct (store_all_ok ys _ _ _ _ C L) as (mem' & W & C' & S'). rewrite W. cbn [bind].
    do 2 eexists. split; [reflexivity|]. cbn [sp_first]. split; [reflexivity|]. rewrite Sz in *.
    split; [|split; [exact C' | exact S']].
    unfold sp_covers. cbn [sp_first sp_size]. replace (sp_first out + zlen ys + _) with (sp_first out + zlen xs) by lia.
    pose proof (cov_skip _ _ _ _ (zlen ys) C') as K. rewrite zlen_app in K.
    pose proof (zlen_nonneg (skip_n (zlen ys) xs)). specialize (K ltac:(lia)).
    assert (Q : skip_n (zlen ys) (ys ++ skip_n (zlen ys) xs) = skip_n (zlen ys) xs).
    { unfold skip_n at 1. replace (Z.to_nat (zlen ys)) with (length ys) by (unfold zlen; lia).
      rewrite skipn_app, Nat.sub_diag, skipn_all. reflexivity. }
    rewrite Q in K. exact K.
  Qed.
  Lemma write_span_long mem out xs (ys : list A) : sp_covers mem out xs -> zlen xs < zlen ys ->
    write_to_span mem out ys = Throw /\ sw_write mem out ys = Throw.
  Proof.
    intros C L. pose proof (sp_cov _ _ _ C) as Sz. unfold write_to_span, sw_write. replace (_ <=? _) with false by lia. split; reflexivity.
  Qed.
  Lemma sw_write_same mem w xs (ys : list A) : fits_memory mem -> sp_covers mem w xs -> sw_write mem w ys = write_to_span mem w ys.
  Proof.
    intros M C. pose proof (sp_cov _ _ _ C) as Sz. pose proof (cov_small _ _ _ _ C M). pose proof (zlen_nonneg ys).
    pose proof (cov_bounds _ _ _ _ C) as (B1 & B2 & B3).
    unfold sw_write, write_to_span. destruct (zlen ys <=? sp_size w) eqn:L; [|reflexivity].
    destruct (store_all_ok ys _ _ _ _ C ltac:(lia)) as (mem' & W & C' & (S' & _)). rewrite W. cbn [bind].
    unfold sw_remove_prefix_unsafe. rewrite i64_id, move_in by (unfold zlen in *; lia). cbn [bind]. rewrite sz_id by lia. reflexivity.
  Qed.

  (** Several writes: as if the chunks were written as one. *)
  Lemma span_writes_ok chunks : forall mem w xs, sp_covers mem w xs ->
    let ys := concat chunks in
    (zlen ys <= zlen xs ->
     exists mem' w', span_writes mem w chunks = Ok (mem', w') /\
      sp_first w' = sp_first w + zlen ys /\ sp_covers mem' w' (skip_n (zlen ys) xs) /\
      covers mem' (sp_first w) (sp_first w + zlen xs) (ys ++ skip_n (zlen ys) xs) /\
      same_outside (sp_first w) (sp_first w + zlen ys) mem mem') /\
    (zlen xs < zlen ys -> span_writes mem w chunks = Throw).
  Proof.
    induction chunks as [|c chunks IH]; intros mem w xs C; cbn [concat span_writes]; cbv zeta.
    - split.
      + intros _. exists mem, w. split; [reflexivity|]. change (zlen []) with 0. split; [lia|]. split; [exact C|].
        split; [|apply same_outside_refl]. pose proof (proj1 (proj2 (cov_bounds _ _ _ _ C))) as Q. unfold sp_covers in C. rewrite Q in C. exact C.
      + intros L. change (zlen []) with 0 in L. pose proof (zlen_nonneg xs). lia.
    - rewrite zlen_app. pose proof (zlen_nonneg c). pose proof (zlen_nonneg (concat chunks)).
      destruct (Z_le_gt_dec (zlen c) (zlen xs)) as [Lc | Lc].
      + destruct (write_span_ok mem w xs c C Lc) as (m1 & w1 & W1 & F1 & C1 & D1 & S1 & P1). rewrite W1. cbn [bind].
        destruct (IH m1 w1 _ C1) as (G & B). rewrite zlen_skip in G, B by lia. split.
        * intros L. destruct (G ltac:(lia)) as (m2 & w2 & W2 & F2 & C2 & D2 & S2 & P2).
          exists m2, w2. split; [exact W2|]. split; [lia|]. rewrite skip_skip in C2, D2 by lia.
          split; [exact C2|]. split.
          -- rewrite F1 in D2. rewrite <- app_assoc.
             (* m2 holds c before and D2 after *)
             destruct D1 as (pre & post & E1 & Fp & _).
             assert (X : covers m2 (sp_first w) (sp_first w + zlen c) c).
             { exists pre, (skipn (length pre + length c) m2). split; [|split; [exact Fp|lia]].
               assert (Q : firstn (length pre + length c) m2 = pre ++ c).
               { assert (Q1 : firstn (length pre + length c) m1 = pre ++ c).
                 { rewrite E1, firstn_app_2. f_equal. rewrite <- app_assoc, firstn_app, Nat.sub_diag, firstn_all. cbn. apply app_nil_r. }
                 rewrite <- Q1. apply list_ext. intros i.
                 destruct (Nat.lt_ge_cases i (length pre + length c)) as [Li | Li].
                 - rewrite !nth_firstn by exact Li. apply P2. left. unfold zlen in *. lia.
                 - rewrite !(proj2 (nth_error_None _ _)); [reflexivity | |]; rewrite firstn_length; lia. }
               rewrite app_assoc, <- Q, firstn_skipn. reflexivity. }
             destruct X as (p1 & q1 & X1 & X2 & X3). destruct D2 as (p2 & q2 & Y1 & Y2 & Y3).
             exists p1, q2. split; [|split; [exact X2|]].
             ++ assert (Qp : p2 = p1 ++ c).
                { assert (Lp : length p2 = length (p1 ++ c)) by (rewrite app_length; unfold zlen in *; lia).
                  rewrite Y1 in X1. rewrite (app_assoc p1) in X1.
                  exact (app_prefix _ _ _ _ X1 Lp). }
                rewrite Y1, Qp, <- !app_assoc. reflexivity.
             ++ rewrite !zlen_app, zlen_skip by lia. lia.
          -- split; [congruence|]. intros i Hi. rewrite P2 by lia. apply P1. lia.
        * intros L. apply B. lia.
      + destruct (write_span_long mem w xs c C ltac:(lia)) as (W & _). rewrite W. split; [intros L; lia|]. intros _. reflexivity.
  Qed.
  Lemma sw_writes_same chunks : forall mem w xs, fits_memory mem -> sp_covers mem w xs -> sw_writes mem w chunks = span_writes mem w chunks.
  Proof.
    induction chunks as [|c chunks IH]; intros mem w xs M C; cbn [sw_writes span_writes]; [reflexivity|].
    rewrite (sw_write_same _ _ _ _ M C). destruct (Z_le_gt_dec (zlen c) (zlen xs)) as [Lc | Lc].
    - destruct (write_span_ok mem w xs c C Lc) as (m1 & w1 & W1 & F1 & C1 & D1 & S1 & P1). rewrite W1. cbn [bind].
      assert (M1 : fits_memory m1) by (unfold fits_memory, zlen in *; lia). exact (IH _ _ _ M1 C1).
    - destruct (write_span_long mem w xs c C ltac:(lia)) as (W & _). rewrite W. reflexivity.
  Qed.
  Lemma sw_writes_ok mem w xs chunks : fits_memory mem -> sp_covers mem w xs ->
    let ys := concat chunks in
    (zlen ys <= zlen xs ->
     exists mem' w', sw_writes mem w chunks = Ok (mem', w') /\
      sp_first w' = sp_first w + zlen ys /\ sp_covers mem' w' (skip_n (zlen ys) xs) /\
      covers mem' (sp_first w) (sp_first w + zlen xs) (ys ++ skip_n (zlen ys) xs) /\
      same_outside (sp_first w) (sp_first w + zlen ys) mem mem') /\
    (zlen xs < zlen ys -> sw_writes mem w chunks = Throw).
  Proof. intros M C. rewrite (sw_writes_same chunks _ _ _ M C). apply span_writes_ok. exact C. Qed.
  Lemma write_ntz_ok (nul : A -> bool) mem w (s : list A) z : 
    (nul z = true -> write_to_span_ntz nul mem w (s ++ [z]) = write_to_span mem w s /\ sw_write_ntz nul mem w (s ++ [z]) = sw_write mem w s) /\
    (nul z = false -> write_to_span_ntz nul mem w (s ++ [z]) = Throw /\ sw_write_ntz nul mem w (s ++ [z]) = Throw).
  Proof.
    assert (R : at_pos (s ++ [z]) (zlen (s ++ [z]) - 1) = Ok z).
    { unfold at_pos. rewrite zlen_app. change (zlen [z]) with 1. pose proof (zlen_nonneg s). replace (_ <? 0) with false by lia.
      unfold rd. rewrite nth_error_app2 by (unfold zlen; lia).
      replace (Z.to_nat (zlen s + 1 - 1) - length s)%nat with 0%nat by (unfold zlen; lia). reflexivity. }
    assert (F : firstn (length (s ++ [z]) - 1) (s ++ [z]) = s).
    { rewrite app_length. cbn [length]. replace (length s + 1 - 1)%nat with (length s) by lia.
      rewrite firstn_app, Nat.sub_diag, firstn_all. cbn. apply app_nil_r. }
    unfold write_to_span_ntz, sw_write_ntz. rewrite R, F. cbn [bind]. split; intros ->; split; reflexivity.
  Qed.
  Lemma sw_rest_ok mem w xs n : fits_memory mem -> sp_covers mem w xs -> 0 <= n ->
    (n <= zlen xs -> exists w', sw_remove_prefix mem w n = Ok w' /\ sp_covers mem w' (skip_n n xs)) /\
    (zlen xs < n -> sw_remove_prefix mem w n = Throw) /\
    (forall x, nth_error xs (Z.to_nat n) = Some x -> sw_get mem w n = Ok x) /\
    (zlen xs <= n -> sw_get mem w n = Throw).
  Proof.
    intros M C L. pose proof (sp_cov _ _ _ C) as Sz. pose proof (cov_small _ _ _ _ C M).
    pose proof (cov_bounds _ _ _ _ C) as (B1 & B2 & B3). unfold sw_remove_prefix, sw_remove_prefix_unsafe, sw_get. rewrite Sz.
    split; [|split; [|split]].
    - intros N. replace (_ <=? _) with true by lia. rewrite i64_id, move_in, sz_id by lia. cbn [bind].
      eexists. split; [reflexivity|]. unfold sp_covers. cbn [sp_first sp_size].
      replace (sp_first w + n + (zlen xs - n)) with (sp_first w + sp_size w) by lia. apply (cov_skip _ _ _ _ _ C). lia.
    - intros N. replace (_ <=? _) with false by lia. reflexivity.
    - intros x E. pose proof (nth_error_some_lt _ _ _ E). replace (_ <? _) with true by (unfold zlen; lia).
      rewrite move_in by (unfold zlen in *; lia). cbn [bind]. rewrite (cov_get _ _ _ _ _ C) by (unfold zlen; lia).
      unfold rd. rewrite E. reflexivity.
    - intros N. replace (_ <? _) with false by lia. reflexivity.
  Qed.
  Lemma sw_make_ok (mem : list A) first size count : 
    (count <= size -> sw_make mem first size count = Ok (Span first count)) /\ (size < count -> sw_make mem first size count = Throw).
  Proof. unfold sw_make. split; intros L; [replace (_ <=? _) with true by lia | replace (_ <=? _) with false by lia]; reflexivity. Qed.
End Writing.

From Verif Require Import SpecAlg AlgCompareProofs.

(** ** operator< *)
Lemma views_less {A} (ltb : A -> A -> bool) mem xs ys :
  (forall x y, ltb x y = true -> ltb y x = false) ->
  (forall x y, cv_covers mem x xs -> cv_covers mem y ys -> exists b, cv_lt ltb mem x y = Ok b /\ (b = true <-> precedes ltb xs ys)) /\
  (forall x y, iv_covers mem x xs -> iv_covers mem y ys -> exists b, iv_lt ltb mem x y = Ok b /\ (b = true <-> precedes ltb xs ys)).
Proof.
  intros W. split.
  - intros x y Cx Cy. unfold cv_lt. rewrite (cov_read _ _ _ _ Cx), (cov_read _ _ _ _ Cy). cbn [bind].
    eexists. split; [reflexivity|]. apply lex_spec. exact W.
  - intros x y (Cx & _) (Cy & _). unfold iv_lt. rewrite (cov_read _ _ _ _ Cx), (cov_read _ _ _ _ Cy). cbn [bind].
    eexists. split; [reflexivity|]. apply lex_spec. exact W.
Qed.

(** ** keep_n *)
Section Keep.
  Context {A : Type} (ascending : bool) (func : A -> A -> bool) (W : strict_weak func).
  Implicit Types vals : list A.
  Local Open Scope nat_scope.
  Notation bt := (better ascending func).

  Lemma asym x y : func x y = true -> func y x = false.
  Proof.
    intros E. destruct (func y x) eqn:F; [|reflexivity].
    pose proof (swo_trans _ W _ _ _ E F) as G. rewrite (swo_irrefl _ W) in G. discriminate G.
  Qed.
  Lemma negtrans x y z : func x y = false -> func y z = false -> func x z = false.
  Proof.
    intros E F. destruct (func x z) eqn:G; [|reflexivity]. exfalso.
    destruct (func y x) eqn:H; [rewrite (swo_trans _ W _ _ _ H G) in F; discriminate F|].
    destruct (func z y) eqn:I'; [rewrite (swo_trans _ W _ _ _ G I') in E; discriminate E|].
    destruct (swo_incomp _ W x y z E H F I') as (K & _). congruence.
  Qed.
  Lemma bt_irrefl x : bt x x = false.
  Proof. unfold better. destruct ascending; apply (swo_irrefl _ W). Qed.
  Lemma bt_negtrans x y z : bt x y = false -> bt y z = false -> bt x z = false.
  Proof. unfold better. destruct ascending; intros E F; [exact (negtrans _ _ _ E F) | exact (negtrans _ _ _ F E)]. Qed.
  Lemma pred_true v x : keep_pred ascending func v x = true -> bt x v = false.
  Proof.
    unfold keep_pred, better. destruct ascending; intros E; [exact (asym _ _ E)|]. apply negb_true_iff in E. exact E.
  Qed.
  Lemma pred_false v x : keep_pred ascending func v x = false -> bt v x = false.
  Proof.
    unfold keep_pred, better. destruct ascending; intros E; [exact E|]. apply negb_false_iff in E. exact (asym _ _ E).
  Qed.

  (** Moving the tail up by one place drops the last element. *)
  Lemma shift_ok (l : list A) : forall (pre : list A) a z, keep_shift (length l + 1) (pre ++ [a] ++ l ++ [z]) (length pre + length l + 1) = Ok (pre ++ [a] ++ [a] ++ l).
  Proof.
    induction l as [|x l IH] using rev_ind; intros pre a z.
    - cbn [length app Nat.add keep_shift]. replace (length pre + 0 + 1 - 1) with (length pre) by lia.
      unfold rd. rewrite nth_error_app2, Nat.sub_diag by lia. cbn [nth_error bind].
      unfold wr. rewrite app_length. cbn [length]. replace (_ <? _) with true by lia. cbn [bind].
      replace (length pre + 0 + 1) with (length pre + 1) by lia. rewrite upd_skip. reflexivity.
    - rewrite app_length. cbn [length]. replace (length l + 1 + 1) with (S (length l + 1)) by lia. cbn [keep_shift].
      replace (length pre + (length l + 1) + 1 - 1) with (length pre + length l + 1) by lia.
      unfold rd. rewrite nth_error_app2 by lia. replace (length pre + length l + 1 - length pre) with (S (length l)) by lia.
      cbn [nth_error app]. rewrite <- app_assoc. rewrite nth_error_app2, Nat.sub_diag by lia. cbn [nth_error app bind].
      unfold wr. rewrite !app_length. cbn [length]. rewrite app_length. cbn [length].
      replace (_ <? _) with true by lia. cbn [bind].
      replace (length pre + (length l + 1) + 1) with (length pre + S (S (length l))) by lia. rewrite upd_skip. cbn [upd].
      replace (S (length l)) with (length l + 1) by lia. rewrite upd_skip. cbn [upd].
      specialize (IH pre a x).
      replace (pre ++ a :: l ++ [x; x]) with ((pre ++ [a] ++ l ++ [x]) ++ [x]) by (rewrite <- app_assoc; cbn [app]; rewrite <- app_assoc; reflexivity).
      assert (F : forall k (l1 : list A) m (l2 r : list A), keep_shift k l1 m = Ok r -> keep_shift k (l1 ++ l2) m = Ok (r ++ l2)).
      { clear. induction k as [|k IH]; intros l1 m l2 r E; cbn [keep_shift] in *; [injection E as ->; reflexivity|].
        unfold rd in *. destruct (nth_error l1 (m - 1)) as [y|] eqn:N; [|discriminate E]. cbn [bind] in E.
        rewrite nth_error_app1 by (apply nth_error_some_lt in N; exact N). rewrite N. cbn [bind].
        unfold wr in *. destruct (m <? length l1) eqn:L; [|discriminate E]. cbn [bind] in E.
        rewrite app_length. replace (m <? length l1 + length l2) with true by lia. cbn [bind].
        rewrite upd_app_l by lia. apply IH. exact E. }
      rewrite (F _ _ _ [x] _ IH). f_equal. rewrite <- app_assoc. reflexivity.
  Qed.
  Lemma keep_from_ok v : forall post pre : list A,
    (forall x, In x pre -> keep_pred ascending func v x = false) ->
    (exists l1 x l2, post = l1 ++ x :: l2 /\ (forall y, In y l1 -> keep_pred ascending func v y = false) /\
       keep_pred ascending func v x = true /\
       keep_from ascending func (length post) (pre ++ post) (length pre) v = Ok (pre ++ l1 ++ v :: removelast (x :: l2))) \/
    ((forall y, In y post -> keep_pred ascending func v y = false) /\
     keep_from ascending func (length post) (pre ++ post) (length pre) v = Ok (pre ++ post)).
  Proof.
    induction post as [|x post IH]; intros pre F; cbn [length keep_from].
    - right. split; [intros y []|]. rewrite app_nil_r. reflexivity.
    - unfold rd. rewrite nth_error_app2, Nat.sub_diag by lia. cbn [nth_error bind].
      destruct (keep_pred ascending func v x) eqn:E.
      + left. exists [], x, post. split; [reflexivity|]. split; [intros y []|]. split; [exact E|].
        rewrite app_length. cbn [length app].
        destruct post as [|b post] using rev_ind.
        * cbn [length removelast]. replace (length pre + 1 - 1 - length pre) with 0 by lia. cbn [keep_shift bind].
          unfold wr. rewrite app_length. cbn [length]. replace (_ <? _) with true by lia.
          replace (length pre) with (length pre + 0) by lia. rewrite upd_skip. reflexivity.
        * clear IHpost. rewrite app_length. cbn [length].
          replace (length pre + S (length post + 1) - 1 - length pre) with (length post + 1) by lia.
          replace (length pre + S (length post + 1) - 1) with (length pre + length post + 1) by lia.
          change (pre ++ x :: post ++ [b]) with (pre ++ [x] ++ post ++ [b]). rewrite shift_ok. cbn [bind].
          unfold wr. rewrite !app_length. cbn [length]. replace (_ <? _) with true by lia.
          replace (length pre) with (length pre + 0) by lia. rewrite upd_skip. cbn [app upd].
          change (x :: post ++ [b]) with ((x :: post) ++ [b]). rewrite removelast_last. reflexivity.
      + destruct (IH (pre ++ [x])) as [(l1 & y & l2 & E1 & E2 & E3 & E4) | (E1 & E2)].
        * intros y Hy. apply in_app_or in Hy. destruct Hy as [Hy | [<- | []]]; [exact (F _ Hy) | exact E].
        * left. exists (x :: l1), y, l2. split; [rewrite E1; reflexivity|]. split.
          -- intros z [<- | Hz]; [exact E | exact (E2 _ Hz)].
          -- split; [exact E3|]. rewrite app_length in E4. cbn [length] in E4. rewrite <- !app_assoc in E4. cbn [app] in E4.
             replace (S (length pre)) with (length pre + 1) by lia. exact E4.
        * right. split; [intros z [<- | Hz]; [exact E | exact (E1 _ Hz)]|].
          rewrite app_length in E2. cbn [length] in E2. rewrite <- !app_assoc in E2. cbn [app] in E2.
          replace (S (length pre)) with (length pre + 1) by lia. exact E2.
  Qed.
  Definition keeps (vals dropped all : list A) : Prop :=
    Permutation (vals ++ dropped) all /\ sorted_by bt vals /\ (forall d k, In d dropped -> In k vals -> bt d k = false).
  Lemma sorted_app (l1 l2 : list A) : sorted_by bt (l1 ++ l2) <->
    sorted_by bt l1 /\ sorted_by bt l2 /\ forall x y, In x l1 -> In y l2 -> bt y x = false.
  Proof.
    unfold sorted_by. induction l1 as [|a l1 IH]; cbn [app].
    - split; [intros S'; split; [constructor|]; split; [exact S' | intros x y []] | intros (_ & S' & _); exact S'].
    - split.
      + intros S'. apply StronglySorted_inv in S'. destruct S' as (S1 & S2). rewrite Forall_forall in S2.
        apply IH in S1. destruct S1 as (S3 & S4 & S5). split; [|split; [exact S4|]].
        * constructor; [exact S3|]. apply Forall_forall. intros x Hx. apply S2. apply in_or_app. left. exact Hx.
        * intros x y [<- | Hx] Hy; [apply S2; apply in_or_app; right; exact Hy | exact (S5 _ _ Hx Hy)].
      + intros (S1 & S2 & S3). apply StronglySorted_inv in S1. destruct S1 as (S4 & S5). rewrite Forall_forall in S5.
        constructor; [apply IH; split; [exact S4|]; split; [exact S2|]; intros x y Hx Hy; apply S3; [right; exact Hx | exact Hy]|].
        apply Forall_forall. intros x Hx. apply in_app_or in Hx.
        destruct Hx as [Hx | Hx]; [exact (S5 _ Hx) | apply S3; [left; reflexivity | exact Hx]].
  Qed.
  Lemma sorted_cons a (l : list A) : sorted_by bt (a :: l) <-> sorted_by bt l /\ forall y, In y l -> bt y a = false.
  Proof.
    unfold sorted_by. split.
    - intros S'. apply StronglySorted_inv in S'. destruct S' as (S1 & S2). rewrite Forall_forall in S2. split; assumption.
    - intros (S1 & S2). constructor; [exact S1 | apply Forall_forall; exact S2].
  Qed.
  Lemma keep_insert_ok vals dropped all v : keeps vals dropped all ->
    exists vals' dropped', keep_insert ascending func vals v = Ok vals' /\ length vals' = length vals /\ keeps vals' dropped' (v :: all).
  Proof.
    intros (P & S' & D). unfold keep_insert.
    destruct (keep_from_ok v vals [] ltac:(intros x [])) as [(l1 & x & l2 & E1 & E2 & E3 & E4) | (E1 & E2)]; cbn [app length] in *.
    - (* the dropped one *)
      destruct (exists_last (l := x :: l2) ltac:(discriminate)) as (r & z & R). rewrite R, removelast_last in E4.
      exists (l1 ++ v :: r), (z :: dropped). split; [exact E4|].
      assert (Ev : vals = l1 ++ r ++ [z]) by (rewrite E1, R; reflexivity).
      split; [rewrite Ev, !app_length; cbn; lia|].
      rewrite E1 in S'. apply sorted_app in S'. destruct S' as (S1 & S2 & S3).
      apply sorted_cons in S2 as S2'. destruct S2' as (S4 & S5).
      assert (Bx : bt x v = false) by (apply pred_true; exact E3).
      assert (Btail : forall y, In y (x :: l2) -> bt y v = false).
      { intros y [<- | Hy]; [exact Bx|]. exact (bt_negtrans _ _ _ (S5 _ Hy) Bx). }
      assert (Bhead : forall y, In y l1 -> bt v y = false) by (intros y Hy; apply pred_false; exact (E2 _ Hy)).
      assert (S2r := S2). rewrite R in S2r. apply sorted_app in S2r. destruct S2r as (S6 & _ & S7).
      assert (Inr : forall y, In y r -> In y (x :: l2)) by (intros y Hy; rewrite R; apply in_or_app; left; exact Hy).
      assert (Inz : In z (x :: l2)) by (rewrite R; apply in_or_app; right; left; reflexivity).
      split; [|split].
      + etransitivity; [|apply perm_skip; exact P]. rewrite Ev. rewrite <- !app_assoc. cbn [app].
        etransitivity; [symmetry; apply Permutation_middle|]. reflexivity.
      + apply sorted_app. split; [exact S1|]. split.
        * apply sorted_cons. split; [exact S6|]. intros y Hy. apply Btail. apply Inr. exact Hy.
        * intros y w Hy [<- | Hw]; [exact (Bhead _ Hy)|]. exact (S3 _ _ Hy (Inr _ Hw)).
      + intros d k [<- | Hd] Hk; apply in_app_or in Hk.
        * destruct Hk as [Hk | [<- | Hk]]; [exact (S3 _ _ Hk Inz) | exact (Btail _ Inz) | apply (S7 _ _ Hk); left; reflexivity].
        * destruct Hk as [Hk | [<- | Hk]].
          -- apply D; [exact Hd|]. rewrite Ev. apply in_or_app. left. exact Hk.
          -- apply (bt_negtrans d x v); [|exact Bx]. apply D; [exact Hd|]. rewrite E1. apply in_or_app. right. left. reflexivity.
          -- apply D; [exact Hd|]. rewrite Ev. apply in_or_app. right. apply in_or_app. left. exact Hk.
    - exists vals, (v :: dropped). split; [exact E2|]. split; [reflexivity|]. split; [|split; [exact S'|]].
      + etransitivity; [symmetry; apply Permutation_middle|]. apply perm_skip. exact P.
      + intros d k [<- | Hd] Hk; [apply pred_false; exact (E1 _ Hk) | exact (D _ _ Hd Hk)].
  Qed.
  Lemma keep_all_ok vs : forall vals dropped all, keeps vals dropped all ->
    exists vals' dropped', keep_all ascending func vals vs = Ok vals' /\ length vals' = length vals /\ keeps vals' dropped' (all ++ vs).
  Proof.
    induction vs as [|v vs IH]; intros vals dropped all K; cbn [keep_all].
    - exists vals, dropped. split; [reflexivity|]. split; [reflexivity|]. rewrite app_nil_r. exact K.
    - destruct (keep_insert_ok _ _ _ v K) as (vals1 & dropped1 & R & L & K1). rewrite R. cbn [bind].
      destruct (IH _ _ _ K1) as (vals2 & dropped2 & R2 & L2 & (P & K2)). exists vals2, dropped2. split; [exact R2|]. split; [lia|].
      split; [|exact K2]. etransitivity; [exact P|]. apply Permutation_middle.
  Qed.
  Lemma keep_n_ok max dflt vs :
    exists kept dropped, keep_all ascending func (keep_make max dflt) vs = Ok kept /\ length kept = max /\
      Permutation (kept ++ dropped) (repeat dflt max ++ vs) /\ sorted_by bt kept /\
      (forall d k, In d dropped -> In k kept -> bt d k = false).
  Proof.
    assert (K : keeps (keep_make max dflt) [] (repeat dflt max)).
    { unfold keep_make. split; [rewrite app_nil_r; reflexivity|]. split; [|intros d k []].
      induction max as [|m IH]; [constructor|]. cbn [repeat]. apply sorted_cons. split; [exact IH|].
      intros y Hy. apply repeat_spec in Hy. subst y. apply bt_irrefl. }
    destruct (keep_all_ok vs _ _ _ K) as (kept & dropped & R & L & P & S' & D). exists kept, dropped.
    split; [exact R|]. split; [rewrite L; apply repeat_length|]. split; [exact P|]. split; [exact S' | exact D].
  Qed.
End Keep.
