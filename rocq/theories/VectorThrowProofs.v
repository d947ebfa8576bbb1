(** Proofs about vectors when allocations and constructors throw. *)
From Coq Require Import Lia.
From Verif Require Import Common CommonProofs Ints Vector SpecVector VectorThrow SpecVectorThrow.
Open Scope Z_scope.

Section Proofs.
Context {A : Type}.
Variable fails : nat -> bool.
Variable nothrow : bool.
Variable ms : Z.
Local Notation world := (world A).
Local Open Scope nat_scope.

(** [w'] is [w] with other contents of buffer [b]. *)
Definition but (w w' : world) (b : nat) (m : option (mem A)) : Prop :=
  forall i, buffer w' i = if i =? b then m else buffer w i.

Lemma buffer_lt : forall (w : world) b m, buffer w b = Some m -> b < length (heap w).
Proof.
  intros w b m E. unfold buffer in E. destruct (nth_error (heap w) b) eqn:N; [|discriminate].
  eapply nth_error_some_lt; eassumption.
Qed.

Lemma set_but : forall (w : world) b m x, buffer w b = Some m -> but w (set_buffer w b x) b x.
Proof.
  intros w b m x E i. pose proof (buffer_lt _ _ _ E) as L. unfold buffer, set_buffer. cbn [heap].
  destruct (Nat.eqb_spec i b) as [-> | N].
  - rewrite nth_error_upd_eq by assumption. destruct x; reflexivity.
  - rewrite nth_error_upd_ne by congruence. reflexivity.
Qed.

Lemma but_eq : forall w w' b m, but w w' b m -> buffer w' b = m.
Proof. intros w w' b m H. rewrite H, Nat.eqb_refl. reflexivity. Qed.
Lemma but_ne : forall w w' b m i, but w w' b m -> i <> b -> buffer w' i = buffer w i.
Proof. intros w w' b m i H N. rewrite H. destruct (Nat.eqb_spec i b); [contradiction | reflexivity]. Qed.
Lemma but_trans : forall w w1 w2 b m1 m2, but w w1 b m1 -> but w1 w2 b m2 -> but w w2 b m2.
Proof.
  intros w w1 w2 b m1 m2 H1 H2 i. rewrite H2. destruct (Nat.eqb_spec i b); [reflexivity|].
  rewrite H1. destruct (Nat.eqb_spec i b); [contradiction | reflexivity].
Qed.
Lemma but_refl : forall w b m, buffer w b = m -> but w w b m.
Proof. intros w b m E i. destruct (Nat.eqb_spec i b) as [-> | _]; [exact E | reflexivity]. Qed.

Lemma upd_mid : forall (X : Type) (pre : list X) x y post i, i = length pre ->
  upd (pre ++ x :: post) i y = pre ++ y :: post.
Proof. intros X pre x y post i ->. induction pre as [|p pre IH]; cbn; [reflexivity | f_equal; assumption]. Qed.
Lemma nth_mid : forall (X : Type) (pre : list X) x post i, i = length pre -> nth_error (pre ++ x :: post) i = Some x.
Proof. intros X pre x post i ->. rewrite nth_error_app2 by lia. rewrite Nat.sub_diag. reflexivity. Qed.

(** ** Events *)
Lemma allocate_cases : forall (w : world) n,
  (fails (tick w) = false /\ exists w' b, allocate fails w n = Fin w' b /\ buffer w b = None /\
     but w w' b (Some (repeat Raw n)) /\ tick w' = S (tick w)) \/
  (fails (tick w) = true /\ exists w', allocate fails w n = Exc w' 0 /\ same_memory w w' /\ tick w' = S (tick w)).
Proof.
  intros w n. unfold allocate. destruct (fails (tick w)) eqn:F; [right | left]; (split; [reflexivity|]).
  - eexists. split; [reflexivity|]. split; [intros i; reflexivity | reflexivity].
  - eexists _, _. split; [reflexivity|]. split; [|split; [|reflexivity]].
    + unfold buffer. rewrite (proj2 (nth_error_None _ _)) by lia. reflexivity.
    + intros i. unfold buffer. cbn [heap]. destruct (Nat.eqb_spec i (length (heap w))) as [-> | N].
      * rewrite nth_mid by reflexivity. reflexivity.
      * destruct (Nat.lt_ge_cases i (length (heap w))).
        -- rewrite nth_error_app1 by assumption. reflexivity.
        -- rewrite (proj2 (nth_error_None _ _)) by (rewrite app_length; cbn; lia).
           rewrite (proj2 (nth_error_None _ _)) by lia. reflexivity.
Qed.

Lemma place_ok : forall (w : world) b i a pre post, buffer w b = Some (pre ++ Raw :: post) -> i = length pre ->
  exists w', place w b i a = Some w' /\ but w w' b (Some (pre ++ Obj a :: post)) /\ tick w' = tick w.
Proof.
  intros w b i a pre post E L. unfold place. rewrite E, nth_mid by assumption.
  eexists. split; [reflexivity|]. rewrite upd_mid by assumption. split; [|reflexivity].
  eapply set_but; eassumption.
Qed.

Lemma construct_cases : forall (w : world) b i a pre post, buffer w b = Some (pre ++ Raw :: post) -> i = length pre ->
  (fails (tick w) = false /\ exists w', construct fails w b i a = Fin w' tt /\
     but w w' b (Some (pre ++ Obj a :: post)) /\ tick w' = S (tick w)) \/
  (fails (tick w) = true /\ exists w', construct fails w b i a = Exc w' tt /\ same_memory w w' /\ tick w' = S (tick w)).
Proof.
  intros w b i a pre post E L. unfold construct. destruct (fails (tick w)) eqn:F; [right | left]; (split; [reflexivity|]).
  - eexists. split; [reflexivity|]. split; [intros j; reflexivity | reflexivity].
  - destruct (place_ok (next w) b i a pre post E L) as (w' & -> & B & T). exists w'. split; [reflexivity|].
    split; [exact B | exact T].
Qed.

Lemma assign_cases : forall (w : world) b i a x pre post, buffer w b = Some (pre ++ Obj x :: post) -> i = length pre ->
  (fails (tick w) = false /\ exists w', assign_to fails w b i a = Fin w' tt /\
     but w w' b (Some (pre ++ Obj a :: post)) /\ tick w' = S (tick w)) \/
  (fails (tick w) = true /\ exists w', assign_to fails w b i a = Exc w' tt /\ same_memory w w' /\ tick w' = S (tick w)).
Proof.
  intros w b i a x pre post E L. unfold assign_to. destruct (fails (tick w)) eqn:F; [right | left]; (split; [reflexivity|]).
  - eexists. split; [reflexivity|]. split; [intros j; reflexivity | reflexivity].
  - rewrite E, nth_mid by assumption. eexists. split; [reflexivity|]. rewrite upd_mid by assumption.
    split; [|reflexivity]. exact (set_but (next w) b _ _ E).
Qed.

Lemma destroy_ok : forall (w : world) b i s pre post, buffer w b = Some (pre ++ s :: post) -> i = length pre ->
  is_raw s = false ->
  exists w', destroy w b i = Some w' /\ but w w' b (Some (pre ++ Raw :: post)) /\ tick w' = tick w.
Proof.
  intros w b i s pre post E L R. unfold destroy. rewrite E, nth_mid, upd_mid by assumption.
  destruct s; [discriminate | |]; (eexists; split; [reflexivity|]; split; [eapply set_but; eassumption | reflexivity]).
Qed.

Lemma deallocate_ok : forall (w : world) b k, buffer w b = Some (repeat Raw k) ->
  exists w', deallocate w b = Some w' /\ but w w' b None /\ tick w' = tick w.
Proof.
  intros w b k E. unfold deallocate. rewrite E.
  assert (F : forallb is_raw (repeat (@Raw A) k) = true) by (clear E; induction k; [reflexivity | assumption]). rewrite F.
  eexists. split; [reflexivity|]. split; [eapply set_but; eassumption | reflexivity].
Qed.

Lemma repeat_snoc : forall (X : Type) (x : X) n, repeat x (S n) = repeat x n ++ [x].
Proof. intros X x n. induction n as [|n IH]; [reflexivity|]. cbn [repeat app] in *. now rewrite <- IH. Qed.

Lemma destroy_below_ok : forall (objs : list (slot A)) (w : world) b pre post,
  buffer w b = Some (pre ++ objs ++ post) -> Forall (fun s => is_raw s = false) objs ->
  exists w', destroy_below w b (length pre + length objs) (length objs) = Some w' /\
    but w w' b (Some (pre ++ repeat Raw (length objs) ++ post)) /\ tick w' = tick w.
Proof.
  induction objs as [|s objs IH] using rev_ind; intros w b pre post E F.
  - exists w. cbn [length repeat app] in *. split; [reflexivity|]. split; [now apply but_refl | reflexivity].
  - rewrite app_length. cbn [length]. replace (length objs + 1) with (S (length objs)) by lia.
    rewrite Nat.add_succ_r. cbn [destroy_below].
    apply Forall_app in F. destruct F as [F1 F2]. inversion F2; subst.
    rewrite <- app_assoc in E. cbn [app] in E. rewrite app_assoc in E.
    destruct (destroy_ok w b (length pre + length objs) s (pre ++ objs) post E) as (w1 & -> & B1 & T1);
      [now rewrite app_length | assumption |].
    destruct (IH w1 b pre (Raw :: post)) as (w2 & -> & B2 & T2); [|assumption|].
    + rewrite (but_eq _ _ _ _ B1), <- app_assoc. reflexivity.
    + exists w2. split; [reflexivity|]. split; [|congruence].
      rewrite repeat_snoc, <- app_assoc. eapply but_trans; eassumption.
Qed.

Lemma quiet_S : forall t n, fails t = false -> quiet fails (S t) n -> quiet fails t (S n).
Proof.
  intros t n F Q i L. destruct i as [|i]; [now rewrite Nat.add_0_r|].
  replace (t + S i) with (S t + i) by lia. apply Q. lia.
Qed.

Lemma construct_list_cases : forall l (w : world) b pos pre k,
  buffer w b = Some (pre ++ repeat Raw (length l + k)) -> pos = length pre ->
  (quiet fails (tick w) (length l) /\ exists w', construct_list fails w b pos l = Fin w' (pos + length l) /\
     but w w' b (Some (pre ++ map Obj l ++ repeat Raw k)) /\ tick w' = tick w + length l) \/
  (exists j w', j < length l /\ quiet fails (tick w) j /\ fails (tick w + j) = true /\
     construct_list fails w b pos l = Exc w' (pos + j) /\
     but w w' b (Some (pre ++ map Obj (firstn j l) ++ repeat Raw (length l - j + k))) /\ tick w' = tick w + S j).
Proof.
  induction l as [|a l IH]; intros w b pos pre k E L.
  - left. split; [intros i Hi; cbn in Hi; lia|]. exists w. cbn [construct_list length map app].
    rewrite !Nat.add_0_r. split; [reflexivity|]. split; [now apply but_refl | reflexivity].
  - cbn [length Nat.add repeat] in E. cbn [construct_list].
    destruct (construct_cases w b pos a pre _ E L) as [(F & w1 & -> & B1 & T1) | (F & w1 & -> & M & T1)].
    + destruct (IH w1 b (S pos) (pre ++ [Obj a]) k) as [(Q & w2 & -> & B2 & T2) | (j & w2 & Hj & Q & F2 & -> & B2 & T2)].
      * rewrite (but_eq _ _ _ _ B1), <- app_assoc. reflexivity.
      * rewrite app_length. cbn. lia.
      * left. split; [cbn [length]; apply quiet_S; [assumption | now rewrite <- T1]|].
        exists w2. split; [f_equal; cbn [length]; lia|]. split; [|cbn [length]; lia].
        rewrite <- app_assoc in B2. eapply but_trans; eassumption.
      * right. exists (S j), w2. cbn [length]. split; [lia|].
        split; [apply quiet_S; [assumption | now rewrite <- T1]|].
        split; [rewrite <- F2; f_equal; lia|]. split; [f_equal; lia|]. split; [|lia].
        cbn [firstn map Nat.sub]. rewrite <- app_assoc in B2. eapply but_trans; eassumption.
    + right. exists 0, w1. cbn [length firstn map app Nat.sub]. split; [lia|]. split; [intros i Hi; lia|].
      rewrite !Nat.add_0_r. split; [assumption|]. split; [reflexivity|]. split; [|lia].
      intros i. rewrite M. destruct (Nat.eqb_spec i b) as [-> | _]; [exact E | reflexivity].
Qed.

Lemma repeat_app2 : forall (X : Type) (x : X) n m, repeat x (n + m) = repeat x n ++ repeat x m.
Proof. intros. apply repeat_app. Qed.

(** ** Relocation *)
Lemma relocate_cases : forall ys (w : world) ob nb rest post, ob <> nb ->
  buffer w ob = Some (map Obj ys ++ rest) -> buffer w nb = Some (repeat Raw (length ys) ++ post) ->
  (exists w' gone, relocate fails nothrow w ob (length ys) nb (length ys) = Fin w' 0 /\
     length gone = length ys /\ Forall (fun s => is_raw s = false) gone /\
     buffer w' ob = Some (gone ++ rest) /\ buffer w' nb = Some (map Obj ys ++ post) /\
     (forall i, i <> ob -> i <> nb -> buffer w' i = buffer w i) /\ tick w <= tick w') \/
  (exists w' zs tl, nothrow = false /\ ys = zs ++ tl /\
     relocate fails nothrow w ob (length ys) nb (length ys) = Exc w' (length zs) /\
     buffer w' ob = Some (map Obj ys ++ rest) /\
     buffer w' nb = Some (repeat Raw (length zs) ++ map Obj tl ++ post) /\
     (forall i, i <> ob -> i <> nb -> buffer w' i = buffer w i) /\ threw fails w w').
Proof.
  induction ys as [|y ys IH] using rev_ind; intros w ob nb rest post N Eo En.
  - left. exists w, []. cbn [length relocate map app repeat] in *. repeat split; auto; constructor.
  - rewrite app_length in *. cbn [length] in *. replace (length ys + 1) with (S (length ys)) in * by lia.
    cbn [relocate]. rewrite map_app, <- app_assoc in Eo. cbn [map app] in Eo.
    rewrite repeat_snoc, <- app_assoc in En. cbn [app] in En.
    unfold fetch. rewrite Eo, nth_mid by (now rewrite map_length).
    destruct nothrow eqn:NT.
    + destruct (place_ok w nb (length ys) y (repeat Raw (length ys)) post En) as (w1 & -> & B1 & T1);
        [now rewrite repeat_length|].
      rewrite (but_ne _ _ _ _ ob B1 N), Eo, upd_mid by (now rewrite map_length).
      assert (Eo1 : buffer w1 ob = Some (map Obj ys ++ Obj y :: rest)) by (now rewrite (but_ne _ _ _ _ ob B1 N)).
      set (w2 := set_buffer w1 ob (Some (map Obj ys ++ Moved :: rest))).
      assert (B2 : but w1 w2 ob (Some (map Obj ys ++ Moved :: rest))) by (eapply set_but; exact Eo1).
      destruct (IH w2 ob nb (Moved :: rest) (Obj y :: post) N) as
        [(w' & gone & -> & Lg & Fg & Go & Gn & Gi & Gt) | (w' & zs & tl & D & _)]; [| | |congruence].
      * exact (but_eq _ _ _ _ B2).
      * rewrite (but_ne _ _ _ _ nb B2) by congruence. exact (but_eq _ _ _ _ B1).
      * left. exists w', (gone ++ [Moved]). split; [reflexivity|].
        split; [rewrite app_length; cbn; lia|].
        split; [apply Forall_app; split; [assumption | repeat constructor]|].
        split; [rewrite <- app_assoc; exact Go|]. split; [rewrite map_app, <- app_assoc; exact Gn|].
        split; [|change (tick w2) with (tick w1) in Gt; lia].
        intros i H1 H2. rewrite Gi by assumption. rewrite (but_ne _ _ _ _ i B2) by assumption.
        now apply (but_ne _ _ _ _ i B1).
    + destruct (construct_cases w nb (length ys) y (repeat Raw (length ys)) post En) as
        [(F & w1 & -> & B1 & T1) | (F & w1 & -> & M & T1)]; [now rewrite repeat_length| |].
      * destruct (IH w1 ob nb (Obj y :: rest) (Obj y :: post) N) as
          [(w' & gone & -> & Lg & Fg & Go & Gn & Gi & Gt) | (w' & zs & tl & _ & Eq & -> & Go & Gn & Gi & Th)].
        -- now rewrite (but_ne _ _ _ _ ob B1 N).
        -- exact (but_eq _ _ _ _ B1).
        -- left. exists w', (gone ++ [Obj y]). split; [reflexivity|].
           split; [rewrite app_length; cbn; lia|].
           split; [apply Forall_app; split; [assumption | repeat constructor]|].
           split; [rewrite <- app_assoc; exact Go|]. split; [rewrite map_app, <- app_assoc; exact Gn|].
           split; [|lia]. intros i H1 H2. rewrite Gi by assumption. now apply (but_ne _ _ _ _ i B1).
        -- right. exists w', zs, (tl ++ [y]). split; [reflexivity|].
           split; [rewrite Eq, app_assoc; reflexivity|]. split; [reflexivity|].
           split; [rewrite map_app, <- app_assoc; exact Go|].
           split; [rewrite map_app, <- app_assoc; exact Gn|].
           split; [intros i H1 H2; rewrite Gi by assumption; now apply (but_ne _ _ _ _ i B1)|].
           destruct Th as (k & Hk & Fk). exists k. split; [lia | assumption].
      * right. exists w1, (ys ++ [y]), []. split; [reflexivity|]. split; [now rewrite app_nil_r|].
        split; [f_equal; rewrite app_length; cbn; lia|].
        split; [rewrite M, Eo, map_app, <- app_assoc; reflexivity|].
        split; [rewrite M, En, app_length; cbn [length map app]; replace (length ys + 1) with (S (length ys)) by lia;
                rewrite repeat_snoc, <- app_assoc; reflexivity|].
        split; [intros i _ _; apply M|]. exists (tick w). split; [lia | assumption].
Qed.

(** ** The destructor of the split buffer *)
Lemma split_destroy_ok : forall (w : world) b n1 objs n2, 
  buffer w b = Some (repeat Raw n1 ++ objs ++ repeat Raw n2) -> Forall (fun s => is_raw s = false) objs ->
  exists w', split_destroy w (TSplit (Some b) n1 (n1 + length objs)) = Some w' /\ but w w' b None /\ tick w' = tick w.
Proof.
  intros w b n1 objs n2 E F. unfold split_destroy. cbn [tbuf tend tbegin].
  replace (n1 + length objs - n1) with (length objs) by lia.
  destruct (destroy_below_ok objs w b (repeat Raw n1) (repeat Raw n2) E F) as (w1 & E1 & B1 & T1).
  rewrite repeat_length in E1. rewrite E1.
  destruct (deallocate_ok w1 b (n1 + (length objs + n2))) as (w2 & -> & B2 & T2).
  - rewrite (but_eq _ _ _ _ B1), !repeat_app2. reflexivity.
  - exists w2. split; [reflexivity|]. split; [eapply but_trans; eassumption | congruence].
Qed.

Lemma objs_not_raw : forall l : list A, Forall (fun s => is_raw s = false) (map Obj l).
Proof. induction l; constructor; [reflexivity | assumption]. Qed.

(** ** Members *)
Lemma owns_cap : forall base (w : world) v xs, owns ms base w v xs ->
  length xs <= vcap w v /\ ((Z.of_nat (vcap w v) <= ms)%Z \/ (vbuf v = None /\ vcap w v = 0)).
Proof.
  intros base w v xs (L & H). unfold vcap. destruct (vbuf v) as [b|].
  - destruct H as (_ & _ & k & -> & M). rewrite app_length, map_length, repeat_length. split; [lia|]. left. exact M.
  - destruct H as (-> & _). split; [cbn; lia|]. right. auto.
Qed.

Lemma owns_same : forall base (w w' : world) v xs, same_memory w w' -> owns ms base w v xs -> owns ms base w' v xs.
Proof.
  intros base w w' v xs M (L & H). split; [assumption|]. destruct (vbuf v) as [b|].
  - destruct H as (H1 & H2 & k & E & B). split; [assumption|]. split; [intros i Hi; rewrite M; now apply H2|].
    exists k. split; [now rewrite M | assumption].
  - destruct H as (-> & H). split; [reflexivity|]. intros i. rewrite M. apply H.
Qed.

Lemma at_end_cases : forall base (w : world) v xs l, owns ms base w v xs -> length xs + length l <= vcap w v ->
  (quiet fails (tick w) (length l) /\ exists w' v', at_end fails w v l = Fin w' v' /\ owns ms base w' v' (xs ++ l) /\
     vbuf v' = vbuf v /\ vcap w' v' = vcap w v /\ tick w' = tick w + length l) \/
  (exists j w' v', j < length l /\ quiet fails (tick w) j /\ fails (tick w + j) = true /\
     at_end fails w v l = Exc w' v' /\ owns ms base w' v' (xs ++ firstn j l) /\ (j = 0 -> v' = v /\ same_memory w w') /\
     vbuf v' = vbuf v /\ vcap w' v' = vcap w v /\ tick w' = tick w + S j).
Proof.
  intros base w v xs l (L & H) C. unfold at_end, vcap in *. destruct v as [vb n]. cbn [vbuf vlen] in *. subst n.
  destruct vb as [b|].
  - destruct H as (H1 & H2 & k & E & M). rewrite E in *. rewrite app_length, map_length, repeat_length in C.
    replace k with (length l + (k - length l)) in E by lia.
    destruct (construct_list_cases l w b (length xs) (map Obj xs) (k - length l) E) as
      [(Q & w' & -> & B & T) | (j & w' & Hj & Q & F & -> & B & T)]; [now rewrite map_length | left | right].
    + split; [assumption|]. eexists _, _. split; [reflexivity|]. unfold owns. cbn [vbuf vlen].
      rewrite (but_eq _ _ _ _ B). split; [|split; [reflexivity|]].
      * split; [now rewrite app_length|]. split; [assumption|].
        split; [intros i Hi; rewrite (but_ne _ _ _ _ i B Hi); now apply H2|].
        exists (k - length l). rewrite map_app, <- app_assoc. split; [reflexivity|]. rewrite app_length. lia.
      * split; [|assumption]. rewrite !app_length, !map_length, !repeat_length. lia.
    + exists j. eexists _, _. split; [assumption|]. split; [assumption|]. split; [assumption|].
      split; [reflexivity|]. unfold owns. cbn [vbuf vlen]. rewrite (but_eq _ _ _ _ B).
      split; [|split].
      * split; [rewrite app_length, firstn_length; lia|]. split; [assumption|].
        split; [intros i Hi; rewrite (but_ne _ _ _ _ i B Hi); now apply H2|].
        exists (length l - j + (k - length l)). rewrite map_app, <- app_assoc. split; [reflexivity|].
        rewrite app_length, firstn_length. lia.
      * intros ->. rewrite Nat.add_0_r. split; [reflexivity|]. intros i. rewrite B.
        destruct (Nat.eqb_spec i b) as [-> | _]; [|reflexivity]. rewrite E. cbn [firstn map app]. now rewrite Nat.sub_0_r.
      * split; [reflexivity|]. split; [|assumption]. rewrite !app_length, !map_length, !repeat_length, firstn_length. lia.
  - destruct H as (-> & H). destruct l; [|cbn in C; lia]. left. split; [intros i Hi; cbn in Hi; lia|].
    exists w, (TVec None 0). split; [reflexivity|]. split; [split; [reflexivity|]; cbn; auto|].
    cbn. repeat split; lia.
Qed.

Lemma rebuild_cases : forall base (w : world) v xs cap l, owns ms base w v xs ->
  (Z.of_nat (length xs + length l) <= cap <= ms)%Z ->
  (exists w' v', rebuild fails nothrow w v cap l = Fin w' v' /\ owns ms base w' v' (xs ++ l) /\
     Z.of_nat (vcap w' v') = cap) \/
  (exists w', rebuild fails nothrow w v cap l = Exc w' v /\ same_memory w w' /\ threw fails w w').
Proof.
  intros base w v xs cap l OW C. unfold rebuild, split_make.
  destruct (Z.eqb_spec cap 0) as [-> | NZ].
  - assert (xs = []) by (destruct xs; [reflexivity | cbn in C; lia]).
    assert (l = []) by (destruct l; [reflexivity | rewrite Nat2Z.inj_add in C; cbn [length] in C; lia]). subst.
    destruct v as [vb n]. destruct OW as (L & H). cbn [vbuf vlen length] in *. subst n.
    cbn [split_construct tbuf]. unfold swap_out. cbn [vbuf tbuf vlen tbegin tend Nat.eqb Nat.sub]. destruct vb as [b|].
    + destruct H as (H1 & H2 & k & E & M). cbn [map app] in E.
      destruct (split_destroy_ok w b 0 [] k E) as (w' & E' & B & T); [constructor|].
      cbn [length Nat.add] in E'. rewrite E'. left. exists w', (TVec None 0). split; [reflexivity|].
      split; [|reflexivity]. split; [reflexivity|]. cbn. split; [reflexivity|].
      intros i. rewrite B. destruct (Nat.eqb_spec i b) as [-> | Hi]; [now symmetry | now apply H2].
    + left. cbn [andb]. exists w, (TVec None 0). split; [reflexivity|]. split; [|reflexivity]. split; [reflexivity | exact H].
  - destruct (allocate_cases w (Z.to_nat cap)) as [(F & w1 & nb & -> & NB & B1 & T1) | (F & w1 & -> & M & T1)].
    2:{ right. exists w1. split; [reflexivity|]. split; [assumption|]. exists (tick w). split; [lia | assumption]. }
    destruct v as [vb n]. pose proof OW as (L & H). cbn [vbuf vlen] in *. subst n.
    unfold split_construct. cbn [tbuf tend tbegin].
    set (k := Z.to_nat cap - length xs - length l).
    assert (E1 : buffer w1 nb = Some (repeat Raw (length xs) ++ repeat Raw (length l + k))).
    { rewrite (but_eq _ _ _ _ B1), <- repeat_app2. do 2 f_equal. unfold k. lia. }
    destruct (construct_list_cases l w1 nb (length xs) (repeat Raw (length xs)) k E1) as
      [(Q & w2 & -> & B2 & T2) | (j & w2 & Hj & Q & F2 & -> & B2 & T2)]; [now rewrite repeat_length| |].
    2:{ (* a new element throws *)
      unfold unwind.
      destruct (split_destroy_ok w2 nb (length xs) (map Obj (firstn j l)) (length l - j + k)) as (w3 & E3 & B3 & T3);
        [exact (but_eq _ _ _ _ B2) | apply objs_not_raw|].
      rewrite map_length, firstn_length in E3. replace (Nat.min j (length l)) with j in E3 by lia. rewrite E3.
      right. exists w3. split; [reflexivity|]. split.
      - intros i. rewrite B3. destruct (Nat.eqb_spec i nb) as [-> | Hi]; [now symmetry|].
        rewrite (but_ne _ _ _ _ i B2 Hi). now apply (but_ne _ _ _ _ i B1).
      - exists (tick w1 + j). split; [lia | assumption]. }
    pose proof (but_eq _ _ _ _ B2) as E2.
    unfold swap_out. cbn [vbuf tbuf vlen tbegin tend]. destruct vb as [ob|].
    + destruct H as (H1 & H2 & kk & E & M).
      assert (NE : ob <> nb) by congruence.
      assert (Eo : buffer w2 ob = Some (map Obj xs ++ repeat Raw kk)).
      { rewrite (but_ne _ _ _ _ ob B2 NE), (but_ne _ _ _ _ ob B1 NE). exact E. }
      destruct (relocate_cases xs w2 ob nb (repeat Raw kk) (map Obj l ++ repeat Raw k) NE Eo E2) as
        [(w3 & gone & -> & Lg & Fg & Go & Gn & Gi & Gt) | (w3 & zs & tl & _ & Eq & -> & Go & Gn & Gi & Th)].
      * destruct (split_destroy_ok w3 ob 0 gone kk Go Fg) as (w4 & E4 & B4 & T4).
        rewrite Lg in E4. cbn [Nat.add] in E4. rewrite E4. left. eexists _, _. split; [reflexivity|].
        unfold owns, vcap. cbn [vbuf vlen]. rewrite (but_ne _ _ _ _ nb B4) by congruence. rewrite Gn.
        split; [|rewrite !app_length, !map_length, repeat_length; unfold k; lia].
        split; [now rewrite app_length|]. split; [rewrite <- NB; symmetry; apply H2; congruence|].
        split.
        -- intros i Hi. rewrite B4. destruct (Nat.eqb_spec i ob) as [-> | Ho]; [now symmetry|].
           rewrite Gi by assumption. rewrite (but_ne _ _ _ _ i B2 Hi), (but_ne _ _ _ _ i B1 Hi). now apply H2.
        -- exists k. rewrite map_app, <- app_assoc. split; [reflexivity|]. rewrite app_length. unfold k. lia.
      * unfold unwind.
        destruct (split_destroy_ok w3 nb (length zs) (map Obj (tl ++ l)) k) as (w4 & E4 & B4 & T4);
          [rewrite Gn, map_app, <- app_assoc; reflexivity | apply objs_not_raw|].
        rewrite map_length, app_length in E4.
        replace (length zs + (length tl + length l)) with (length xs + length l) in E4 by (rewrite Eq, app_length; lia).
        rewrite E4. right. exists w4. split; [reflexivity|]. split.
        -- intros i. rewrite B4. destruct (Nat.eqb_spec i nb) as [-> | Hi]; [now symmetry|].
           destruct (Nat.eq_dec i ob) as [-> | Ho]; [congruence|].
           rewrite Gi by assumption. rewrite (but_ne _ _ _ _ i B2 Hi). now apply (but_ne _ _ _ _ i B1).
        -- destruct Th as (q & Hq & Fq). exists q. split; [lia | assumption].
    + destruct H as (-> & H). cbn [length Nat.eqb andb]. left. eexists _, _. split; [reflexivity|].
      unfold owns, vcap. cbn [vbuf vlen]. cbn [length repeat app] in *. rewrite E2.
      split; [|rewrite !app_length, !map_length, repeat_length; unfold k; lia].
      split; [reflexivity|]. split; [now rewrite <- H|].
      split; [intros i Hi; rewrite (but_ne _ _ _ _ i B2 Hi), (but_ne _ _ _ _ i B1 Hi); apply H|].
      exists k. split; [reflexivity|]. unfold k. lia.
Qed.

Section Sized.
Variable MS : max_size_ok ms.

Lemma recommend_cases : forall cap n, (Z.of_nat cap <= ms)%Z -> (0 <= n)%Z ->
  ((n <= ms)%Z /\ exists c, recommend ms cap n = Ok c /\ (n <= c <= ms)%Z) \/ ((ms < n)%Z /\ recommend ms cap n = Throw).
Proof.
  intros cap n C N. unfold recommend. destruct MS as [M1 M2].
  pose proof (Z.div_mod ms 2 ltac:(lia)) as D. pose proof (Z.mod_pos_bound ms 2 ltac:(lia)) as B.
  destruct (Z.ltb_spec ms n) as [L | L]; [right; auto|]. left. split; [assumption|].
  unfold sz. destruct (Z.leb_spec (ms / 2) (Z.of_nat cap)); [eexists; split; [reflexivity | lia]|].
  rewrite Z.mod_small by lia. eexists. split; [reflexivity | lia].
Qed.

Lemma cap_ms : forall base (w : world) v xs, owns ms base w v xs -> (Z.of_nat (vcap w v) <= ms)%Z.
Proof. intros base w v xs H. destruct (owns_cap _ _ _ _ H) as (_ & [L | (_ & ->)]); [assumption|]. destruct MS. cbn. lia. Qed.

Lemma vlen_owns : forall base (w : world) v xs, owns ms base w v xs -> vlen v = length xs.
Proof. intros base w v xs (L & _). exact L. Qed.

Lemma push_cases : forall base (w : world) v xs a, owns ms base w v xs ->
  (exists w' v', push_back fails nothrow ms w v a = Fin w' v' /\ owns ms base w' v' (xs ++ [a])) \/
  (exists w', push_back fails nothrow ms w v a = Exc w' v /\ same_memory w w' /\
     (threw fails w w' \/ Z.of_nat (length xs) = ms)).
Proof.
  intros base w v xs a H. pose proof (vlen_owns _ _ _ _ H) as L. destruct (owns_cap _ _ _ _ H) as (C & _).
  pose proof (cap_ms _ _ _ _ H) as CM. unfold push_back. rewrite L. destruct (Nat.eqb_spec (length xs) (vcap w v)) as [E | N]; cbn [negb].
  - destruct MS as [M1 M2]. unfold sz. rewrite Z.mod_small by lia.
    destruct (recommend_cases (vcap w v) (Z.of_nat (length xs) + 1) CM ltac:(lia)) as [(L1 & c & -> & Bc) | (L1 & ->)].
    + destruct (rebuild_cases base w v xs c [a] H) as [(w' & v' & -> & O' & _) | (w' & -> & M & T)]; [cbn [length]; lia| |].
      * left. eauto.
      * right. eauto 10.
    + right. exists w. split; [reflexivity|]. split; [intros i; reflexivity|]. right. lia.
  - destruct (at_end_cases base w v xs [a] H) as
      [(_ & w' & v' & -> & O' & _) | (j & w' & v' & Hj & Q & F & -> & O' & Z0 & _ & _ & T)]; [cbn [length]; lia| |].
    + left. eauto.
    + cbn [length] in Hj. assert (j = 0) by lia. subst j. destruct (Z0 eq_refl) as (-> & M).
      right. exists w'. split; [reflexivity|]. split; [assumption|]. left. exists (tick w). rewrite Nat.add_0_r in F. split; [lia | assumption].
Qed.

Lemma append_cases : forall base (w : world) v xs n a, owns ms base w v xs -> (0 <= n <= ms)%Z ->
  (exists w' v', append fails nothrow ms w v n a = Fin w' v' /\ owns ms base w' v' (xs ++ repeat a (Z.to_nat n))) \/
  (exists w', (Z.of_nat (vcap w v) < Z.of_nat (length xs) + n)%Z /\
     append fails nothrow ms w v n a = Exc w' v /\ same_memory w w' /\
     (threw fails w w' \/ (ms < Z.of_nat (length xs) + n)%Z)) \/
  (exists j w' v', (Z.of_nat (length xs) + n <= Z.of_nat (vcap w v))%Z /\ j < Z.to_nat n /\
     quiet fails (tick w) j /\ fails (tick w + j) = true /\ threw fails w w' /\
     append fails nothrow ms w v n a = Exc w' v' /\ owns ms base w' v' (xs ++ repeat a j)).
Proof.
  intros base w v xs n a H N. pose proof (vlen_owns _ _ _ _ H) as L. destruct (owns_cap _ _ _ _ H) as (C & _).
  pose proof (cap_ms _ _ _ _ H) as CM. unfold append. rewrite L. destruct (Z.leb_spec n (Z.of_nat (vcap w v) - Z.of_nat (length xs))) as [E | E].
  - destruct (at_end_cases base w v xs (repeat a (Z.to_nat n)) H) as
      [(_ & w' & v' & -> & O' & _) | (j & w' & v' & Hj & Q & F & -> & O' & Z0 & _ & _ & T)]; [rewrite repeat_length; lia| |].
    + left. eauto.
    + right. right. rewrite repeat_length in Hj. exists j, w', v'. split; [lia|]. split; [assumption|]. split; [assumption|].
      split; [assumption|]. split; [exists (tick w + j); split; [lia | assumption]|]. split; [reflexivity|].
      replace (firstn j (repeat a (Z.to_nat n))) with (repeat a j) in O'; [assumption|].
      replace (Z.to_nat n) with (j + (Z.to_nat n - j)) by lia. rewrite repeat_app2, firstn_app, repeat_length.
      rewrite firstn_all2 by (rewrite repeat_length; lia). rewrite Nat.sub_diag. cbn. now rewrite app_nil_r.
  - destruct MS as [M1 M2]. unfold sz. rewrite Z.mod_small by lia.
    destruct (recommend_cases (vcap w v) (Z.of_nat (length xs) + n) CM ltac:(lia)) as [(L1 & c & -> & Bc) | (L1 & ->)].
    + destruct (rebuild_cases base w v xs c (repeat a (Z.to_nat n)) H) as [(w' & v' & -> & O' & _) | (w' & -> & M & T)];
        [rewrite repeat_length; lia| |].
      * left. eauto.
      * right. left. exists w'. split; [lia|]. auto.
    + right. left. exists w. split; [lia|]. split; [reflexivity|]. split; [intros i; reflexivity|]. right. assumption.
Qed.

Lemma reserve_cases : forall base (w : world) v xs n, owns ms base w v xs ->
  (exists w' v', reserve fails nothrow ms w v n = Fin w' v' /\ owns ms base w' v' xs /\
     Z.of_nat (vcap w' v') = Z.max n (Z.of_nat (vcap w v))) \/
  (exists w', reserve fails nothrow ms w v n = Exc w' v /\ same_memory w w' /\ (threw fails w w' \/ (ms < n)%Z)).
Proof.
  intros base w v xs n H. destruct (owns_cap _ _ _ _ H) as (C & _). unfold reserve.
  destruct (Z.ltb_spec (Z.of_nat (vcap w v)) n) as [E | E].
  - destruct (Z.ltb_spec ms n) as [G | G].
    + right. exists w. split; [reflexivity|]. split; [intros i; reflexivity|]. now right.
    + destruct (rebuild_cases base w v xs n [] H) as [(w' & v' & -> & O' & Cw) | (w' & -> & M & T)]; [cbn [length]; lia| |].
      * left. exists w', v'. rewrite app_nil_r in O'. split; [reflexivity|]. split; [assumption | lia].
      * right. eauto 10.
  - left. exists w, v. split; [reflexivity|]. split; [assumption | lia].
Qed.

Lemma shrink_cases : forall base (w : world) v xs, owns ms base w v xs ->
  exists w' v', shrink_to_fit fails nothrow w v = Fin w' v' /\ owns ms base w' v' xs /\
    (vcap w' v' = length xs \/ (v' = v /\ same_memory w w' /\ threw fails w w')).
Proof.
  intros base w v xs H. pose proof (vlen_owns _ _ _ _ H) as L. destruct (owns_cap _ _ _ _ H) as (C & _).
  pose proof (cap_ms _ _ _ _ H) as CM. unfold shrink_to_fit. rewrite L.
  destruct (Nat.ltb_spec (length xs) (vcap w v)) as [E | E].
  - destruct (rebuild_cases base w v xs (Z.of_nat (length xs)) [] H) as [(w' & v' & -> & O' & Cw) | (w' & -> & M & T)];
      [cbn [length]; lia| |].
    + exists w', v'. rewrite app_nil_r in O'. split; [reflexivity|]. split; [assumption|]. left. lia.
    + exists w', v. split; [reflexivity|]. split; [eapply owns_same; eassumption|]. right. auto.
  - exists w, v. split; [reflexivity|]. split; [assumption|]. left. lia.
Qed.

Lemma cut_ok : forall base (w : world) v xs n, owns ms base w v xs -> n <= length xs ->
  exists w' v', cut_to w v n = Fin w' v' /\ owns ms base w' v' (firstn n xs).
Proof.
  intros base w v xs n (L & H) N. unfold cut_to. destruct v as [vb m]. cbn [vbuf vlen] in *. subst m. destruct vb as [b|].
  - destruct H as (H1 & H2 & k & E & M). destruct (Nat.ltb_spec (length xs) n); [lia|].
    rewrite <- (firstn_skipn n xs), map_app, <- app_assoc in E.
    destruct (destroy_below_ok (map Obj (skipn n xs)) w b (map Obj (firstn n xs)) (repeat Raw k) E (objs_not_raw _)) as (w' & E' & B & T).
    rewrite !map_length, firstn_length, skipn_length in E'.
    replace (Nat.min n (length xs) + (length xs - n)) with (length xs) in E' by lia. rewrite E'.
    eexists _, _. split; [reflexivity|]. split; [cbn [vlen]; rewrite firstn_length; lia|]. cbn [vbuf].
    split; [assumption|]. split; [intros i Hi; rewrite (but_ne _ _ _ _ i B Hi); now apply H2|].
    exists (length xs - n + k). rewrite (but_eq _ _ _ _ B), map_length, skipn_length, <- repeat_app2.
    split; [reflexivity|]. rewrite firstn_length. lia.
  - destruct H as (-> & H). cbn [length] in *. assert (n = 0) by lia. subst n. cbn [Nat.eqb].
    eexists _, _. split; [reflexivity|]. split; [reflexivity|]. cbn. auto.
Qed.

Lemma vdealloc_ok : forall base (w : world) v xs, owns ms base w v xs ->
  exists w', vdeallocate w v = Some w' /\ same_memory base w' /\ tick w' = tick w.
Proof.
  intros base w v xs (L & H). unfold vdeallocate. destruct v as [vb m]. cbn [vbuf vlen] in *. subst m. destruct vb as [b|].
  - destruct H as (H1 & H2 & k & E & M).
    destruct (destroy_below_ok (map Obj xs) w b [] (repeat Raw k) E (objs_not_raw _)) as (w1 & E1 & B1 & T1).
    rewrite map_length in *. cbn [length Nat.add app] in *. rewrite E1.
    destruct (deallocate_ok w1 b (length xs + k)) as (w2 & -> & B2 & T2);
      [rewrite (but_eq _ _ _ _ B1), repeat_app2; reflexivity|].
    exists w2. split; [reflexivity|]. split; [|congruence]. intros i. rewrite B2.
    destruct (Nat.eqb_spec i b) as [-> | Hi]; [now symmetry|]. rewrite (but_ne _ _ _ _ i B1 Hi). now apply H2.
  - exists w. destruct H as (_ & H). auto.
Qed.

Lemma assign_list_cases : forall l zs (w : world) b pos pre post, length zs = length l ->
  buffer w b = Some (pre ++ map Obj zs ++ post) -> pos = length pre ->
  (exists w', assign_list fails w b pos l = Fin w' tt /\ but w w' b (Some (pre ++ map Obj l ++ post)) /\ tick w <= tick w') \/
  (exists j w', j < length l /\ assign_list fails w b pos l = Exc w' tt /\
     but w w' b (Some (pre ++ map Obj (firstn j l ++ skipn j zs) ++ post)) /\ threw fails w w').
Proof.
  induction l as [|a l IH]; intros zs w b pos pre post Lz E L.
  - destruct zs; [|discriminate]. left. exists w. split; [reflexivity|]. split; [now apply but_refl | lia].
  - destruct zs as [|z zs]; [discriminate|]. cbn [length] in Lz. cbn [map app] in E. cbn [assign_list].
    destruct (assign_cases w b pos a z pre _ E L) as [(F & w1 & -> & B1 & T1) | (F & w1 & -> & M & T1)].
    + destruct (IH zs w1 b (S pos) (pre ++ [Obj a]) post) as [(w2 & -> & B2 & T2) | (j & w2 & Hj & -> & B2 & Th)].
      * lia.
      * rewrite (but_eq _ _ _ _ B1), <- app_assoc. reflexivity.
      * rewrite app_length. cbn. lia.
      * left. exists w2. split; [reflexivity|]. split; [|lia]. rewrite <- app_assoc in B2. eapply but_trans; eassumption.
      * right. exists (S j), w2. cbn [length]. split; [lia|]. split; [reflexivity|].
        split; [rewrite <- app_assoc in B2; eapply but_trans; eassumption|].
        destruct Th as (k & Hk & Fk). exists k. split; [lia | assumption].
    + right. exists 0, w1. cbn [length]. split; [lia|]. split; [reflexivity|]. split.
      * intros i. rewrite M. destruct (Nat.eqb_spec i b) as [-> | _]; [exact E | reflexivity].
      * exists (tick w). split; [lia | assumption].
Qed.

Lemma vallocate_cases : forall (w : world) n, (0 <= n)%Z ->
  (fails (tick w) = false /\ exists w' b, vallocate fails ms w n = Fin w' (TVec (Some b) 0) /\ buffer w b = None /\
     but w w' b (Some (repeat Raw (Z.to_nat n))) /\ (n <= ms)%Z /\ tick w' = S (tick w)) \/
  (exists w', vallocate fails ms w n = Exc w' null_vec /\ same_memory w w' /\ (threw fails w w' \/ (ms < n)%Z) /\
     (fails (tick w) = true \/ (ms < n)%Z)).
Proof.
  intros w n N. unfold vallocate. destruct (Z.ltb_spec ms n) as [G | G].
  - right. exists w. split; [reflexivity|]. split; [intros i; reflexivity|]. auto.
  - destruct (allocate_cases w (Z.to_nat n)) as [(F & w1 & nb & -> & NB & B1 & T1) | (F & w1 & -> & M & T1)].
    + left. split; [assumption|]. exists w1, nb. auto 10.
    + right. exists w1. split; [reflexivity|]. split; [assumption|]. split; [|now left].
      left. exists (tick w). split; [lia | assumption].
Qed.

Lemma assign_cases2 : forall base (w : world) v xs l, owns ms base w v xs ->
  (exists w' v', assign fails ms w v l = Fin w' v' /\ owns ms base w' v' l) \/
  (exists w' v' ys, assign fails ms w v l = Exc w' v' /\ left_by xs (TAssign l) ys /\ owns ms base w' v' ys /\
     (threw fails w w' \/ (ms < Z.of_nat (length l))%Z)).
Proof.
  intros base w v xs l H. pose proof (vlen_owns _ _ _ _ H) as L. destruct (owns_cap _ _ _ _ H) as (C & _).
  unfold assign. destruct (Nat.leb_spec (length l) (vcap w v)) as [E | E].
  - destruct (vbuf v) as [b|] eqn:VB.
    + pose proof H as (_ & H'). rewrite VB in H'. destruct H' as (H1 & H2 & k & Eb & M). rewrite L.
      set (m := Nat.min (length l) (length xs)).
      assert (Eb' : buffer w b = Some ([] ++ map Obj (firstn m xs) ++ map Obj (skipn m xs) ++ repeat Raw k)).
      { rewrite Eb. cbn [app]. rewrite app_assoc, <- map_app, firstn_skipn. reflexivity. }
      assert (OWN : forall w' ys, but w w' b (Some (map Obj ys ++ repeat Raw k)) -> length ys = length xs -> owns ms base w' v ys).
      { intros w' ys B Ly. split; [congruence|]. rewrite VB. split; [assumption|].
        split; [intros i Hi; rewrite (but_ne _ _ _ _ i B Hi); now apply H2|].
        exists k. split; [exact (but_eq _ _ _ _ B) | now rewrite Ly]. }
      destruct (assign_list_cases (firstn (length xs) l) (firstn m xs) w b 0 [] (map Obj (skipn m xs) ++ repeat Raw k)) as
        [(w1 & -> & B1 & T1) | (j & w1 & Hj & -> & B1 & Th)].
      * rewrite !firstn_length. unfold m. lia.
      * exact Eb'.
      * reflexivity.
      * cbn [app] in B1. rewrite app_assoc, <- map_app in B1.
        pose proof (OWN w1 _ B1 ltac:(rewrite app_length, firstn_length, skipn_length; unfold m; lia)) as O1.
        destruct (Nat.ltb_spec (length xs) (length l)) as [G | G].
        -- assert (Em : skipn m xs = []) by (apply skipn_all2; unfold m; lia). rewrite Em, app_nil_r in O1, B1.
           destruct (at_end_cases base w1 v _ (skipn (length xs) l) O1) as
             [(_ & w' & v' & -> & O' & _) | (j & w' & v' & Hj & Q & F & -> & O' & Z0 & _ & _ & T)].
           ++ unfold vcap in *. rewrite VB in *. rewrite (but_eq _ _ _ _ B1). rewrite Eb in E.
              rewrite app_length, map_length, repeat_length in *. rewrite firstn_length, skipn_length. lia.
           ++ left. rewrite firstn_skipn in O'. eauto.
           ++ right. exists w', v'. eexists. split; [reflexivity|]. split; [|split; [exact O'|]].
              ** exists (length xs + j). rewrite skipn_length in Hj. split; [lia|]. left.
                 rewrite <- (firstn_skipn (length xs) l) at 3. rewrite firstn_app, firstn_length.
                 rewrite (firstn_all2 (n := length xs + j)) by (rewrite firstn_length; lia).
                 do 2 f_equal. lia.
              ** left. exists (tick w1 + j). split; [lia | assumption].
        -- destruct (cut_ok base w1 v _ (length l) O1) as (w' & v' & -> & O');
             [rewrite app_length, firstn_length, skipn_length; unfold m; lia|].
           left. exists w', v'. split; [reflexivity|]. rewrite (firstn_all2 (n := length xs)) in O' by lia.
           rewrite firstn_app, firstn_all, Nat.sub_diag in O'. cbn [firstn] in O'. now rewrite app_nil_r in O'.
      * cbn [app] in B1. rewrite app_assoc, <- map_app in B1. rewrite firstn_length in Hj.
        rewrite firstn_firstn in B1. replace (Nat.min j (length xs)) with j in B1 by lia.
        assert (Es : skipn j (firstn m xs) ++ skipn m xs = skipn j xs).
        { rewrite <- (firstn_skipn m xs) at 3. rewrite skipn_app, firstn_length.
          replace (j - Nat.min m (length xs)) with 0 by (unfold m; lia). reflexivity. }
        rewrite <- app_assoc, Es in B1.
        right. exists w1, v. eexists. split; [reflexivity|]. split; [|split; [|left; exact Th]].
        2:{ apply OWN; [exact B1|]. rewrite app_length, firstn_length, skipn_length. lia. }
        exists j. split; [lia|]. now right.
    + left. exists w, v. split; [reflexivity|]. unfold vcap in E. rewrite VB in E. destruct l; [|cbn in E; lia].
      destruct H as (L' & H'). rewrite VB in H'. destruct H' as (-> & H'). split; [assumption|]. rewrite VB. auto.
  - destruct (vdealloc_ok base w v xs H) as (w1 & -> & M1 & T1).
    assert (CM : (Z.of_nat 0 <= ms)%Z) by (destruct MS; cbn; lia).
    assert (NL : left_by xs (TAssign l) []). { exists 0. split; [lia|]. now left. }
    destruct (recommend_cases 0 (Z.of_nat (length l)) CM ltac:(lia)) as [(L1 & c & -> & Bc) | (L1 & ->)].
    2:{ right. exists w1, null_vec, []. split; [reflexivity|]. split; [assumption|]. split; [|now right].
        split; [reflexivity|]. cbn. split; [reflexivity | exact M1]. }
    destruct (vallocate_cases w1 c ltac:(lia)) as [(F & w2 & b & -> & NB & B2 & _ & T2) | (w2 & -> & M2 & T2 & _)].
    + assert (O2 : owns ms base w2 (TVec (Some b) 0) []).
      { split; [reflexivity|]. cbn [vbuf]. split; [now rewrite <- M1|].
        split; [intros i Hi; rewrite (but_ne _ _ _ _ i B2 Hi); apply M1|].
        exists (Z.to_nat c). split; [exact (but_eq _ _ _ _ B2) | cbn [length]; lia]. }
      destruct (at_end_cases base w2 (TVec (Some b) 0) [] l O2) as
        [(_ & w' & v' & -> & O' & _) | (j & w' & v' & Hj & Q & F' & -> & O' & Z0 & _ & _ & T)].
      * unfold vcap. cbn [vbuf]. rewrite (but_eq _ _ _ _ B2), repeat_length. cbn [length]. lia.
      * left. eauto.
      * right. exists w', v', (firstn j l). split; [reflexivity|].
        split; [exists j; split; [assumption | now left]|]. split; [assumption|].
        left. exists (tick w2 + j). split; [lia | assumption].
    + right. exists w2, null_vec, []. split; [reflexivity|]. split; [assumption|].
      split; [split; [reflexivity|]; cbn; split; [reflexivity | intros i; rewrite M2; apply M1]|].
      destruct T2 as [(q & Hq & Fq) | G]; [|lia]. left. exists q. split; [lia | assumption].
Qed.

Lemma step_cases : forall base (w : world) v xs o, owns ms base w v xs -> arg_ok ms o ->
  (exists w' v', tstep fails nothrow ms w v o = Fin w' v' /\ owns ms base w' v' (result_of xs o)) \/
  (exists w' v' ys, tstep fails nothrow ms w v o = Exc w' v' /\ left_by xs o ys /\ owns ms base w' v' ys /\
     (threw fails w w' \/ too_long ms xs o)).
Proof.
  intros base w v xs o H AO. pose proof (vlen_owns _ _ _ _ H) as L. destruct (owns_cap _ _ _ _ H) as (C & _).
  pose proof (cap_ms _ _ _ _ H) as CM. unfold too_long. destruct o as [a | n a | n | | n a | l |]; cbn [tstep result_of left_by arg_ok] in *.
  - destruct (push_cases base w v xs a H) as [H1 | (w' & -> & M & T)]; [now left|]. right.
    exists w', v, xs. split; [reflexivity|]. split; [reflexivity|]. split; [eapply owns_same; eassumption|].
    destruct T as [T | T]; [now left|]. right. rewrite app_length. cbn [length]. lia.
  - destruct (append_cases base w v xs n a H AO) as [H1 | [(w' & R & -> & M & T) | (j & w' & v' & R & Hj & Q & F & T & -> & O')]];
      [now left| |]; right.
    + exists w', v, xs. split; [reflexivity|].
      split; [exists 0; split; [lia | cbn; now rewrite app_nil_r]|]. split; [eapply owns_same; eassumption|].
      destruct T as [T | T]; [now left|]. right. rewrite app_length, repeat_length. lia.
    + exists w', v'. eexists. split; [reflexivity|]. split; [exists j; eauto|]. split; [assumption | now left].
  - destruct (reserve_cases base w v xs n H) as [(w' & v' & -> & O' & _) | (w' & -> & M & T)]; [left; eauto|]. right.
    exists w', v, xs. split; [reflexivity|]. split; [reflexivity|]. split; [eapply owns_same; eassumption|].
    destruct T as [T | T]; [now left | lia].
  - destruct (shrink_cases base w v xs H) as (w' & v' & -> & O' & _). left. eauto.
  - unfold resize. rewrite L. destruct (Z.ltb_spec (Z.of_nat (length xs)) n) as [G | G].
    + rewrite firstn_all2 by lia. replace (Z.to_nat n - length xs) with (Z.to_nat (n - Z.of_nat (length xs))) by lia.
      destruct (append_cases base w v xs (n - Z.of_nat (length xs)) a H ltac:(lia)) as
        [H1 | [(w' & R & -> & M & T) | (j & w' & v' & R & Hj & Q & F & T & -> & O')]]; [now left| |]; right.
      * exists w', v, xs. split; [reflexivity|].
        split; [exists 0; split; [lia | cbn; now rewrite app_nil_r]|]. split; [eapply owns_same; eassumption|].
        destruct T as [T | T]; [now left | lia].
      * exists w', v'. eexists. split; [reflexivity|]. split; [exists j; split; [lia | reflexivity]|].
        split; [assumption | now left].
    + replace (Z.to_nat n - length xs) with 0 by lia. cbn [repeat]. rewrite app_nil_r. left.
      destruct (Z.ltb_spec n (Z.of_nat (length xs))).
      * apply (cut_ok base); [assumption | lia].
      * exists w, v. rewrite firstn_all2 by lia. auto.
  - destruct (assign_cases2 base w v xs l H) as [H1 | (w' & v' & ys & -> & Lf & O' & T)]; [now left|]. right.
    exists w', v', ys. auto.
  - left. exact (cut_ok base w v xs 0 H ltac:(lia)).
Qed.

Lemma run_ok : forall os base (w : world) v xs, owns ms base w v xs -> Forall (arg_ok ms) os ->
  exists w' v' ys, trun fails nothrow ms w v os = Some (w', v') /\ owns ms base w' v' ys.
Proof.
  induction os as [|o os IH]; intros base w v xs H F; [exists w, v, xs; auto|].
  inversion F as [|? ? F1 F2]; subst. cbn [trun].
  destruct (step_cases base w v xs o H F1) as [(w' & v' & -> & O') | (w' & v' & ys & -> & _ & O' & _)]; eapply IH; eassumption.
Qed.

Lemma make_cases : forall (w : world) l,
  (exists w' v, make fails ms w l = Fin w' v /\ owns ms w w' v l) \/
  (exists w' v, make fails ms w l = Exc w' v /\ same_memory w w' /\ (fails (tick w) = true \/ (ms < Z.of_nat (length l))%Z)) \/
  (exists j w' v b, j < length l /\ quiet fails (tick w) (S j) /\ fails (tick w + S j) = true /\
     (Z.of_nat (length l) <= ms)%Z /\ make fails ms w l = Exc w' v /\
     buffer w b = None /\ but w w' b (Some (map Obj (firstn j l) ++ repeat Raw (length l - j)))).
Proof.
  intros w l. destruct l as [|a l0] eqn:El.
  - left. exists w, null_vec. split; [reflexivity|]. split; [reflexivity|]. cbn. split; [reflexivity | intros i; reflexivity].
  - rewrite <- El. assert (EM : make fails ms w l = match vallocate fails ms w (Z.of_nat (length l)) with Fin w v => at_end fails w v l | r => r end).
    { rewrite El. reflexivity. }
    rewrite EM. destruct (vallocate_cases w (Z.of_nat (length l)) ltac:(lia)) as [(F & w2 & b & -> & NB & B2 & Lm & T2) | (w2 & -> & M2 & _ & T2)].
    + unfold at_end. cbn [vbuf vlen]. rewrite Nat2Z.id in B2.
      destruct (construct_list_cases l w2 b 0 [] 0) as [(Q & w' & -> & B & T) | (j & w' & Hj & Q & F' & -> & B & T)];
        [rewrite Nat.add_0_r; exact (but_eq _ _ _ _ B2) | reflexivity | left | right; right].
      * eexists _, _. split; [reflexivity|]. split; [reflexivity|]. cbn [vbuf]. split; [assumption|].
        split; [intros i Hi; rewrite (but_ne _ _ _ _ i B Hi); exact (but_ne _ _ _ _ i B2 Hi)|].
        exists 0. split; [exact (but_eq _ _ _ _ B)|]. lia.
      * exists j. eexists _, _, b. split; [assumption|]. split; [apply quiet_S; [assumption | now rewrite <- T2]|].
        split; [rewrite <- F'; f_equal; lia|]. split; [assumption|]. split; [reflexivity|]. split; [assumption|].
        rewrite Nat.add_0_r in B. cbn [app] in B. eapply but_trans; eassumption.
    + right. left. exists w2, null_vec. auto.
Qed.
End Sized.
End Proofs.

(** * The statements of the properties *)

Lemma c347_push_back :
  forall (A : Type) fails nothrow_move ms (base w : world A) v xs a, max_size_ok ms -> owns ms base w v xs ->
  (exists w' v', push_back fails nothrow_move ms w v a = Fin w' v' /\ owns ms base w' v' (xs ++ [a])) \/
  (exists w', push_back fails nothrow_move ms w v a = Exc w' v /\ same_memory w w' /\
     (threw fails w w' \/ Z.of_nat (length xs) = ms)).
Proof.
  intros A fails nm ms base w v xs a M O'. exact (push_cases fails nm ms M base w v xs a O').
Qed.

Lemma c347_reserve :
  forall (A : Type) fails nothrow_move ms (base w : world A) v xs n, max_size_ok ms -> owns ms base w v xs ->
  (exists w' v', reserve fails nothrow_move ms w v n = Fin w' v' /\ owns ms base w' v' xs /\
     Z.of_nat (vcap w' v') = Z.max n (Z.of_nat (vcap w v))) \/
  (exists w', reserve fails nothrow_move ms w v n = Exc w' v /\ same_memory w w' /\ (threw fails w w' \/ ms < n)).
Proof.
  intros A fails nm ms base w v xs n M O'. exact (reserve_cases fails nm ms base w v xs n O').
Qed.

Lemma c347_shrink_to_fit :
  forall (A : Type) fails nothrow_move ms (base w : world A) v xs, max_size_ok ms -> owns ms base w v xs ->
  exists w' v', shrink_to_fit fails nothrow_move w v = Fin w' v' /\ owns ms base w' v' xs /\
    (vcap w' v' = length xs \/ (v' = v /\ same_memory w w' /\ threw fails w w')).
Proof.
  intros A fails nm ms base w v xs M O'. exact (shrink_cases fails nm ms M base w v xs O').
Qed.

Lemma c348_grow_partial :
  forall (A : Type) fails nothrow_move ms (base w : world A) v xs n a, max_size_ok ms -> owns ms base w v xs ->
  0 <= n <= ms -> Z.of_nat (vcap w v) < Z.of_nat (length xs) + n ->
  (exists w' v', append fails nothrow_move ms w v n a = Fin w' v' /\ owns ms base w' v' (xs ++ repeat a (Z.to_nat n))) \/
  (exists w', append fails nothrow_move ms w v n a = Exc w' v /\ same_memory w w' /\
     (threw fails w w' \/ ms < Z.of_nat (length xs) + n)).
Proof.
  intros A fails nm ms base w v xs n a M O' N G.
  destruct (append_cases fails nm ms M base w v xs n a O' N) as [H1 | [(w' & _ & H1 & H2 & H3) | (j & w' & v' & R & _)]];
    [now left | right; eauto | lia].
Qed.

Lemma c348_room_refuted :
  forall (A : Type) fails nothrow_move ms (base w : world A) v xs n a j, max_size_ok ms -> owns ms base w v xs ->
  0 <= n -> Z.of_nat (length xs) + n <= Z.of_nat (vcap w v) ->
  (j < Z.to_nat n)%nat -> quiet fails (tick w) j -> fails (tick w + j)%nat = true ->
  exists w' v', append fails nothrow_move ms w v n a = Exc w' v' /\ owns ms base w' v' (xs ++ repeat a j).
Proof.
  intros A fails nm ms base w v xs n a j M O' N G J Q F.
  pose proof (cap_ms ms M base w v xs O') as CM. pose proof (vlen_owns ms base w v xs O') as L.
  unfold append. rewrite L. destruct (Z.leb_spec n (Z.of_nat (vcap w v) - Z.of_nat (length xs))); [|lia].
  destruct (at_end_cases fails ms base w v xs (repeat a (Z.to_nat n)) O') as
    [(Q2 & _) | (i & w' & v' & Hi & Q2 & F2 & -> & O2 & _)].
  - rewrite repeat_length. lia.
  - rewrite repeat_length in Q2. specialize (Q2 j J). congruence.
  - assert (i = j). { destruct (Nat.lt_trichotomy i j) as [L1 | [L1 | L1]]; [|assumption|]; [specialize (Q i L1) | specialize (Q2 j L1)]; congruence. }
    subst i. exists w', v'. split; [reflexivity|].
    replace (firstn j (repeat a (Z.to_nat n))) with (repeat a j) in O2; [assumption|].
    replace (Z.to_nat n) with (j + (Z.to_nat n - j))%nat by lia. rewrite repeat_app, firstn_app, repeat_length.
    rewrite firstn_all2 by (rewrite repeat_length; lia). rewrite Nat.sub_diag. cbn. now rewrite app_nil_r.
Qed.

Lemma c349_made_partial :
  forall (A : Type) fails ms (w : world A) l, max_size_ok ms ->
  (Z.of_nat (length l) <= ms -> quiet fails (tick w) (S (length l)) ->
     exists w' v, make fails ms w l = Fin w' v /\ owns ms w w' v l) /\
  (ms < Z.of_nat (length l) \/ (l <> [] /\ fails (tick w) = true) ->
     exists w' v, make fails ms w l = Exc w' v /\ same_memory w w').
Proof.
  intros A fails ms w l M. split.
  - intros L Q. destruct (make_cases fails ms w l) as [H1 | [(w' & v & _ & _ & [F | G]) | (j & w' & v & b & J & _ & F & _)]];
      [assumption | | lia |].
    + specialize (Q 0%nat ltac:(lia)). rewrite Nat.add_0_r in Q. congruence.
    + specialize (Q (S j) ltac:(lia)). congruence.
  - intros H. destruct (make_cases fails ms w l) as [(w' & v & E & O') | [(w' & v & E & S' & _) | (j & w' & v & b & J & Q & F & L & _)]].
    + exfalso. destruct H as [G | (NE & F)].
      * destruct O' as (_ & H). destruct (vbuf v); [destruct H as (_ & _ & k & _ & B); lia|].
        destruct H as (-> & _). destruct M. cbn in G. lia.
      * destruct l as [|a l]; [contradiction|]. unfold make, vallocate in E.
        destruct (ms <? Z.of_nat (length (a :: l))); [discriminate|]. unfold allocate in E. rewrite F in E. discriminate.
    + eauto.
    + exfalso. destruct H as [G | (_ & G)]; [lia|]. specialize (Q 0%nat ltac:(lia)). rewrite Nat.add_0_r in Q. congruence.
Qed.

Lemma c349_leak_refuted :
  forall (A : Type) fails ms (w : world A) l j, max_size_ok ms ->
  Z.of_nat (length l) <= ms -> (j < length l)%nat -> quiet fails (tick w) (S j) -> fails (tick w + S j)%nat = true ->
  exists w' v b, make fails ms w l = Exc w' v /\ buffer w b = None /\
    buffer w' b = Some (map Obj (firstn j l) ++ repeat Raw (length l - j)) /\
    forall i, i <> b -> buffer w' i = buffer w i.
Proof.
  intros A fails ms w l j M L J Q F.
  destruct (make_cases fails ms w l) as [(w' & v & E & _) | [(w' & v & _ & _ & [F2 | G]) | (i & w' & v & b & I' & Q2 & F2 & _ & E & NB & B)]].
  - exfalso. destruct l as [|a l]; [cbn in J; lia|]. unfold make, vallocate in E.
    destruct (Z.ltb_spec ms (Z.of_nat (length (a :: l)))) as [G | _]; [lia|].
    destruct (allocate_cases fails w (Z.to_nat (Z.of_nat (length (a :: l))))) as [(F0 & w1 & nb & Ea & NB & B1 & T1) | (F0 & w1 & Ea & _)]; rewrite Ea in E; [|discriminate].
    unfold at_end in E. cbn [vbuf vlen] in E. rewrite Nat2Z.id in B1.
    destruct (construct_list_cases fails (a :: l) w1 nb 0 [] 0) as [(Q3 & _) | (i & w2 & _ & _ & _ & E2 & _)].
    + rewrite Nat.add_0_r. exact (but_eq _ _ _ _ B1).
    + reflexivity.
    + specialize (Q3 j J). rewrite T1 in Q3. replace (S (tick w) + j)%nat with (tick w + S j)%nat in Q3 by lia. congruence.
    + rewrite E2 in E. discriminate.
  - specialize (Q 0%nat ltac:(lia)). rewrite Nat.add_0_r in Q. congruence.
  - lia.
  - assert (i = j). { destruct (Nat.lt_trichotomy i j) as [L1 | [L1 | L1]]; [|assumption|]; [specialize (Q (S i) ltac:(lia)) | specialize (Q2 (S j) ltac:(lia))]; congruence. }
    subst i. exists w', v, b. split; [assumption|]. split; [assumption|]. split; [exact (but_eq _ _ _ _ B)|].
    intros i Hi. exact (but_ne _ _ _ _ i B Hi).
Qed.

Lemma c350_step :
  forall (A : Type) fails nothrow_move ms (base w : world A) v xs o, max_size_ok ms -> owns ms base w v xs -> arg_ok ms o ->
  (exists w' v', tstep fails nothrow_move ms w v o = Fin w' v' /\ owns ms base w' v' (result_of xs o)) \/
  (exists w' v' ys, tstep fails nothrow_move ms w v o = Exc w' v' /\ left_by xs o ys /\ owns ms base w' v' ys /\
     (threw fails w w' \/ too_long ms xs o)).
Proof.
  intros A fails nm ms base w v xs o M O' AO. exact (step_cases fails nm ms M base w v xs o O' AO).
Qed.

Lemma c350_history :
  forall (A : Type) fails nothrow_move ms (w : world A) os, max_size_ok ms -> Forall (arg_ok ms) os ->
  exists w' v ys w'', trun fails nothrow_move ms w null_vec os = Some (w', v) /\ owns ms w w' v ys /\
    vdeallocate w' v = Some w'' /\ same_memory w w''.
Proof.
  intros A fails nm ms w os M F.
  destruct (run_ok fails nm ms M os w w null_vec []) as (w' & v & ys & E & O').
  - split; [reflexivity|]. cbn. split; [reflexivity | intros i; reflexivity].
  - assumption.
  - destruct (vdealloc_ok ms w w' v ys O') as (w'' & E2 & S' & _). exists w', v, ys, w''. auto.
Qed.
