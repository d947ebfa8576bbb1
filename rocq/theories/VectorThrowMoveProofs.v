(** Proofs about push_back and insert of rvalues when allocations and copies throw. *)
From Coq Require Import Lia.
From Verif Require Import Common CommonProofs Ints Vector SpecVector VectorThrow SpecVectorThrow VectorThrowProofs
  VectorThrowInsert SpecVectorThrowInsert VectorThrowInsertProofs VectorThrowMove SpecVectorThrowMove.
Open Scope Z_scope.

Section Proofs.
Context {A : Type}.
Variable fails : nat -> bool.
Variable ms : Z.
Local Notation world := (world A).
Local Open Scope nat_scope.

(** ** Copies *)
Lemma one_copy : forall (w : world) v a, one_at_end fails false w v (Obj a) = with_arg (at_end fails w v [a]) (Obj a).
Proof.
  intros w [[b|] n] a; unfold one_at_end, at_end; cbn [vbuf vlen construct_list]; [|reflexivity].
  unfold construct_from. destruct (construct fails w b n a); reflexivity.
Qed.
Lemma push_copy : forall (w : world) s a, split_push fails false w s (Obj a) =
  match split_construct fails w s [a] with Fin w s => Fin w (s, Obj a) | Exc w s => Exc w (s, Obj a) | Und => Und end.
Proof.
  intros w [[b|] n e] a; unfold split_push, split_construct; cbn [tbuf tbegin tend construct_list]; [|reflexivity].
  unfold construct_from. destruct (construct fails w b e a); reflexivity.
Qed.
Lemma insert_copy : forall (w : world) v p a, insert_move fails false ms w v p (Obj a) = with_arg (insert fails false ms w v p a) (Obj a).
Proof.
  intros w v p a. unfold insert_move, insert. destruct (vlen v <? p); [reflexivity|]. destruct (vlen v <? vcap w v).
  - destruct (p =? vlen v); [apply one_copy|]. destruct (vbuf v) as [b|]; [|reflexivity].
    destruct (shift_construct fails false w b (vlen v - 1) b (vlen v)) as [w1 t | w1 t |]; [|reflexivity..]. cbn zeta.
    destruct (move_up fails false w1 b p _) as [w2 t2 | w2 t2 |]; [|reflexivity..].
    unfold assign_from. destruct (assign_to fails w2 b p a); reflexivity.
  - destruct (recommend _ _ _) as [cap | | |]; [|reflexivity..]. destruct (split_make fails w cap p) as [w1 s | w1 s |]; [|reflexivity..].
    rewrite push_copy. destruct (split_construct fails w1 s [a]) as [w2 s2 | w2 s2 |]; reflexivity.
Qed.

(** ** push_back is insert at the end *)
Lemma swap_at_end : forall nothrow (w : world) v s nb, tbuf s = Some nb ->
  swap_out fails nothrow w v s = swap_out_at fails nothrow w v s (vlen v).
Proof.
  intros nothrow w v s nb E. unfold swap_out, swap_out_at. rewrite E. destruct (vbuf v) as [ob|]; [|reflexivity].
  destruct (relocate fails nothrow w ob (vlen v) nb (tbegin s)) as [w1 [|n] | w1 n |]; try reflexivity.
  rewrite Nat.sub_diag. reflexivity.
Qed.
Lemma push_insert : forall nothrow (w : world) v x, push_back_move fails nothrow ms w v x = insert_move fails nothrow ms w v (vlen v) x.
Proof.
  intros nothrow w v x. unfold push_back_move, insert_move. rewrite Nat.ltb_irrefl, Nat.eqb_refl. destruct (vlen v <? vcap w v); [reflexivity|].
  destruct (recommend _ _ _) as [cap | | |]; [|reflexivity..]. destruct (split_make fails w cap (vlen v)) as [w1 s | w1 s |]; [|reflexivity..].
  unfold split_push. destruct (tbuf s) as [b|]; [|reflexivity]. destruct (construct_from fails nothrow w1 b (tend s) x) as [w2 y | w2 y |]; [|reflexivity..].
  erewrite swap_at_end by reflexivity. reflexivity.
Qed.

(** ** Moves that do not throw *)
Lemma move_grow : forall base (w : world) v xs p a, max_size_ok ms -> owns ms base w v xs ->
  p <= length xs -> vcap w v = length xs ->
  (exists w' v', insert_move fails true ms w v p (Obj a) = Fin w' (v', Moved) /\ owns ms base w' v' (inserted xs p a)) \/
  (exists w', insert_move fails true ms w v p (Obj a) = Exc w' (v, Obj a) /\ same_memory w w' /\
     (threw fails w w' \/ Z.of_nat (length xs) = ms)).
Proof.
  intros base w v xs p a MS OW Hp HC. unfold insert_move. rewrite (vlen_owns ms base w v xs OW), HC.
  destruct (Nat.ltb_spec (length xs) p); [lia|]. rewrite Nat.ltb_irrefl.
  pose proof (cap_ms ms MS base w v xs OW) as CM. rewrite HC in CM.
  assert (SZ : sz (Z.of_nat (length xs) + 1) = (Z.of_nat (length xs) + 1)%Z).
  { destruct MS as [M1 M2]. unfold sz. rewrite Z.mod_small by lia. reflexivity. }
  rewrite SZ.
  destruct (recommend_cases ms MS (length xs) (Z.of_nat (length xs) + 1)) as [(_ & cap & -> & C) | (G & ->)]; [lia | lia | |].
  2:{ right. exists w. split; [reflexivity|]. split; [intros i; reflexivity|]. right. lia. }
  unfold split_make. destruct (Z.eqb_spec cap 0) as [-> | NZ]; [lia|].
  destruct (allocate_cases fails w (Z.to_nat cap)) as [(F & w1 & nb & -> & NB & B1 & T1) | (F & w1 & -> & M & T1)].
  2:{ right. exists w1. split; [reflexivity|]. split; [assumption|]. left. exists (tick w). split; [lia | assumption]. }
  unfold split_push, construct_from. cbn [tbuf tend tbegin].
  set (k := Z.to_nat cap - length xs - 1).
  set (X1 := firstn p xs). set (X2 := skipn p xs).
  assert (LX1 : length X1 = p) by (unfold X1; rewrite firstn_length; lia).
  assert (LX2 : length X2 = length xs - p) by (unfold X2; rewrite skipn_length; lia).
  assert (XS : xs = X1 ++ X2) by (symmetry; apply firstn_skipn).
  assert (E1 : buffer w1 nb = Some (repeat Raw p ++ Raw :: repeat Raw (length X2 + k))).
  { rewrite (but_eq _ _ _ _ B1). change (Raw :: repeat (@Raw A) (length X2 + k)) with (repeat (@Raw A) (S (length X2 + k))).
    rewrite <- repeat_app2. do 2 f_equal. unfold k. lia. }
  destruct (place_ok w1 nb p a _ _ E1) as (w2 & -> & B2 & T2); [now rewrite repeat_length|].
  pose proof (but_eq _ _ _ _ B2) as E2.
  unfold swap_out_at. destruct v as [vb n]. destruct OW as (L & H'). cbn [vbuf vlen tbuf tbegin tend length] in *. subst n.
  destruct vb as [ob|].
  - destruct H' as (H1 & H2 & kk & E & M).
    assert (NE : ob <> nb) by congruence.
    assert (Eo : buffer w2 ob = Some (map Obj X1 ++ map Obj X2 ++ repeat Raw kk)).
    { rewrite (but_ne _ _ _ _ ob B2 NE), (but_ne _ _ _ _ ob B1 NE), E, XS, map_app, <- app_assoc. reflexivity. }
    rewrite <- LX1 in E2.
    destruct (relocate_cases fails true X1 w2 ob nb _ _ NE Eo E2) as
      [(w3 & gone & R & Lg & Fg & Go & Gn & Gi & Gt) | (w3 & zs & tl & Q & _)]; [|discriminate].
    rewrite LX1 in R; rewrite R.
    pose proof (forward_cases fails true X2 w3 ob nb gone (repeat Raw kk) (map Obj X1 ++ [Obj a]) k NE Go) as FW.
    rewrite Lg, LX1, LX2, app_length, map_length, LX1 in FW. cbn [length] in FW. rewrite LX2 in Gn.
    destruct FW as [(w4 & gone2 & R4 & Lg2 & Fg2 & Go2 & Gn2 & Gi2 & Gt2) | (NT & _)]; [|  |discriminate].
    + rewrite Gn, <- app_assoc. reflexivity.
    + replace (p + 1) with (S p) in R4 by lia. rewrite R4.
      destruct (split_destroy_ok w4 ob 0 (gone ++ gone2) kk) as (w5 & E5 & B5 & T5);
        [rewrite Go2; cbn [repeat app]; now rewrite <- app_assoc | apply Forall_app; now split|].
      rewrite app_length, Lg, Lg2, LX1 in E5. cbn [Nat.add] in E5.
      replace (p + (length xs - p)) with (length xs) in E5 by lia. rewrite E5. left. cbn [with_arg].
      eexists _, _. split; [reflexivity|]. unfold owns, inserted. cbn [vbuf vlen]. fold X1 X2.
      split; [rewrite app_length; cbn [length]; lia|].
      split; [rewrite <- NB; symmetry; apply H2; congruence|]. split.
      * intros i Hi. rewrite B5. destruct (Nat.eqb_spec i ob) as [-> | Ho]; [now symmetry|].
        rewrite Gi2, Gi by assumption. rewrite (but_ne _ _ _ _ i B2 Hi), (but_ne _ _ _ _ i B1 Hi). now apply H2.
      * exists k. rewrite (but_ne _ _ _ _ nb B5) by congruence. rewrite Gn2, map_app. cbn [map]. rewrite <- !app_assoc.
        split; [reflexivity|]. rewrite app_length. cbn [length]. unfold k. lia.
  - destruct H' as (EX & H'). assert (P0 : p = 0) by (rewrite EX in Hp; cbn in Hp; lia).
    assert (Q0 : length X2 = 0) by (rewrite LX2, EX; reflexivity). assert (L0 : length xs = 0) by (now rewrite EX).
    rewrite P0, L0. cbn [Nat.eqb andb with_arg].
    left. eexists _, _. split; [reflexivity|]. unfold owns. cbn [vbuf vlen]. rewrite EX.
    split; [reflexivity|]. split; [now rewrite <- H'|].
    split; [intros i Hi; rewrite (but_ne _ _ _ _ i B2 Hi), (but_ne _ _ _ _ i B1 Hi); apply H'|].
    exists k. rewrite P0, Q0 in E2. split; [exact E2|]. cbn. unfold k. lia.
Qed.

Lemma move_end : forall base (w : world) v xs a, owns ms base w v xs -> length xs < vcap w v ->
  exists w' v', insert_move fails true ms w v (length xs) (Obj a) = Fin w' (v', Moved) /\ owns ms base w' v' (xs ++ [a]).
Proof.
  intros base w v xs a OW C. unfold insert_move. rewrite (vlen_owns ms base w v xs OW), Nat.ltb_irrefl, Nat.eqb_refl.
  destruct (Nat.ltb_spec (length xs) (vcap w v)); [|lia]. unfold one_at_end, vcap in *. destruct v as [[b|] n]; cbn [vbuf vlen] in *; [|lia].
  destruct OW as (L & H1 & H2 & k & E & M). cbn [vlen] in L. subst n. rewrite E, app_length, map_length, repeat_length in C.
  destruct k as [|k]; [lia|]. cbn [repeat] in E. unfold construct_from.
  destruct (place_ok w b (length xs) a _ _ E) as (w2 & -> & B2 & T2); [now rewrite map_length|].
  eexists _, _. split; [reflexivity|]. unfold owns. cbn [vbuf vlen]. rewrite app_length. cbn [length]. split; [lia|]. split; [assumption|].
  split; [intros i Hi; rewrite (but_ne _ _ _ _ i B2 Hi); now apply H2|]. exists k. rewrite (but_eq _ _ _ _ B2), map_app, <- app_assoc.
  split; [reflexivity | lia].
Qed.

Lemma move_middle : forall base (w : world) v xs p a, owns ms base w v xs -> p < length xs < vcap w v ->
  exists w' v', insert_move fails true ms w v p (Obj a) = Fin w' (v', Moved) /\ owns ms base w' v' (inserted xs p a).
Proof.
  intros base w v xs p a OW B.
  destruct (middle_split ms base w v xs p OW B) as (b & k & ys & y & -> & XS & EL & LX & LF & H1 & H2 & E & M).
  unfold insert_move. cbn [vbuf vlen]. destruct (Nat.ltb_spec (length xs) p); [lia|].
  destruct (Nat.ltb_spec (length xs) (vcap w (TVec (Some b) (length xs)))); [|lia].
  destruct (Nat.eqb_spec p (length xs)); [lia|]. unfold shift_construct.
  assert (LP : length (map (@Obj A) (firstn p xs ++ ys)) = length xs - 1) by (rewrite map_length, app_length, LF; lia).
  rewrite (fetch_ok w b (length xs - 1) y _ _ E) by (now symmetry).
  destruct (place_ok w b (length xs) y (map Obj (firstn p xs ++ ys) ++ [Obj y]) (repeat Raw k)) as (w1 & -> & B1 & T1).
  { rewrite E, <- app_assoc. reflexivity. } { rewrite app_length, LP. cbn. lia. }
  pose proof (but_eq _ _ _ _ B1) as E1. rewrite <- app_assoc in E1. cbn [app] in E1. rewrite E1, upd_mid by (now symmetry).
  set (w2 := set_buffer w1 b _).
  assert (B2 : but w1 w2 b (Some (map Obj (firstn p xs ++ ys) ++ Moved :: Obj y :: repeat Raw k))) by (eapply set_but; exact E1).
  destruct (up_nothrow fails ys w2 b (map Obj (firstn p xs)) (Obj y :: repeat Raw k)) as (w3 & E3 & B3 & T3).
  { rewrite (but_eq _ _ _ _ B2), map_app, <- app_assoc. reflexivity. }
  rewrite map_length, LF in E3. replace (S (length xs) - 2 - p) with (length ys) by lia. rewrite E3.
  assert (BB : but w w3 b (Some (map Obj (firstn p xs) ++ Moved :: map Obj ys ++ Obj y :: repeat Raw k))).
  { eapply but_trans; [eapply but_trans; eassumption | exact B3]. }
  pose proof (but_eq _ _ _ _ B3) as E4. unfold assign_from. rewrite E4, nth_mid, upd_mid by (now rewrite map_length).
  eexists _, _. split; [reflexivity|].
  pose proof (but_trans _ _ _ _ _ _ BB (set_but w3 b _ (Some (map Obj (firstn p xs) ++ Obj a :: map Obj ys ++ Obj y :: repeat Raw k)) E4)) as B5.
  unfold owns, inserted. cbn [vbuf vlen].
  split; [rewrite EL, !app_length, LF; cbn [length]; rewrite app_length; cbn; lia|]. split; [assumption|].
  split; [intros i Hi; rewrite (but_ne _ _ _ _ i B5 Hi); now apply H2|].
  exists k. rewrite (but_eq _ _ _ _ B5), EL, map_app. cbn [map]. rewrite map_app, <- !app_assoc. cbn [map app].
  rewrite <- app_assoc. split; [reflexivity|]. rewrite !app_length. cbn [length]. rewrite app_length, LF. cbn. lia.
Qed.

Lemma inserted_end : forall (xs : list A) a, inserted xs (length xs) a = xs ++ [a].
Proof. intros xs a. unfold inserted. now rewrite firstn_all, skipn_all. Qed.

Lemma insert_move_cases : forall base (w : world) v xs p a, max_size_ok ms -> owns ms base w v xs -> p <= length xs ->
  (exists w' v', insert_move fails true ms w v p (Obj a) = Fin w' (v', Moved) /\ owns ms base w' v' (inserted xs p a)) \/
  (vcap w v = length xs /\ exists w', insert_move fails true ms w v p (Obj a) = Exc w' (v, Obj a) /\ same_memory w w' /\
     (threw fails w w' \/ Z.of_nat (length xs) = ms)).
Proof.
  intros base w v xs p a MS OW Hp. destruct (owns_cap ms base w v xs OW) as (C & _).
  destruct (Nat.eq_dec (vcap w v) (length xs)) as [CE | CN].
  - destruct (move_grow base w v xs p a MS OW Hp CE) as [H | H]; [now left | right; now split].
  - left. destruct (Nat.eq_dec p (length xs)) as [-> | PN].
    + rewrite inserted_end. apply (move_end base); [assumption | lia].
    + apply move_middle; [assumption | lia].
Qed.

Lemma insert_copy_cases : forall base (w : world) v xs p a, max_size_ok ms -> owns ms base w v xs -> p <= length xs ->
  (exists w' v', insert_move fails false ms w v p (Obj a) = Fin w' (v', Obj a) /\ owns ms base w' v' (inserted xs p a)) \/
  (exists w' v' ys, insert_move fails false ms w v p (Obj a) = Exc w' (v', Obj a) /\ owns ms base w' v' ys /\
     (threw fails w w' \/ Z.of_nat (length xs) = ms) /\
     (v' = v /\ same_memory w w' \/ p < length xs < vcap w v /\ (ys = xs \/ doubled xs p ys))).
Proof.
  intros base w v xs p a MS OW Hp. rewrite insert_copy. destruct (owns_cap ms base w v xs OW) as (C & _).
  destruct (Nat.eq_dec (vcap w v) (length xs)) as [CE | CN].
  - destruct (insert_grow fails ms false base w v xs p a MS OW Hp CE) as [(w' & v' & -> & O') | (w' & -> & S' & T)]; [left; cbn; eauto|].
    right. exists w', v, xs. split; [reflexivity|]. split; [eapply owns_same; eassumption|]. split; [assumption|]. left. now split.
  - destruct (Nat.eq_dec p (length xs)) as [-> | PN].
    + rewrite inserted_end. destruct (insert_end fails ms false base w v xs a OW ltac:(lia)) as [(w' & v' & -> & O') | (w' & -> & S' & T)]; [left; cbn; eauto|].
      right. exists w', v, xs. split; [reflexivity|]. split; [eapply owns_same; eassumption|]. split; [now left|]. left. now split.
    + destruct (insert_middle_copy fails ms base w v xs p a OW ltac:(lia)) as [(w' & v' & -> & O') | (w' & v' & ys & -> & O' & D & T)]; [left; cbn; eauto|].
      right. exists w', v', ys. split; [reflexivity|]. split; [assumption|]. split; [now left|].
      right. split; [lia | assumption].
Qed.
(** ** Programs *)
Lemma move_step_ok : forall nothrow base (w : world) v xs p a, max_size_ok ms -> owns ms base w v xs -> p <= length xs ->
  exists w' v' x ys, owns ms base w' v' ys /\
    (insert_move fails nothrow ms w v p (Obj a) = Fin w' (v', x) \/ insert_move fails nothrow ms w v p (Obj a) = Exc w' (v', x)).
Proof.
  intros [|] base w v xs p a MS OW Hp.
  - destruct (insert_move_cases base w v xs p a MS OW Hp) as [(w' & v' & E & O') | (_ & w' & E & S' & _)].
    + exists w', v', Moved, (inserted xs p a). auto.
    + exists w', v, (Obj a), xs. split; [eapply owns_same; eassumption | auto].
  - destruct (insert_copy_cases base w v xs p a MS OW Hp) as [(w' & v' & E & O') | (w' & v' & ys & E & O' & _)]; eauto 8.
Qed.
Lemma move_reached_owns : forall nothrow (start w : world) v, max_size_ok ms -> move_reached fails nothrow ms start w v ->
  exists xs, owns ms start w v xs.
Proof.
  intros nothrow start w v MS R.
  assert (K : forall w v xs p a w' v' x, owns ms start w v xs -> p <= vlen v ->
    insert_move fails nothrow ms w v p (Obj a) = Fin w' (v', x) \/ insert_move fails nothrow ms w v p (Obj a) = Exc w' (v', x) ->
    exists ys, owns ms start w' v' ys).
  { clear w v R. intros w v xs p a w' v' x OW V E. rewrite (vlen_owns ms start w v xs OW) in V.
    destruct (move_step_ok nothrow start w v xs p a MS OW V) as (w2 & v2 & y & ys & O' & [E2 | E2]); rewrite E2 in E;
      destruct E as [E | E]; try discriminate; injection E as <- <- _; eauto. }
  induction R as [|w v o w' v' R [xs OW] V E | w v o w' v' R [xs OW] V N E | w v p a w' v' x R [xs OW] V E | w v p a w' v' x R [xs OW] V E | w v a w' v' x R [xs OW] E | w v a w' v' x R [xs OW] E].
  - exists []. split; [reflexivity|]. cbn. split; [reflexivity | intros i; reflexivity].
  - rewrite (vlen_owns ms start w v xs OW) in V.
    destruct (istep_ok fails ms nothrow start w v xs o MS OW V) as [(w2 & v2 & ys & E2 & O') | (w2 & v2 & E2 & _)]; rewrite E2 in E; [|discriminate].
    injection E as <- <-. eauto.
  - rewrite (vlen_owns ms start w v xs OW) in V.
    destruct (istep_ok fails ms nothrow start w v xs o MS OW V) as [(w2 & v2 & ys & E2 & O') | (w2 & v2 & E2 & H)]; rewrite E2 in E; [discriminate|].
    injection E as <- <-. exact (H N).
  - exact (K _ _ _ _ _ _ _ _ OW V (or_introl E)).
  - exact (K _ _ _ _ _ _ _ _ OW V (or_intror E)).
  - rewrite push_insert in E. exact (K _ _ _ _ _ _ _ _ OW (le_n _) (or_introl E)).
  - rewrite push_insert in E. exact (K _ _ _ _ _ _ _ _ OW (le_n _) (or_intror E)).
Qed.
End Proofs.

(** * The statements of the properties *)

Lemma c354_insert_move :
  forall (A : Type) fails ms (base w : world A) v xs p a, max_size_ok ms -> owns ms base w v xs -> (p <= length xs)%nat ->
  (exists w' v', insert_move fails true ms w v p (Obj a) = Fin w' (v', Moved) /\ owns ms base w' v' (inserted xs p a)) \/
  (vcap w v = length xs /\ exists w', insert_move fails true ms w v p (Obj a) = Exc w' (v, Obj a) /\ same_memory w w' /\
     (threw fails w w' \/ Z.of_nat (length xs) = ms)).
Proof.
  intros A fails ms base w v xs p a M O' H. exact (insert_move_cases fails ms base w v xs p a M O' H).
Qed.

Lemma c354_push_back_move :
  forall (A : Type) fails ms (base w : world A) v xs a, max_size_ok ms -> owns ms base w v xs ->
  (exists w' v', push_back_move fails true ms w v (Obj a) = Fin w' (v', Moved) /\ owns ms base w' v' (xs ++ [a])) \/
  (vcap w v = length xs /\ exists w', push_back_move fails true ms w v (Obj a) = Exc w' (v, Obj a) /\ same_memory w w' /\
     (threw fails w w' \/ Z.of_nat (length xs) = ms)).
Proof.
  intros A fails ms base w v xs a M O'. rewrite (push_insert fails ms true w v), (vlen_owns ms base w v xs O'), <- (inserted_end xs a).
  exact (insert_move_cases fails ms base w v xs (length xs) a M O' (le_n _)).
Qed.

Lemma c354_insert_copy :
  forall (A : Type) fails ms (base w : world A) v xs p a, max_size_ok ms -> owns ms base w v xs -> (p <= length xs)%nat ->
  (exists w' v', insert_move fails false ms w v p (Obj a) = Fin w' (v', Obj a) /\ owns ms base w' v' (inserted xs p a)) \/
  (exists w' v' ys, insert_move fails false ms w v p (Obj a) = Exc w' (v', Obj a) /\ owns ms base w' v' ys /\
     (threw fails w w' \/ Z.of_nat (length xs) = ms) /\
     (v' = v /\ same_memory w w' \/ (p < length xs < vcap w v)%nat /\ (ys = xs \/ doubled xs p ys))).
Proof.
  intros A fails ms base w v xs p a M O' H. exact (insert_copy_cases fails ms base w v xs p a M O' H).
Qed.

Lemma c354_push_back_copy :
  forall (A : Type) fails ms (base w : world A) v xs a, max_size_ok ms -> owns ms base w v xs ->
  (exists w' v', push_back_move fails false ms w v (Obj a) = Fin w' (v', Obj a) /\ owns ms base w' v' (xs ++ [a])) \/
  (exists w', push_back_move fails false ms w v (Obj a) = Exc w' (v, Obj a) /\ same_memory w w' /\
     (threw fails w w' \/ Z.of_nat (length xs) = ms)).
Proof.
  intros A fails ms base w v xs a M O'. rewrite (push_insert fails ms false w v), (vlen_owns ms base w v xs O'), <- (inserted_end xs a).
  destruct (insert_copy_cases fails ms base w v xs (length xs) a M O' (le_n _)) as [H | (w' & v' & ys & E & _ & T & [(-> & S') | (B & _)])]; [now left | | exfalso; lia].
  right. exists w'. now repeat split.
Qed.

Lemma c354_history :
  forall (A : Type) fails nothrow_move ms (start w : world A) v, max_size_ok ms ->
  move_reached fails nothrow_move ms start w v ->
  (forall o, valid_call ms (vlen v) o -> istep fails nothrow_move ms w v o <> Und) /\
  (forall p a, (p <= vlen v)%nat -> insert_move fails nothrow_move ms w v p (Obj a) <> Und) /\
  (forall a, push_back_move fails nothrow_move ms w v (Obj a) <> Und) /\
  exists xs w', owns ms start w v xs /\ vdeallocate w v = Some w' /\ same_memory start w'.
Proof.
  intros A fails nm ms start w v M R. destruct (move_reached_owns fails ms nm start w v M R) as (xs & O').
  assert (K : forall p a, (p <= vlen v)%nat -> insert_move fails nm ms w v p (Obj a) <> Und).
  { intros p a V. rewrite (vlen_owns ms start w v xs O') in V.
    destruct (move_step_ok fails ms nm start w v xs p a M O' V) as (w2 & v2 & y & ys & _ & [-> | ->]); discriminate. }
  split; [|split; [exact K | split]].
  - intros o V. rewrite (vlen_owns ms start w v xs O') in V.
    destruct (istep_ok fails ms nm start w v xs o M O' V) as [(w' & v' & ys & -> & _) | (w' & v' & -> & _)]; discriminate.
  - intros a. rewrite (push_insert fails ms nm w v). apply K. apply le_n.
  - destruct (vdealloc_ok ms start w v xs O') as (w' & E & S' & _). eauto.
Qed.
