(** Proofs about insert, erase and pop_back_value of vectors when copies throw. *)
From Coq Require Import Lia.
From Verif Require Import Common CommonProofs Ints Vector SpecVector VectorThrow SpecVectorThrow VectorThrowProofs
  VectorThrowInsert SpecVectorThrowInsert.
Open Scope Z_scope.

Section Proofs.
Context {A : Type}.
Variable fails : nat -> bool.
Variable ms : Z.
Local Notation world := (world A).
Local Open Scope nat_scope.
Local Notation full := (Forall (fun s : slot A => is_raw s = false)).

Lemma fetch_ok : forall (w : world) b i a pre post, buffer w b = Some (pre ++ Obj a :: post) -> i = length pre ->
  fetch w b i = Some a.
Proof. intros w b i a pre post E L. unfold fetch. rewrite E, nth_mid by assumption. reflexivity. Qed.

Lemma assign_full : forall (w : world) b i a s pre post, buffer w b = Some (pre ++ s :: post) -> i = length pre ->
  is_raw s = false ->
  (fails (tick w) = false /\ exists w', assign_to fails w b i a = Fin w' tt /\
     but w w' b (Some (pre ++ Obj a :: post)) /\ tick w' = S (tick w)) \/
  (fails (tick w) = true /\ exists w', assign_to fails w b i a = Exc w' tt /\ same_memory w w' /\ tick w' = S (tick w)).
Proof.
  intros w b i a s pre post E L R. unfold assign_to. destruct (fails (tick w)) eqn:F; [right | left]; (split; [reflexivity|]).
  - eexists. split; [reflexivity|]. split; [intros j; reflexivity | reflexivity].
  - rewrite E, nth_mid by assumption. destruct s; [discriminate| |]; (eexists; split; [reflexivity|]);
      rewrite upd_mid by assumption; (split; [|reflexivity]); exact (set_but (next w) b _ _ E).
Qed.

Lemma same_but : forall (w w' : world) b m, same_memory w w' -> buffer w b = m -> but w w' b m.
Proof. intros w w' b m S' E i. rewrite S'. destruct (Nat.eqb_spec i b) as [-> | _]; [exact E | reflexivity]. Qed.

(** ** Moves that do not throw *)
Lemma up_nothrow : forall ys (w : world) b pre post,
  buffer w b = Some (pre ++ map Obj ys ++ Moved :: post) ->
  exists w', move_up fails true w b (length pre) (length ys) = Fin w' tt /\
    but w w' b (Some (pre ++ Moved :: map Obj ys ++ post)) /\ tick w' = tick w.
Proof.
  induction ys as [|y ys IH] using rev_ind; intros w b pre post E.
  - exists w. split; [reflexivity|]. split; [now apply but_refl | reflexivity].
  - rewrite app_length. cbn [length]. replace (length ys + 1) with (S (length ys)) by lia. cbn [move_up].
    unfold shift_assign. rewrite map_app in E. cbn [map] in E. rewrite <- app_assoc in E. cbn [app] in E.
    rewrite (fetch_ok w b (length pre + length ys) y (pre ++ map Obj ys) (Moved :: post))
      by ((now rewrite <- app_assoc) || (now rewrite app_length, map_length)).
    rewrite E.
    replace (pre ++ map Obj ys ++ Obj y :: Moved :: post) with ((pre ++ map Obj ys ++ [Obj y]) ++ Moved :: post)
      by (now rewrite <- !app_assoc).
    rewrite nth_mid, upd_mid by (rewrite !app_length, map_length; cbn; lia).
    replace ((pre ++ map Obj ys ++ [Obj y]) ++ Obj y :: post) with ((pre ++ map Obj ys) ++ Obj y :: Obj y :: post)
      by (now rewrite <- !app_assoc).
    rewrite upd_mid by (now rewrite app_length, map_length).
    set (w1 := set_buffer w b _).
    assert (B1 : but w w1 b (Some ((pre ++ map Obj ys) ++ Moved :: Obj y :: post))) by (eapply set_but; exact E).
    destruct (IH w1 b pre (Obj y :: post)) as (w2 & E2 & B2 & T2);
      [rewrite (but_eq _ _ _ _ B1), <- app_assoc; reflexivity|].
    exists w2. split; [exact E2|]. split; [|exact T2].
    rewrite map_app, <- app_assoc. eapply but_trans; eassumption.
Qed.

(** ** Copies *)
Lemma up_copy : forall ys (w : world) b pre y post,
  buffer w b = Some (pre ++ map Obj (ys ++ [y]) ++ post) ->
  (exists w', move_up fails false w b (length pre) (length ys) = Fin w' tt /\
     but w w' b (Some (pre ++ map Obj (firstn 1 (ys ++ [y]) ++ ys) ++ post)) /\ tick w <= tick w') \/
  (exists w' y1 y2, ys = y1 ++ y2 /\ move_up fails false w b (length pre) (length ys) = Exc w' tt /\
     but w w' b (Some (pre ++ map Obj (y1 ++ firstn 1 (y2 ++ [y]) ++ y2) ++ post)) /\ threw fails w w').
Proof.
  induction ys as [|z ys IH] using rev_ind; intros w b pre y post E.
  - left. exists w. split; [reflexivity|]. split; [now apply but_refl | lia].
  - rewrite app_length. cbn [length]. replace (length ys + 1) with (S (length ys)) by lia. cbn [move_up].
    unfold shift_assign. rewrite !map_app in E. cbn [map] in E. rewrite <- !app_assoc in E. cbn [app] in E.
    rewrite (fetch_ok w b (length pre + length ys) z (pre ++ map Obj ys) (Obj y :: post))
      by ((now rewrite <- app_assoc) || (now rewrite app_length, map_length)).
    destruct (assign_full w b (S (length pre + length ys)) z (Obj y) (pre ++ map Obj ys ++ [Obj z]) post) as
      [(F & w1 & -> & B1 & T1) | (F & w1 & -> & M & T1)].
    + rewrite E. now rewrite <- !app_assoc.
    + rewrite !app_length, map_length. cbn. lia.
    + reflexivity.
    + destruct (IH w1 b pre z (Obj z :: post)) as [(w2 & -> & B2 & T2) | (w2 & y1 & y2 & Eq & -> & B2 & Th)].
      * rewrite (but_eq _ _ _ _ B1), map_app, <- !app_assoc. reflexivity.
      * left. exists w2. split; [reflexivity|]. split; [|lia].
        replace (firstn 1 ((ys ++ [z]) ++ [y])) with (firstn 1 (ys ++ [z])) by (destruct ys; reflexivity).
        replace (firstn 1 (ys ++ [z]) ++ ys ++ [z]) with ((firstn 1 (ys ++ [z]) ++ ys) ++ [z]) by (now rewrite <- app_assoc).
        rewrite map_app, <- app_assoc.
        eapply but_trans; [exact B1|]. exact B2.
      * right. exists w2, y1, (y2 ++ [z]). split; [now rewrite Eq, app_assoc|]. split; [reflexivity|].
        split; [|destruct Th as (k & Hk & Fk); exists k; split; [lia | assumption]].
        replace (firstn 1 ((y2 ++ [z]) ++ [y])) with (firstn 1 (y2 ++ [z])) by (destruct y2; reflexivity).
        replace (y1 ++ firstn 1 (y2 ++ [z]) ++ y2 ++ [z]) with ((y1 ++ firstn 1 (y2 ++ [z]) ++ y2) ++ [z])
          by (now rewrite <- !app_assoc).
        rewrite map_app, <- app_assoc. eapply but_trans; [exact B1 | exact B2].
    + right. exists w1, (ys ++ [z]), []. split; [now rewrite app_nil_r|]. split; [reflexivity|].
      split; [|exists (tick w); split; [lia | assumption]].
      apply same_but; [assumption|]. rewrite E, !map_app, <- !app_assoc. reflexivity.
Qed.

(** ** Both *)
Lemma down_cases : forall nothrow ys (w : world) b pre gap post, gap <> [] -> full gap ->
  buffer w b = Some (pre ++ gap ++ map Obj ys ++ post) ->
  (exists w' gone, move_down fails nothrow w b (length pre + length gap) (length ys) (length pre) = Fin w' tt /\
     length gone = length gap /\ full gone /\ but w w' b (Some (pre ++ map Obj ys ++ gone ++ post)) /\ tick w <= tick w') \/
  (nothrow = false /\ exists w' j, j < length ys /\
     move_down fails nothrow w b (length pre + length gap) (length ys) (length pre) = Exc w' tt /\
     but w w' b (Some (pre ++ map Obj (firstn j ys) ++ skipn j (gap ++ map Obj ys) ++ post)) /\ threw fails w w').
Proof.
  intros nothrow. induction ys as [|y ys IH]; intros w b pre gap post NE FG E.
  - left. exists w, gap. split; [reflexivity|]. split; [reflexivity|]. split; [assumption|]. split; [now apply but_refl | lia].
  - destruct gap as [|g gap]; [contradiction|]. cbn [length move_down]. unfold shift_assign.
    cbn [map] in E. inversion FG as [|? ? Rg FG']; subst.
    assert (E0 : buffer w b = Some ((pre ++ g :: gap) ++ Obj y :: map Obj ys ++ post)).
    { rewrite E, <- app_assoc. reflexivity. }
    rewrite (fetch_ok w b (length pre + S (length gap)) y _ _ E0) by (now rewrite app_length).
    destruct nothrow.
    + cbn [app] in E. rewrite E, nth_mid by reflexivity.
      set (w1 := set_buffer w b (Some (upd (upd (pre ++ g :: gap ++ Obj y :: map Obj ys ++ post) (length pre) (Obj y)) (length pre + S (length gap)) Moved))).
      assert (B1 : but w w1 b (Some ((pre ++ [Obj y]) ++ (gap ++ [Moved]) ++ map Obj ys ++ post))).
      { unfold w1. rewrite upd_mid by reflexivity.
        replace (pre ++ Obj y :: gap ++ Obj y :: map Obj ys ++ post) with ((pre ++ Obj y :: gap) ++ Obj y :: map Obj ys ++ post)
          by (now rewrite <- app_assoc).
        rewrite upd_mid by (now rewrite app_length).
        replace ((pre ++ Obj y :: gap) ++ Moved :: map Obj ys ++ post) with ((pre ++ [Obj y]) ++ (gap ++ [Moved]) ++ map Obj ys ++ post)
          by (now rewrite <- !app_assoc).
        eapply set_but; exact E. }
      assert (G : match g with Raw => @Und A unit | _ => Fin w1 tt end = Fin w1 tt) by (destruct g; [discriminate | reflexivity | reflexivity]).
      rewrite G.
      destruct (IH w1 b (pre ++ [Obj y]) (gap ++ [Moved]) post) as [(w2 & gone & E2 & Lg & Fg & B2 & T2) | (D & _)];
        [destruct gap; discriminate | apply Forall_app; split; [assumption | repeat constructor] | exact (but_eq _ _ _ _ B1) | | discriminate].
      left. exists w2, gone. rewrite !app_length in E2. cbn [length] in E2.
      replace (S (length pre + S (length gap))) with (length pre + 1 + (length gap + 1)) by lia.
      replace (S (length pre)) with (length pre + 1) by lia. split; [exact E2|].
      split; [rewrite Lg, app_length; cbn; lia|]. split; [assumption|]. split; [|exact T2].
      rewrite <- app_assoc in B2. eapply but_trans; eassumption.
    + destruct (assign_full w b (length pre) y g pre (gap ++ Obj y :: map Obj ys ++ post)) as
        [(F & w1 & -> & B1 & T1) | (F & w1 & -> & M & T1)]; [exact E | reflexivity | assumption | |].
      * destruct (IH w1 b (pre ++ [Obj y]) (gap ++ [Obj y]) post) as [(w2 & gone & E2 & Lg & Fg & B2 & T2) | (_ & w2 & j & Hj & E2 & B2 & Th)];
          [destruct gap; discriminate | apply Forall_app; split; [assumption | repeat constructor] | rewrite (but_eq _ _ _ _ B1), <- !app_assoc; reflexivity | |];
          rewrite !app_length in E2; cbn [length] in E2;
          replace (S (length pre + S (length gap))) with (length pre + 1 + (length gap + 1)) by lia;
          replace (S (length pre)) with (length pre + 1) by lia; rewrite E2.
        -- left. exists w2, gone. split; [reflexivity|]. split; [rewrite Lg, app_length; cbn; lia|].
           split; [assumption|]. split; [|lia]. rewrite <- app_assoc in B2. eapply but_trans; eassumption.
        -- right. split; [reflexivity|]. exists w2, (S j). cbn [length]. split; [lia|]. split; [reflexivity|].
           split; [|destruct Th as (k & Hk & Fk); exists k; split; [lia | assumption]].
           rewrite <- !app_assoc in B2. cbn [app] in B2. cbn [firstn map app skipn].
           eapply but_trans; eassumption.
      * right. split; [reflexivity|]. exists w1, 0. split; [cbn; lia|]. split; [reflexivity|].
        split; [|exists (tick w); split; [lia | assumption]]. apply same_but; [assumption|].
        rewrite E. cbn [firstn skipn map app]. now rewrite <- app_assoc.
Qed.

Lemma forward_cases : forall nothrow ys (w : world) ob nb preo rest pren k, ob <> nb ->
  buffer w ob = Some (preo ++ map Obj ys ++ rest) -> buffer w nb = Some (pren ++ repeat Raw (length ys + k)) ->
  (exists w' gone, relocate_forward fails nothrow w ob (length preo) (length ys) nb (length pren) = Fin w' (length pren + length ys) /\
     length gone = length ys /\ full gone /\
     buffer w' ob = Some (preo ++ gone ++ rest) /\ buffer w' nb = Some (pren ++ map Obj ys ++ repeat Raw k) /\
     (forall i, i <> ob -> i <> nb -> buffer w' i = buffer w i) /\ tick w <= tick w') \/
  (nothrow = false /\ exists w' j, j < length ys /\
     relocate_forward fails nothrow w ob (length preo) (length ys) nb (length pren) = Exc w' (length pren + j) /\
     buffer w' ob = Some (preo ++ map Obj ys ++ rest) /\
     buffer w' nb = Some (pren ++ map Obj (firstn j ys) ++ repeat Raw (length ys - j + k)) /\
     (forall i, i <> ob -> i <> nb -> buffer w' i = buffer w i) /\ threw fails w w').
Proof.
  intros nothrow. induction ys as [|y ys IH]; intros w ob nb preo rest pren k N Eo En.
  - left. exists w, []. cbn [length Nat.add] in *. rewrite Nat.add_0_r. repeat split; auto.
  - cbn [length Nat.add repeat] in En. cbn [map app] in Eo. cbn [length relocate_forward]. unfold shift_construct.
    rewrite (fetch_ok w ob _ y preo _ Eo) by reflexivity. destruct nothrow.
    + destruct (place_ok w nb (length pren) y pren _ En eq_refl) as (w1 & -> & B1 & T1).
      assert (Eo1 : buffer w1 ob = Some (preo ++ Obj y :: map Obj ys ++ rest)) by (now rewrite (but_ne _ _ _ _ ob B1 N)).
      rewrite Eo1, upd_mid by reflexivity. set (w2 := set_buffer w1 ob _).
      assert (B2 : but w1 w2 ob (Some (preo ++ Moved :: map Obj ys ++ rest))) by (eapply set_but; exact Eo1).
      destruct (IH w2 ob nb (preo ++ [Moved]) rest (pren ++ [Obj y]) k N) as [(w' & gone & E' & Lg & Fg & Go & Gn & Gi & Gt) | (D & _)].
      * rewrite (but_eq _ _ _ _ B2), <- app_assoc. reflexivity.
      * rewrite (but_ne _ _ _ _ nb B2) by congruence. rewrite (but_eq _ _ _ _ B1), <- app_assoc. reflexivity.
      * rewrite !app_length in E'. cbn [length] in E'. rewrite !Nat.add_1_r in E'. rewrite E'.
        left. exists w', (Moved :: gone). split; [f_equal; lia|]. split; [cbn; lia|]. split; [constructor; [reflexivity | assumption]|].
        rewrite <- app_assoc in Go, Gn. split; [exact Go|]. split; [exact Gn|].
        split; [|change (tick w2) with (tick w1) in Gt; lia].
        intros i H1 H2. rewrite Gi by assumption. rewrite (but_ne _ _ _ _ i B2) by assumption. now apply (but_ne _ _ _ _ i B1).
      * discriminate.
    + destruct (construct_cases fails w nb (length pren) y pren _ En eq_refl) as [(F & w1 & -> & B1 & T1) | (F & w1 & -> & M & T1)].
      * destruct (IH w1 ob nb (preo ++ [Obj y]) rest (pren ++ [Obj y]) k N) as
          [(w' & gone & E' & Lg & Fg & Go & Gn & Gi & Gt) | (_ & w' & j & Hj & E' & Go & Gn & Gi & Th)].
        -- rewrite (but_ne _ _ _ _ ob B1 N), Eo, <- app_assoc. reflexivity.
        -- rewrite (but_eq _ _ _ _ B1), <- app_assoc. reflexivity.
        -- rewrite !app_length in E'. cbn [length] in E'. rewrite !Nat.add_1_r in E'. rewrite E'.
           left. exists w', (Obj y :: gone). split; [f_equal; lia|]. split; [cbn; lia|]. split; [constructor; [reflexivity | assumption]|].
           rewrite <- app_assoc in Go, Gn. split; [exact Go|]. split; [exact Gn|]. split; [|lia].
           intros i H1 H2. rewrite Gi by assumption. now apply (but_ne _ _ _ _ i B1).
        -- rewrite !app_length in E'. cbn [length] in E'. rewrite !Nat.add_1_r in E'. rewrite E'.
           right. split; [reflexivity|]. exists w', (S j). split; [lia|]. split; [f_equal; lia|].
           rewrite <- app_assoc in Go, Gn. split; [exact Go|]. split; [exact Gn|].
           split; [intros i H1 H2; rewrite Gi by assumption; now apply (but_ne _ _ _ _ i B1)|].
           destruct Th as (q & Hq & Fq). exists q. split; [lia | assumption].
      * right. split; [reflexivity|]. exists w1, 0. split; [lia|]. split; [f_equal; lia|].
        split; [rewrite M; exact Eo|]. split; [rewrite M, En; reflexivity|]. split; [intros i _ _; apply M|].
        exists (tick w). split; [lia | assumption].
Qed.

Lemma relocate_copy : forall n (w w' : world) ob nb b2 e, ob <> nb ->
  relocate fails false w ob n nb b2 = Fin w' e -> buffer w' ob = buffer w ob.
Proof.
  induction n as [|n IH]; intros w w' ob nb b2 e N E; cbn [relocate] in E.
  - now injection E as <- _.
  - destruct b2 as [|b2]; [discriminate|]. destruct (fetch w ob n) as [a|]; [|discriminate].
    destruct (construct fails w nb b2 a) as [w1 u | w1 u |] eqn:C; [|discriminate|discriminate].
    rewrite (IH _ _ _ _ _ _ N E). unfold construct in C. destruct (fails (tick w)); [discriminate|].
    unfold place in C. destruct (buffer (next w) nb) as [m|] eqn:EB; [|discriminate].
    destruct (nth_error m b2) as [[| |]|]; try discriminate. injection C as <- _.
    rewrite (but_ne (next w) _ nb _ ob (set_but (next w) nb m _ EB) N). reflexivity.
Qed.
Lemma full_raw : forall ss : list (slot A), full ss -> ~ In Raw ss.
Proof. intros ss F H. rewrite Forall_forall in F. specialize (F _ H). discriminate. Qed.
Lemma raw_full : forall ss : list (slot A), ~ In Raw ss -> full ss.
Proof. intros ss F. apply Forall_forall. intros [| |] H; [contradiction | reflexivity | reflexivity]. Qed.

Lemma owns_objects_owns : forall base (w : world) v xs, owns_objects ms base w v (map Obj xs) -> owns ms base w v xs.
Proof.
  intros base w v xs (L & _ & b & k & E & H1 & H2 & H3 & H4). rewrite map_length in *. split; [assumption|].
  rewrite E. eauto.
Qed.

Lemma objects_dealloc : forall base (w : world) v ss, owns_objects ms base w v ss ->
  exists w', vdeallocate w v = Some w' /\ same_memory base w'.
Proof.
  intros base w v ss (L & R & b & k & E & H1 & H2 & H3 & H4). unfold vdeallocate. rewrite E, L.
  destruct (destroy_below_ok ss w b [] (repeat Raw k) H3 (raw_full _ R)) as (w1 & E1 & B1 & T1).
  cbn [length Nat.add app] in *. rewrite E1.
  destruct (deallocate_ok w1 b (length ss + k)) as (w2 & -> & B2 & T2);
    [rewrite (but_eq _ _ _ _ B1), repeat_app2; reflexivity|].
  exists w2. split; [reflexivity|]. intros i. rewrite B2.
  destruct (Nat.eqb_spec i b) as [-> | Hi]; [now symmetry|]. rewrite (but_ne _ _ _ _ i B1 Hi). now apply H2.
Qed.

Lemma insert_grow : forall nothrow base (w : world) v xs p a, max_size_ok ms -> owns ms base w v xs ->
  p <= length xs -> vcap w v = length xs ->
  (exists w' v', insert fails nothrow ms w v p a = Fin w' v' /\ owns ms base w' v' (inserted xs p a)) \/
  (exists w', insert fails nothrow ms w v p a = Exc w' v /\ same_memory w w' /\
     (threw fails w w' \/ Z.of_nat (length xs) = ms)).
Proof.
  intros nothrow base w v xs p a MS OW Hp HC. unfold insert. rewrite (vlen_owns ms base w v xs OW), HC.
  destruct (Nat.ltb_spec (length xs) p); [lia|]. rewrite Nat.ltb_irrefl.
  pose proof (cap_ms ms MS base w v xs OW) as CM. rewrite HC in CM.
  assert (SZ : sz (Z.of_nat (length xs) + 1) = (Z.of_nat (length xs) + 1)%Z).
  { destruct MS as [M1 M2]. unfold sz. rewrite Z.mod_small by lia. reflexivity. }
  rewrite SZ.
  destruct (recommend_cases ms MS (length xs) (Z.of_nat (length xs) + 1)) as [(_ & cap & -> & C) | (G & ->)]; [lia | lia | |].
  2:{ right. exists w. split; [reflexivity|]. split; [intros i; reflexivity|]. right. lia. }
  unfold split_make. destruct (Z.eqb_spec cap 0) as [-> | NZ]; [lia|].
  destruct (allocate_cases fails w (Z.to_nat cap)) as [(F & w1 & nb & -> & NB & B1 & T1) | (F & w1 & -> & M & T1)].
  2:{ right. exists w1. split; [reflexivity|]. split; [assumption|]. left. exists (tick w). split; [lia | assumption]. }
  unfold split_construct. cbn [tbuf tend tbegin].
  set (k := Z.to_nat cap - length xs - 1).
  set (X1 := firstn p xs). set (X2 := skipn p xs).
  assert (LX1 : length X1 = p) by (unfold X1; rewrite firstn_length; lia).
  assert (LX2 : length X2 = length xs - p) by (unfold X2; rewrite skipn_length; lia).
  assert (XS : xs = X1 ++ X2) by (symmetry; apply firstn_skipn).
  assert (E1 : buffer w1 nb = Some (repeat Raw p ++ repeat Raw (length [a] + (length X2 + k)))).
  { rewrite (but_eq _ _ _ _ B1), <- repeat_app2. do 2 f_equal. unfold k. cbn [length]. lia. }
  destruct (construct_list_cases fails [a] w1 nb p (repeat Raw p) (length X2 + k) E1) as
    [(Q & w2 & -> & B2 & T2) | (j & w2 & Hj & Q & F2 & -> & B2 & T2)]; [now rewrite repeat_length| |].
  2:{ cbn [length] in Hj. assert (j = 0) by lia. subst j. unfold unwind. cbn [firstn map app] in B2.
    destruct (split_destroy_ok w2 nb p [] (length [a] - 0 + (length X2 + k))) as (w3 & E3 & B3 & T3);
      [exact (but_eq _ _ _ _ B2) | constructor |].
    cbn [length] in E3. rewrite E3. right. exists w3. split; [reflexivity|]. split.
    - intros i. rewrite B3. destruct (Nat.eqb_spec i nb) as [-> | Hi]; [now symmetry|].
      rewrite (but_ne _ _ _ _ i B2 Hi). now apply (but_ne _ _ _ _ i B1).
    - left. exists (tick w1 + 0). split; [lia | assumption]. }
  pose proof (but_eq _ _ _ _ B2) as E2. cbn [map length app] in E2, T2.
  unfold swap_out_at. destruct v as [vb n]. destruct OW as (L & H'). cbn [vbuf vlen tbuf tbegin tend length] in *. subst n.
  destruct vb as [ob|].
  - destruct H' as (H1 & H2 & kk & E & M).
    assert (NE : ob <> nb) by congruence.
    assert (Eo : buffer w2 ob = Some (map Obj X1 ++ map Obj X2 ++ repeat Raw kk)).
    { rewrite (but_ne _ _ _ _ ob B2 NE), (but_ne _ _ _ _ ob B1 NE), E, XS, map_app, <- app_assoc. reflexivity. }
    rewrite <- LX1 in E2.
    destruct (relocate_cases fails nothrow X1 w2 ob nb _ _ NE Eo E2) as
      [(w3 & gone & R & Lg & Fg & Go & Gn & Gi & Gt) | (w3 & zs & tl & _ & Eq & R & Go & Gn & Gi & Th)];
      rewrite LX1 in R; rewrite R.
    + pose proof (forward_cases nothrow X2 w3 ob nb gone (repeat Raw kk) (map Obj X1 ++ [Obj a]) k NE Go) as FW.
      rewrite Lg, LX1, LX2, app_length, map_length, LX1 in FW. cbn [length] in FW.
      rewrite LX2 in Gn.
      destruct FW as [(w4 & gone2 & R4 & Lg2 & Fg2 & Go2 & Gn2 & Gi2 & Gt2) | (NT & w4 & j & Hj & R4 & Go2 & Gn2 & Gi2 & Th2)].
      * rewrite Gn, <- app_assoc. reflexivity.
      * rewrite R4.
        destruct (split_destroy_ok w4 ob 0 (gone ++ gone2) kk) as (w5 & E5 & B5 & T5);
          [rewrite Go2; cbn [repeat app]; now rewrite <- app_assoc | apply Forall_app; now split|].
        rewrite app_length, Lg, Lg2, LX1 in E5. cbn [Nat.add] in E5.
        replace (p + (length xs - p)) with (length xs) in E5 by lia. rewrite E5. left.
        eexists _, _. split; [reflexivity|]. unfold owns, inserted. cbn [vbuf vlen]. fold X1 X2.
        split; [rewrite app_length; cbn [length]; lia|].
        split; [rewrite <- NB; symmetry; apply H2; congruence|]. split.
        -- intros i Hi. rewrite B5. destruct (Nat.eqb_spec i ob) as [-> | Ho]; [now symmetry|].
           rewrite Gi2, Gi by assumption. rewrite (but_ne _ _ _ _ i B2 Hi), (but_ne _ _ _ _ i B1 Hi). now apply H2.
        -- exists k. rewrite (but_ne _ _ _ _ nb B5) by congruence. rewrite Gn2, map_app. cbn [map]. rewrite <- !app_assoc.
           split; [reflexivity|]. rewrite app_length. cbn [length]. unfold k. lia.
      * subst nothrow. rewrite R4. unfold unwind.
        destruct (split_destroy_ok w4 nb 0 (map Obj (X1 ++ a :: firstn j X2)) (length xs - p - j + k)) as (w5 & E5 & B5 & T5);
          [rewrite Gn2, map_app; cbn [map repeat app]; rewrite <- !app_assoc; reflexivity | apply objs_not_raw|].
        rewrite map_length, app_length in E5. cbn [length] in E5. rewrite firstn_length, LX1, LX2 in E5. cbn [Nat.add] in E5.
        replace (p + S (Nat.min j (length xs - p))) with (p + 1 + j) in E5 by lia. rewrite E5.
        right. exists w5. split; [reflexivity|]. split.
        -- intros i. rewrite B5. destruct (Nat.eqb_spec i nb) as [-> | Hi]; [now symmetry|].
           destruct (Nat.eq_dec i ob) as [-> | Ho].
           ++ rewrite Go2, <- Go, (relocate_copy _ _ _ _ _ _ _ NE R).
              rewrite (but_ne _ _ _ _ ob B2 NE). now apply (but_ne _ _ _ _ ob B1).
           ++ rewrite Gi2, Gi by assumption. rewrite (but_ne _ _ _ _ i B2 Hi). now apply (but_ne _ _ _ _ i B1).
        -- left. destruct Th2 as (q & Hq & Fq). exists q. split; [lia | assumption].
    + unfold unwind.
      destruct (split_destroy_ok w3 nb (length zs) (map Obj (tl ++ [a])) (length X2 + k)) as (w4 & E4 & B4 & T4);
        [rewrite Gn, map_app; cbn [map app]; now rewrite <- app_assoc | apply objs_not_raw|].
      rewrite map_length, app_length in E4. cbn [length] in E4.
      assert (LZ : length zs + length tl = p) by (rewrite <- app_length, <- Eq; exact LX1).
      replace (length zs + (length tl + 1)) with (p + 1) in E4 by lia. rewrite E4.
      right. exists w4. split; [reflexivity|]. split.
      * intros i. rewrite B4. destruct (Nat.eqb_spec i nb) as [-> | Hi]; [now symmetry|].
        destruct (Nat.eq_dec i ob) as [-> | Ho].
        -- rewrite Go, <- Eo, (but_ne _ _ _ _ ob B2 NE). now apply (but_ne _ _ _ _ ob B1).
        -- rewrite Gi by assumption. rewrite (but_ne _ _ _ _ i B2 Hi). now apply (but_ne _ _ _ _ i B1).
      * left. destruct Th as (q & Hq & Fq). exists q. split; [lia | assumption].
  - destruct H' as (EX & H'). assert (P0 : p = 0) by (rewrite EX in Hp; cbn in Hp; lia).
    assert (Q0 : length X2 = 0) by (rewrite LX2, EX; reflexivity). assert (L0 : length xs = 0) by (now rewrite EX).
    rewrite P0, L0. cbn [Nat.eqb andb].
    left. eexists _, _. split; [reflexivity|]. unfold owns. cbn [vbuf vlen]. rewrite EX.
    split; [reflexivity|]. split; [now rewrite <- H'|].
    split; [intros i Hi; rewrite (but_ne _ _ _ _ i B2 Hi), (but_ne _ _ _ _ i B1 Hi); apply H'|].
    exists k. rewrite P0, Q0 in E2. split; [exact E2|]. cbn. unfold k. lia.
Qed.
(** What insert in front of an element finds in a buffer with room. *)
Lemma middle_split : forall base (w : world) v xs p, owns ms base w v xs -> p < length xs < vcap w v ->
  exists b k ys y, v = TVec (Some b) (length xs) /\ xs = firstn p xs ++ ys ++ [y] /\ skipn p xs = ys ++ [y] /\
    length xs = p + S (length ys) /\ length (firstn p xs) = p /\
    buffer base b = None /\ (forall i, i <> b -> buffer w i = buffer base i) /\
    buffer w b = Some (map Obj (firstn p xs ++ ys) ++ Obj y :: Raw :: repeat Raw k) /\ (Z.of_nat (length xs + S k) <= ms)%Z.
Proof.
  intros base w v xs p (L & H) B. unfold vcap in B. destruct v as [vb n]. cbn [vbuf vlen] in *. subst n.
  destruct vb as [b|]; [|lia]. destruct H as (H1 & H2 & k & E & M). rewrite E, app_length, map_length, repeat_length in B.
  destruct k as [|k]; [lia|].
  assert (NE : skipn p xs <> []).
  { intros E'. assert (LS : length (skipn p xs) = length xs - p) by apply skipn_length. rewrite E' in LS. cbn in LS. lia. }
  destruct (exists_last NE) as (ys & y & EL). exists b, k, ys, y.
  assert (XS : xs = firstn p xs ++ ys ++ [y]) by (rewrite <- EL; symmetry; apply firstn_skipn).
  assert (LF : length (firstn p xs) = p) by (rewrite firstn_length; lia).
  split; [reflexivity|]. split; [exact XS|]. split; [exact EL|].
  split; [rewrite XS at 1; rewrite !app_length, LF; cbn; lia|]. split; [exact LF|].
  split; [assumption|]. split; [assumption|]. split; [|assumption].
  rewrite E. f_equal. rewrite XS at 1. rewrite app_assoc, map_app, <- app_assoc. reflexivity.
Qed.

Lemma insert_middle_move : forall base (w : world) v xs p a, owns ms base w v xs -> p < length xs < vcap w v ->
  (exists w' v', insert fails true ms w v p a = Fin w' v' /\ owns ms base w' v' (inserted xs p a)) \/
  (exists w' v', insert fails true ms w v p a = Exc w' v' /\
     owns_objects ms base w' v' (map Obj (firstn p xs) ++ Moved :: map Obj (skipn p xs)) /\ threw fails w w').
Proof.
  intros base w v xs p a OW B.
  destruct (middle_split base w v xs p OW B) as (b & k & ys & y & -> & XS & EL & LX & LF & H1 & H2 & E & M).
  unfold insert. cbn [vbuf vlen]. destruct (Nat.ltb_spec (length xs) p); [lia|].
  destruct (Nat.ltb_spec (length xs) (vcap w (TVec (Some b) (length xs)))); [|lia].
  destruct (Nat.eqb_spec p (length xs)); [lia|]. unfold shift_construct.
  assert (LP : length (map (@Obj A) (firstn p xs ++ ys)) = length xs - 1) by (rewrite map_length, app_length, LF; lia).
  rewrite (fetch_ok w b (length xs - 1) y _ _ E) by (now symmetry).
  destruct (place_ok w b (length xs) y (map Obj (firstn p xs ++ ys) ++ [Obj y]) (repeat Raw k)) as (w1 & -> & B1 & T1).
  { rewrite E, <- app_assoc. reflexivity. } { rewrite app_length, LP. cbn. lia. }
  pose proof (but_eq _ _ _ _ B1) as E1. rewrite <- app_assoc in E1. cbn [app] in E1. rewrite E1, upd_mid by (now symmetry).
  set (w2 := set_buffer w1 b _).
  assert (B2 : but w1 w2 b (Some (map Obj (firstn p xs ++ ys) ++ Moved :: Obj y :: repeat Raw k))) by (eapply set_but; exact E1).
  destruct (up_nothrow ys w2 b (map Obj (firstn p xs)) (Obj y :: repeat Raw k)) as (w3 & E3 & B3 & T3).
  { rewrite (but_eq _ _ _ _ B2), map_app, <- app_assoc. reflexivity. }
  rewrite map_length, LF in E3. replace (S (length xs) - 2 - p) with (length ys) by lia. rewrite E3.
  assert (BB : but w w3 b (Some (map Obj (firstn p xs) ++ Moved :: map Obj ys ++ Obj y :: repeat Raw k))).
  { eapply but_trans; [eapply but_trans; eassumption | exact B3]. }
  destruct (assign_full w3 b p a Moved _ _ (but_eq _ _ _ _ B3)) as [(F & w4 & -> & B4 & T4) | (F & w4 & -> & S4 & T4)];
    [now rewrite map_length | reflexivity | left | right].
  - eexists _, _. split; [reflexivity|]. pose proof (but_trans _ _ _ _ _ _ BB B4) as B5. unfold owns, inserted. cbn [vbuf vlen].
    split; [rewrite EL, !app_length, LF; cbn [length]; rewrite app_length; cbn; lia|]. split; [assumption|].
    split; [intros i Hi; rewrite (but_ne _ _ _ _ i B5 Hi); now apply H2|].
    exists k. rewrite (but_eq _ _ _ _ B5), EL, map_app. cbn [map]. rewrite map_app, <- !app_assoc. cbn [map app].
    rewrite <- app_assoc. split; [reflexivity|]. rewrite !app_length. cbn [length]. rewrite app_length, LF. cbn. lia.
  - eexists _, _. split; [reflexivity|]. split; [|exists (tick w3); split; [change (tick w2) with (tick w1) in T3; lia | assumption]].
    split; [cbn [vlen]; rewrite app_length, map_length, LF; cbn [length]; rewrite map_length, EL, app_length; cbn; lia|].
    split; [apply full_raw; apply Forall_app; split; [apply objs_not_raw | constructor; [reflexivity | apply objs_not_raw]]|].
    exists b, k. split; [reflexivity|]. split; [assumption|].
    split; [intros i Hi; rewrite S4, (but_ne _ _ _ _ i BB Hi); now apply H2|].
    rewrite S4, (but_eq _ _ _ _ BB), EL, map_app, <- !app_assoc. cbn [map app]. rewrite <- app_assoc.
    split; [reflexivity|]. rewrite app_length, map_length, LF. cbn [length]. rewrite app_length, map_length. cbn. lia.
Qed.

Lemma insert_middle_copy : forall base (w : world) v xs p a, owns ms base w v xs -> p < length xs < vcap w v ->
  (exists w' v', insert fails false ms w v p a = Fin w' v' /\ owns ms base w' v' (inserted xs p a)) \/
  (exists w' v' ys, insert fails false ms w v p a = Exc w' v' /\ owns ms base w' v' ys /\
     (ys = xs \/ doubled xs p ys) /\ threw fails w w').
Proof.
  intros base w v xs p a OW B.
  destruct (middle_split base w v xs p OW B) as (b & k & ys & y & Ev & XS & EL & LX & LF & H1 & H2 & E & M).
  unfold insert. rewrite (vlen_owns ms base w v xs OW). destruct (Nat.ltb_spec (length xs) p); [lia|].
  destruct (Nat.ltb_spec (length xs) (vcap w v)); [|lia].
  destruct (Nat.eqb_spec p (length xs)); [lia|]. unfold shift_construct.
  replace (vbuf v) with (Some b) by (now rewrite Ev). cbn [vlen].
  assert (LP : length (map (@Obj A) (firstn p xs ++ ys)) = length xs - 1) by (rewrite map_length, app_length, LF; lia).
  rewrite (fetch_ok w b (length xs - 1) y _ _ E) by (now symmetry).
  destruct (construct_cases fails w b (length xs) y (map Obj (firstn p xs ++ ys) ++ [Obj y]) (repeat Raw k)) as
    [(F1 & w1 & -> & B1 & T1) | (F1 & w1 & -> & S1 & T1)].
  { rewrite E, <- app_assoc. reflexivity. } { rewrite app_length, LP. cbn. lia. }
  2:{ right. exists w1, v, xs. split; [reflexivity|]. split; [eapply owns_same; eassumption|]. split; [now left|].
      exists (tick w). split; [lia | assumption]. }
  assert (DONE : forall zs w', length zs = S (length xs) -> but w w' b (Some (map Obj zs ++ repeat Raw k)) ->
            owns ms base w' (TVec (Some b) (S (length xs))) zs).
  { intros zs w' LZ B'. split; [now rewrite LZ|]. cbn [vbuf]. split; [assumption|].
    split; [intros i Hi; rewrite (but_ne _ _ _ _ i B' Hi); now apply H2|].
    exists k. rewrite (but_eq _ _ _ _ B'). split; [reflexivity | lia]. }
  replace (S (length xs) - 2 - p) with (length ys) by lia.
  destruct (up_copy ys w1 b (map Obj (firstn p xs)) y (Obj y :: repeat Raw k)) as
    [(w2 & E2 & B2 & T2) | (w2 & y1 & y2 & Eq & E2 & B2 & Th)].
  { rewrite (but_eq _ _ _ _ B1), !map_app, <- !app_assoc. reflexivity. }
  - rewrite map_length, LF in E2. rewrite E2. pose proof (but_trans _ _ _ _ _ _ B1 B2) as B3.
    assert (HD : exists h t, firstn 1 (ys ++ [y]) = [h] /\ ys ++ [y] = h :: t).
    { destruct ys as [|h t]; [exists y, [] | exists h, (t ++ [y])]; split; reflexivity. }
    destruct HD as (h & t & HD1 & HD2). rewrite HD1 in B2, B3. cbn [map app] in B2, B3.
    destruct (assign_full w2 b p a (Obj h) _ _ (but_eq _ _ _ _ B2)) as [(F & w4 & -> & B4 & T4) | (F & w4 & -> & S4 & T4)];
      [now rewrite map_length | reflexivity | left | right].
    + eexists _, _. split; [reflexivity|]. apply DONE.
      * unfold inserted. rewrite EL, app_length, LF. cbn [length]. rewrite app_length. cbn. lia.
      * pose proof (but_trans _ _ _ _ _ _ B3 B4) as B5. unfold inserted. rewrite EL, map_app. cbn [map].
        rewrite map_app, <- !app_assoc. cbn [map app]. rewrite <- app_assoc. exact B5.
    + eexists _, _, (firstn p xs ++ h :: ys ++ [y]). split; [reflexivity|]. split; [apply DONE|split].
      * rewrite app_length, LF. cbn [length]. rewrite app_length. cbn. lia.
      * intros i. rewrite S4, B3. destruct (i =? b); [|reflexivity]. rewrite map_app. cbn [map]. rewrite map_app, <- !app_assoc.
        cbn [map app]. rewrite <- app_assoc. reflexivity.
      * right. exists (firstn p xs), h, t. split; [rewrite <- HD2; exact XS|]. split; [lia|]. now rewrite HD2.
      * exists (tick w2). split; [lia | assumption].
  - rewrite map_length, LF in E2. rewrite E2. pose proof (but_trans _ _ _ _ _ _ B1 B2) as B3.
    assert (HD : exists h t, firstn 1 (y2 ++ [y]) = [h] /\ y2 ++ [y] = h :: t).
    { destruct y2 as [|h t]; [exists y, [] | exists h, (t ++ [y])]; split; reflexivity. }
    destruct HD as (h & t & HD1 & HD2). rewrite HD1 in B3.
    right. eexists _, _, (firstn p xs ++ y1 ++ h :: y2 ++ [y]). split; [reflexivity|]. split; [apply DONE|split].
    + rewrite !app_length, LF. cbn [length]. rewrite app_length. rewrite Eq, app_length in LX. cbn. lia.
    + intros i. rewrite B3. destruct (i =? b); [|reflexivity]. rewrite !map_app. cbn [map]. rewrite !map_app, <- !app_assoc.
      cbn [map app]. rewrite <- !app_assoc. reflexivity.
    + right. exists (firstn p xs ++ y1), h, t. split; [rewrite <- HD2, <- app_assoc; rewrite XS at 1; rewrite Eq, <- !app_assoc; reflexivity|].
      split; [rewrite app_length; lia|]. rewrite HD2, <- app_assoc. reflexivity.
    + destruct Th as (q & Hq & Fq). exists q. split; [lia | assumption].
Qed.

Lemma skipn_skipn2 : forall (X : Type) (l : list X) n m, skipn n (skipn m l) = skipn (m + n) l.
Proof.
  intros X. induction l as [|x l IH]; intros n m; [now rewrite !skipn_nil|].
  destruct m as [|m]; [reflexivity | apply IH].
Qed.

Lemma erase_cases : forall nothrow base (w : world) v xs p q, owns ms base w v xs -> p <= q <= length xs ->
  (exists w' v', erase fails nothrow w v p q = Fin w' v' /\ owns ms base w' v' (erased xs p q)) \/
  (nothrow = false /\ exists w' j, j < length xs - q /\ erase fails nothrow w v p q = Exc w' v /\
     owns ms base w' v (firstn p xs ++ firstn j (skipn q xs) ++ skipn (p + j) xs) /\ threw fails w w').
Proof.
  intros nothrow base w v xs p q OW B. unfold erase. rewrite (vlen_owns ms base w v xs OW).
  destruct (Nat.ltb_spec q p); [lia|]. destruct (Nat.ltb_spec (length xs) q); [lia|]. cbn [orb].
  destruct (Nat.eqb_spec p q) as [-> | NE].
  - left. exists w, v. split; [reflexivity|]. unfold erased. now rewrite firstn_skipn.
  - destruct v as [vb n]. destruct OW as (L & H'). cbn [vbuf vlen] in *. subst n.
    destruct vb as [b|]; [|destruct H' as (-> & _); cbn in B; lia].
    destruct H' as (H1 & H2 & k & E & M).
    set (X1 := firstn p xs). set (G := firstn (q - p) (skipn p xs)). set (Y := skipn q xs).
    assert (L1 : length X1 = p) by (unfold X1; rewrite firstn_length; lia).
    assert (LG : length G = q - p) by (unfold G; rewrite firstn_length, skipn_length; lia).
    assert (LY : length Y = length xs - q) by (unfold Y; rewrite skipn_length; lia).
    assert (GY : skipn p xs = G ++ Y).
    { unfold G, Y. replace (skipn q xs) with (skipn (q - p) (skipn p xs)); [symmetry; apply firstn_skipn|].
      rewrite skipn_skipn2. f_equal. lia. }
    assert (XS : xs = X1 ++ G ++ Y) by (rewrite <- GY; symmetry; apply firstn_skipn).
    assert (E' : buffer w b = Some (map Obj X1 ++ map Obj G ++ map Obj Y ++ repeat Raw k)).
    { rewrite E. f_equal. rewrite XS at 1. rewrite !map_app, <- !app_assoc. reflexivity. }
    pose proof (down_cases nothrow Y w b (map Obj X1) (map Obj G) (repeat Raw k)) as DC.
    rewrite !map_length, L1, LG, LY in DC. replace (p + (q - p)) with q in DC by lia.
    destruct DC as [(w1 & gone & E1 & Lg & Fg & B1 & T1) | (NT & w1 & j & Hj & E1 & B1 & Th)].
    + intros Z0. assert (LZ : length (map (@Obj A) G) = q - p) by (now rewrite map_length). rewrite Z0 in LZ. cbn in LZ. lia.
    + apply objs_not_raw.
    + exact E'.
    + rewrite E1. left. unfold cut_to. cbn [vbuf vlen]. destruct (Nat.ltb_spec (length xs) (p + (length xs - q))); [lia|].
      destruct (destroy_below_ok gone w1 b (map Obj (X1 ++ Y)) (repeat Raw k)) as (w2 & E2 & B2 & T2);
        [rewrite (but_eq _ _ _ _ B1), map_app, <- app_assoc; reflexivity | assumption|].
      rewrite map_length, app_length, L1, LY, Lg in E2.
      replace (p + (length xs - q) + (q - p)) with (length xs) in E2 by lia.
      replace (length xs - (p + (length xs - q))) with (q - p) by lia. rewrite E2.
      eexists _, _. split; [reflexivity|]. unfold erased. fold X1 Y.
      split; [cbn [vlen]; rewrite app_length; lia|]. cbn [vbuf]. split; [assumption|].
      split; [intros i Hi; rewrite (but_ne _ _ _ _ i B2 Hi), (but_ne _ _ _ _ i B1 Hi); now apply H2|].
      exists (length gone + k). rewrite (but_eq _ _ _ _ B2), <- repeat_app2. split; [reflexivity|]. rewrite app_length. lia.
    + rewrite E1. right. split; [assumption|]. exists w1, j. split; [assumption|]. split; [reflexivity|].
      split; [|assumption]. fold X1 Y.
      assert (SK : skipn (p + j) xs = skipn j (G ++ Y)) by (now rewrite <- GY, skipn_skipn2).
      rewrite SK. split; [cbn [vlen]; rewrite !app_length, firstn_length, skipn_length, app_length; lia|]. cbn [vbuf].
      split; [assumption|]. split; [intros i Hi; rewrite (but_ne _ _ _ _ i B1 Hi); now apply H2|].
      exists k. rewrite (but_eq _ _ _ _ B1), <- map_app, skipn_map, !map_app, <- !app_assoc.
      split; [reflexivity|]. rewrite !app_length, firstn_length, skipn_length, app_length. lia.
Qed.

Lemma pop_cases : forall nothrow base (w : world) v xs a, owns ms base w v (xs ++ [a]) ->
  (exists w' v', pop_back_value fails nothrow w v = Fin w' (v', Some a) /\ owns ms base w' v' xs) \/
  (nothrow = false /\ exists w', pop_back_value fails nothrow w v = Exc w' (v, None) /\ same_memory w w' /\ threw fails w w').
Proof.
  intros nothrow base w v xs a OW. pose proof OW as (L & H'). unfold pop_back_value. rewrite L.
  destruct (vbuf v) as [b|] eqn:EB; [|destruct H' as (EX & _); destruct xs; discriminate].
  destruct H' as (H1 & H2 & k & E & M). rewrite app_length. cbn [length]. rewrite Nat.add_1_r.
  rewrite map_app, <- app_assoc in E. cbn [map app] in E.
  rewrite (fetch_ok w b (length xs) a _ _ E) by (now rewrite map_length).
  assert (FX : firstn (length xs) (xs ++ [a]) = xs) by (rewrite firstn_app, Nat.sub_diag, firstn_all; cbn; apply app_nil_r).
  destruct nothrow.
  - destruct (cut_ok ms base w v (xs ++ [a]) (length xs) OW) as (w' & v' & -> & O'); [rewrite app_length; lia|].
    rewrite FX in O'. left. eauto.
  - destruct (fails (tick w)) eqn:F.
    + right. split; [reflexivity|]. eexists. split; [reflexivity|]. split; [intros i; reflexivity|].
      exists (tick w). cbn. split; [lia | assumption].
    + destruct (cut_ok ms base (next w) v (xs ++ [a]) (length xs)) as (w' & v' & -> & O');
        [exact (owns_same ms base w (next w) v _ (fun i => eq_refl) OW) | rewrite app_length; lia|].
      rewrite FX in O'. left. eauto.
Qed.
Lemma insert_end : forall nothrow base (w : world) v xs a, owns ms base w v xs -> length xs < vcap w v ->
  (exists w' v', insert fails nothrow ms w v (length xs) a = Fin w' v' /\ owns ms base w' v' (xs ++ [a])) \/
  (exists w', insert fails nothrow ms w v (length xs) a = Exc w' v /\ same_memory w w' /\ threw fails w w').
Proof.
  intros nothrow base w v xs a OW C. unfold insert. rewrite (vlen_owns ms base w v xs OW), Nat.ltb_irrefl, Nat.eqb_refl.
  destruct (Nat.ltb_spec (length xs) (vcap w v)); [|lia].
  destruct (at_end_cases fails ms base w v xs [a] OW) as
      [(_ & w' & v' & -> & O' & _) | (j & w' & v' & Hj & Q & F & -> & O' & Z0 & _ & _ & T)]; [cbn [length]; lia| |].
  - left. eauto.
  - cbn [length] in Hj. assert (j = 0) by lia. subst j. destruct (Z0 eq_refl) as (-> & M').
    right. exists w'. split; [reflexivity|]. split; [assumption|]. exists (tick w). rewrite Nat.add_0_r in F. split; [lia | assumption].
Qed.

Lemma istep_ok : forall nothrow base (w : world) v xs o, max_size_ok ms -> owns ms base w v xs -> valid_call ms (length xs) o ->
  (exists w' v' ys, istep fails nothrow ms w v o = Fin w' v' /\ owns ms base w' v' ys) \/
  (exists w' v', istep fails nothrow ms w v o = Exc w' v' /\
     ((nothrow = true -> forall p a, o <> IInsert p a) -> exists ys, owns ms base w' v' ys)).
Proof.
  intros nothrow base w v xs o MS OW V. destruct o as [o | p a | p q |]; cbn [istep valid_call] in *.
  - destruct (step_cases fails nothrow ms MS base w v xs o OW V) as [(w' & v' & -> & O') | (w' & v' & ys & -> & _ & O' & _)]; [left | right]; eauto 8.
  - destruct (owns_cap ms base w v xs OW) as (C & _).
    destruct (Nat.eq_dec (vcap w v) (length xs)) as [CE | CN].
    + destruct (insert_grow nothrow base w v xs p a MS OW V CE) as [(w' & v' & -> & O') | (w' & -> & S' & _)]; [left; eauto|].
      right. exists w', v. split; [reflexivity|]. intros _. exists xs. eapply owns_same; eassumption.
    + destruct (Nat.eq_dec p (length xs)) as [-> | PN].
      * destruct (insert_end nothrow base w v xs a OW ltac:(lia)) as [(w' & v' & -> & O') | (w' & -> & S' & _)]; [left; eauto|].
        right. exists w', v. split; [reflexivity|]. intros _. exists xs. eapply owns_same; eassumption.
      * destruct nothrow.
        -- destruct (insert_middle_move base w v xs p a OW ltac:(lia)) as [(w' & v' & -> & O') | (w' & v' & -> & _)]; [left; eauto|].
           right. exists w', v'. split; [reflexivity|]. intros H. exfalso. exact (H eq_refl p a eq_refl).
        -- destruct (insert_middle_copy base w v xs p a OW ltac:(lia)) as [(w' & v' & -> & O') | (w' & v' & ys & -> & O' & _)]; [left; eauto|].
           right. eauto.
  - destruct (erase_cases nothrow base w v xs p q OW V) as [(w' & v' & -> & O') | (_ & w' & j & _ & -> & O' & _)]; [left | right]; eauto.
  - destruct (exists_last (l := xs)) as (ys & y & ->); [intros ->; cbn in V; lia|].
    destruct (pop_cases nothrow base w v ys y OW) as [(w' & v' & -> & O') | (_ & w' & -> & S' & _)]; [left; eauto|].
    right. exists w', v. split; [reflexivity|]. intros _. exists (ys ++ [y]). eapply owns_same; eassumption.
Qed.

Lemma reached_owns : forall nothrow (start w : world) v, max_size_ok ms -> reached fails nothrow ms start w v ->
  exists xs, owns ms start w v xs.
Proof.
  intros nothrow start w v MS R. induction R as [|w v o w' v' R [xs OW] V E | w v o w' v' R [xs OW] V N E].
  - exists []. split; [reflexivity|]. cbn. split; [reflexivity | intros i; reflexivity].
  - rewrite (vlen_owns ms start w v xs OW) in V.
    destruct (istep_ok nothrow start w v xs o MS OW V) as [(w2 & v2 & ys & E2 & O') | (w2 & v2 & E2 & _)]; rewrite E2 in E; [|discriminate].
    injection E as <- <-. eauto.
  - rewrite (vlen_owns ms start w v xs OW) in V.
    destruct (istep_ok nothrow start w v xs o MS OW V) as [(w2 & v2 & ys & E2 & O') | (w2 & v2 & E2 & H)]; rewrite E2 in E; [discriminate|].
    injection E as <- <-. exact (H N).
Qed.
End Proofs.

(** * The statements of the properties *)

Lemma c351_grow :
  forall (A : Type) fails nothrow_move ms (base w : world A) v xs p a, max_size_ok ms -> owns ms base w v xs ->
  (p <= length xs)%nat -> vcap w v = length xs ->
  (exists w' v', insert fails nothrow_move ms w v p a = Fin w' v' /\ owns ms base w' v' (inserted xs p a)) \/
  (exists w', insert fails nothrow_move ms w v p a = Exc w' v /\ same_memory w w' /\
     (threw fails w w' \/ Z.of_nat (length xs) = ms)).
Proof.
  intros A fails nm ms base w v xs p a M O' P C. exact (insert_grow fails ms nm base w v xs p a M O' P C).
Qed.

Lemma c351_end :
  forall (A : Type) fails nothrow_move ms (base w : world A) v xs a, owns ms base w v xs -> (length xs < vcap w v)%nat ->
  (exists w' v', insert fails nothrow_move ms w v (length xs) a = Fin w' v' /\ owns ms base w' v' (xs ++ [a])) \/
  (exists w', insert fails nothrow_move ms w v (length xs) a = Exc w' v /\ same_memory w w' /\ threw fails w w').
Proof.
  intros A fails nm ms base w v xs a O' C. exact (insert_end fails ms nm base w v xs a O' C).
Qed.

Lemma c351_move :
  forall (A : Type) fails ms (base w : world A) v xs p a, owns ms base w v xs -> (p < length xs < vcap w v)%nat ->
  (exists w' v', insert fails true ms w v p a = Fin w' v' /\ owns ms base w' v' (inserted xs p a)) \/
  (exists w' v', insert fails true ms w v p a = Exc w' v' /\
     owns_objects ms base w' v' (map Obj (firstn p xs) ++ Moved :: map Obj (skipn p xs)) /\ threw fails w w').
Proof.
  intros A fails ms base w v xs p a O' C. exact (insert_middle_move fails ms base w v xs p a O' C).
Qed.

Lemma c351_copy :
  forall (A : Type) fails ms (base w : world A) v xs p a, owns ms base w v xs -> (p < length xs < vcap w v)%nat ->
  (exists w' v', insert fails false ms w v p a = Fin w' v' /\ owns ms base w' v' (inserted xs p a)) \/
  (exists w' v' ys, insert fails false ms w v p a = Exc w' v' /\ owns ms base w' v' ys /\
     (ys = xs \/ doubled xs p ys) /\ threw fails w w').
Proof.
  intros A fails ms base w v xs p a O' C. exact (insert_middle_copy fails ms base w v xs p a O' C).
Qed.

Lemma c351_destructor :
  forall (A : Type) ms (base w : world A) v ss, owns_objects ms base w v ss ->
  exists w', vdeallocate w v = Some w' /\ same_memory base w'.
Proof.
  intros A ms base w v ss H. exact (objects_dealloc ms base w v ss H).
Qed.

Lemma c352_erase :
  forall (A : Type) fails nothrow_move ms (base w : world A) v xs p q, owns ms base w v xs -> (p <= q <= length xs)%nat ->
  (exists w' v', erase fails nothrow_move w v p q = Fin w' v' /\ owns ms base w' v' (erased xs p q)) \/
  (nothrow_move = false /\ exists w' j, (j < length xs - q)%nat /\ erase fails nothrow_move w v p q = Exc w' v /\
     owns ms base w' v (firstn p xs ++ firstn j (skipn q xs) ++ skipn (p + j) xs) /\ threw fails w w').
Proof.
  intros A fails nm ms base w v xs p q O' B. exact (erase_cases fails ms nm base w v xs p q O' B).
Qed.

Lemma c352_pop_back_value :
  forall (A : Type) fails nothrow_move ms (base w : world A) v xs a, owns ms base w v (xs ++ [a]) ->
  (exists w' v', pop_back_value fails nothrow_move w v = Fin w' (v', Some a) /\ owns ms base w' v' xs) \/
  (nothrow_move = false /\ exists w', pop_back_value fails nothrow_move w v = Exc w' (v, None) /\
     same_memory w w' /\ threw fails w w').
Proof.
  intros A fails nm ms base w v xs a O'. exact (pop_cases fails ms nm base w v xs a O').
Qed.

Lemma c353_history :
  forall (A : Type) fails nothrow_move ms (start w : world A) v, max_size_ok ms ->
  reached fails nothrow_move ms start w v ->
  (forall o, valid_call ms (vlen v) o -> istep fails nothrow_move ms w v o <> Und) /\
  exists xs w', owns ms start w v xs /\ vdeallocate w v = Some w' /\ same_memory start w'.
Proof.
  intros A fails nm ms start w v M R. destruct (reached_owns fails ms nm start w v M R) as (xs & O'). split.
  - intros o V. rewrite (vlen_owns ms start w v xs O') in V.
    destruct (istep_ok fails ms nm start w v xs o M O' V) as [(w' & v' & ys & -> & _) | (w' & v' & -> & _)]; discriminate.
  - destruct (vdealloc_ok ms start w v xs O') as (w' & E & S' & _). eauto.
Qed.
