(** Proofs about insert of several elements when allocations and copies throw. *)
From Coq Require Import Lia.
From Verif Require Import Common CommonProofs Ints Vector SpecVector VectorThrow SpecVectorThrow VectorThrowProofs
  VectorThrowInsert SpecVectorThrowInsert VectorThrowInsertProofs VectorThrowMany.
Open Scope Z_scope.

Section Proofs.
Context {A : Type}.
Variable fails : nat -> bool.
Variable ms : Z.
Local Notation world := (world A).
Local Open Scope nat_scope.

Lemma many_grow : forall nothrow base (w : world) v xs p l, max_size_ok ms -> owns ms base w v xs ->
  p <= length xs -> vcap w v < length xs + length l -> (Z.of_nat (length l) < 2 ^ 63)%Z ->
  (exists w' v', insert_new_buffer fails nothrow ms w v p l = Fin w' v' /\ owns ms base w' v' (firstn p xs ++ l ++ skipn p xs)) \/
  (exists w', insert_new_buffer fails nothrow ms w v p l = Exc w' v /\ same_memory w w' /\
     (threw fails w w' \/ (ms < Z.of_nat (length xs) + Z.of_nat (length l))%Z)).
Proof.
  intros nothrow base w v xs p l MS OW Hp HC HL. unfold insert_new_buffer. rewrite (vlen_owns ms base w v xs OW).
  pose proof (cap_ms ms MS base w v xs OW) as CM. destruct (owns_cap ms base w v xs OW) as (CG & _).
  assert (SZ : sz (Z.of_nat (length xs) + Z.of_nat (length l)) = (Z.of_nat (length xs) + Z.of_nat (length l))%Z).
  { destruct MS as [M1 M2]. unfold sz. rewrite Z.mod_small by lia. reflexivity. }
  rewrite SZ.
  destruct (recommend_cases ms MS (vcap w v) (Z.of_nat (length xs) + Z.of_nat (length l))) as [(_ & cap & -> & C) | (G & ->)]; [lia | lia | |].
  2:{ right. exists w. split; [reflexivity|]. split; [intros i; reflexivity|]. right. lia. }
  unfold split_make. destruct (Z.eqb_spec cap 0) as [-> | NZ]; [lia|].
  destruct (allocate_cases fails w (Z.to_nat cap)) as [(F & w1 & nb & -> & NB & B1 & T1) | (F & w1 & -> & M & T1)].
  2:{ right. exists w1. split; [reflexivity|]. split; [assumption|]. left. exists (tick w). split; [lia | assumption]. }
  unfold split_construct. cbn [tbuf tend tbegin].
  set (k := Z.to_nat cap - length xs - length l).
  set (X1 := firstn p xs). set (X2 := skipn p xs).
  assert (LX1 : length X1 = p) by (unfold X1; rewrite firstn_length; lia).
  assert (LX2 : length X2 = length xs - p) by (unfold X2; rewrite skipn_length; lia).
  assert (XS : xs = X1 ++ X2) by (symmetry; apply firstn_skipn).
  assert (E1 : buffer w1 nb = Some (repeat Raw p ++ repeat Raw (length l + (length X2 + k)))).
  { rewrite (but_eq _ _ _ _ B1), <- repeat_app2. do 2 f_equal. unfold k. lia. }
  destruct (construct_list_cases fails l w1 nb p (repeat Raw p) (length X2 + k) E1) as
    [(Q & w2 & -> & B2 & T2) | (j & w2 & Hj & Q & F2 & -> & B2 & T2)]; [now rewrite repeat_length| |].
  2:{ unfold unwind.
    destruct (split_destroy_ok w2 nb p (map Obj (firstn j l)) (length l - j + (length X2 + k))) as (w3 & E3 & B3 & T3);
      [exact (but_eq _ _ _ _ B2) | apply objs_not_raw |].
    rewrite map_length, firstn_length, Nat.min_l in E3 by lia. rewrite E3. right. exists w3. split; [reflexivity|]. split.
    - intros i. rewrite B3. destruct (Nat.eqb_spec i nb) as [-> | Hi]; [now symmetry|].
      rewrite (but_ne _ _ _ _ i B2 Hi). now apply (but_ne _ _ _ _ i B1).
    - left. exists (tick w1 + j). split; [lia | assumption]. }
  pose proof (but_eq _ _ _ _ B2) as E2.
  unfold swap_out_at. destruct v as [vb n]. destruct OW as (L & H'). cbn [vbuf vlen tbuf tbegin tend] in *. subst n.
  destruct vb as [ob|].
  - destruct H' as (H1 & H2 & kk & E & M).
    assert (NE : ob <> nb) by congruence.
    assert (Eo : buffer w2 ob = Some (map Obj X1 ++ map Obj X2 ++ repeat Raw kk)).
    { rewrite (but_ne _ _ _ _ ob B2 NE), (but_ne _ _ _ _ ob B1 NE), E, XS, map_app, <- app_assoc. reflexivity. }
    rewrite <- LX1 in E2.
    destruct (relocate_cases fails nothrow X1 w2 ob nb _ _ NE Eo E2) as
      [(w3 & gone & R & Lg & Fg & Go & Gn & Gi & Gt) | (w3 & zs & tl & _ & Eq & R & Go & Gn & Gi & Th)];
      rewrite LX1 in R; rewrite R.
    + pose proof (forward_cases fails nothrow X2 w3 ob nb gone (repeat Raw kk) (map Obj X1 ++ map Obj l) k NE Go) as FW.
      rewrite Lg, LX1, LX2, app_length, !map_length, LX1 in FW.
      rewrite LX2 in Gn.
      destruct FW as [(w4 & gone2 & R4 & Lg2 & Fg2 & Go2 & Gn2 & Gi2 & Gt2) | (NT & w4 & j & Hj & R4 & Go2 & Gn2 & Gi2 & Th2)].
      * rewrite Gn, <- app_assoc. reflexivity.
      * rewrite R4.
        destruct (split_destroy_ok w4 ob 0 (gone ++ gone2) kk) as (w5 & E5 & B5 & T5);
          [rewrite Go2; cbn [repeat app]; now rewrite <- app_assoc | apply Forall_app; now split|].
        rewrite app_length, Lg, Lg2, LX1 in E5. cbn [Nat.add] in E5.
        replace (p + (length xs - p)) with (length xs) in E5 by lia. rewrite E5. left.
        eexists _, _. split; [reflexivity|]. unfold owns. cbn [vbuf vlen].
        split; [rewrite !app_length; lia|].
        split; [rewrite <- NB; symmetry; apply H2; congruence|]. split.
        -- intros i Hi. rewrite B5. destruct (Nat.eqb_spec i ob) as [-> | Ho]; [now symmetry|].
           rewrite Gi2, Gi by assumption. rewrite (but_ne _ _ _ _ i B2 Hi), (but_ne _ _ _ _ i B1 Hi). now apply H2.
        -- exists k. rewrite (but_ne _ _ _ _ nb B5) by congruence. rewrite Gn2, !map_app. rewrite <- !app_assoc.
           split; [reflexivity|]. rewrite !app_length. unfold k. lia.
      * subst nothrow. rewrite R4. unfold unwind.
        destruct (split_destroy_ok w4 nb 0 (map Obj (X1 ++ l ++ firstn j X2)) (length xs - p - j + k)) as (w5 & E5 & B5 & T5);
          [rewrite Gn2, !map_app; cbn [repeat app]; rewrite <- !app_assoc; reflexivity | apply objs_not_raw|].
        rewrite map_length, !app_length in E5. rewrite firstn_length, LX1, LX2 in E5. cbn [Nat.add] in E5.
        replace (p + (length l + Nat.min j (length xs - p))) with (p + length l + j) in E5 by lia. rewrite E5.
        right. exists w5. split; [reflexivity|]. split.
        -- intros i. rewrite B5. destruct (Nat.eqb_spec i nb) as [-> | Hi]; [now symmetry|].
           destruct (Nat.eq_dec i ob) as [-> | Ho].
           ++ rewrite Go2, <- Go, (relocate_copy fails _ _ _ _ _ _ _ NE R).
              rewrite (but_ne _ _ _ _ ob B2 NE). now apply (but_ne _ _ _ _ ob B1).
           ++ rewrite Gi2, Gi by assumption. rewrite (but_ne _ _ _ _ i B2 Hi). now apply (but_ne _ _ _ _ i B1).
        -- left. destruct Th2 as (q & Hq & Fq). exists q. split; [lia | assumption].
    + unfold unwind.
      destruct (split_destroy_ok w3 nb (length zs) (map Obj (tl ++ l)) (length X2 + k)) as (w4 & E4 & B4 & T4);
        [rewrite Gn, map_app; now rewrite <- app_assoc | apply objs_not_raw|].
      rewrite map_length, app_length in E4.
      assert (LZ : length zs + length tl = p) by (rewrite <- app_length, <- Eq; exact LX1).
      replace (length zs + (length tl + length l)) with (p + length l) in E4 by lia. rewrite E4.
      right. exists w4. split; [reflexivity|]. split.
      * intros i. rewrite B4. destruct (Nat.eqb_spec i nb) as [-> | Hi]; [now symmetry|].
        destruct (Nat.eq_dec i ob) as [-> | Ho].
        -- rewrite Go, <- Eo, (but_ne _ _ _ _ ob B2 NE). now apply (but_ne _ _ _ _ ob B1).
        -- rewrite Gi by assumption. rewrite (but_ne _ _ _ _ i B2 Hi). now apply (but_ne _ _ _ _ i B1).
      * left. destruct Th as (q & Hq & Fq). exists q. split; [lia | assumption].
  - destruct H' as (EX & H'). assert (P0 : p = 0) by (rewrite EX in Hp; cbn in Hp; lia).
    assert (Q0 : length X2 = 0) by (rewrite LX2, EX; reflexivity). assert (L0 : length xs = 0) by (now rewrite EX).
    rewrite P0, L0. cbn [Nat.eqb andb].
    assert (X1E : X1 = []) by (apply length_zero_iff_nil; lia). assert (X2E : X2 = []) by (apply length_zero_iff_nil; lia).
    rewrite X1E, X2E, app_nil_r.
    left. eexists _, _. split; [reflexivity|]. unfold owns. cbn [vbuf vlen app].
    split; [reflexivity|]. split; [now rewrite <- H'|].
    split; [intros i Hi; rewrite (but_ne _ _ _ _ i B2 Hi), (but_ne _ _ _ _ i B1 Hi); apply H'|].
    exists k. rewrite P0, Q0 in E2. split; [exact E2|]. unfold k. lia.
Qed.

(** ** Inside of the buffer *)
Local Notation full := (Forall (fun s : slot A => is_raw s = false)).

Lemma construct_one : forall nothrow (w : world) b i j a pre mid post,
  buffer w b = Some (pre ++ Obj a :: mid ++ Raw :: post) -> i = length pre -> j = length pre + S (length mid) ->
  (exists w' g, shift_construct fails nothrow w b i b j = Fin w' tt /\ is_raw g = false /\
     but w w' b (Some (pre ++ g :: mid ++ Obj a :: post)) /\ tick w <= tick w') \/
  (exists w', shift_construct fails nothrow w b i b j = Exc w' tt /\ same_memory w w' /\ threw fails w w').
Proof.
  intros nothrow w b i j a pre mid post E Hi Hj. unfold shift_construct. rewrite (fetch_ok w b i a pre _ E Hi).
  assert (E' : buffer w b = Some ((pre ++ Obj a :: mid) ++ Raw :: post)) by (rewrite E, <- app_assoc; reflexivity).
  assert (Lj : j = length (pre ++ Obj a :: mid)) by (rewrite app_length; cbn [length]; lia).
  destruct nothrow.
  - left. destruct (place_ok w b j a _ _ E' Lj) as (w1 & -> & B1 & T1). pose proof (but_eq _ _ _ _ B1) as E1.
    rewrite <- app_assoc in E1. cbn [app] in E1. rewrite E1, upd_mid by assumption. eexists _, Moved. split; [reflexivity|].
    split; [reflexivity|]. split; [|cbn; lia]. eapply but_trans; [exact B1|]. eapply set_but. exact E1.
  - destruct (construct_cases fails w b j a _ _ E' Lj) as [(F & w1 & -> & B1 & T1) | (F & w1 & -> & S1 & T1)]; [left | right].
    + exists w1, (Obj a). split; [reflexivity|]. split; [reflexivity|]. rewrite <- app_assoc in B1. split; [exact B1 | lia].
    + exists w1. split; [reflexivity|]. split; [assumption|]. exists (tick w). split; [lia | assumption].
Qed.

Lemma assign_one : forall nothrow (w : world) b i j a s pre mid post,
  buffer w b = Some (pre ++ Obj a :: mid ++ s :: post) -> i = length pre -> j = length pre + S (length mid) -> is_raw s = false ->
  (exists w' g, shift_assign fails nothrow w b i j = Fin w' tt /\ is_raw g = false /\
     but w w' b (Some (pre ++ g :: mid ++ Obj a :: post)) /\ tick w <= tick w') \/
  (exists w', shift_assign fails nothrow w b i j = Exc w' tt /\ same_memory w w' /\ threw fails w w').
Proof.
  intros nothrow w b i j a s pre mid post E Hi Hj R. unfold shift_assign. rewrite (fetch_ok w b i a pre _ E Hi).
  assert (E' : buffer w b = Some ((pre ++ Obj a :: mid) ++ s :: post)) by (rewrite E, <- app_assoc; reflexivity).
  assert (Lj : j = length (pre ++ Obj a :: mid)) by (rewrite app_length; cbn [length]; lia).
  destruct nothrow.
  - left. rewrite E', nth_mid, upd_mid by assumption. rewrite <- app_assoc. cbn [app]. rewrite upd_mid by assumption.
    exists (set_buffer w b (Some (pre ++ Moved :: mid ++ Obj a :: post))), Moved.
    split; [destruct s; [discriminate | reflexivity..]|]. split; [reflexivity|]. split; [|cbn; lia]. eapply set_but. exact E.
  - destruct (assign_full fails w b j a s _ _ E' Lj R) as [(F & w1 & -> & B1 & T1) | (F & w1 & -> & S1 & T1)]; [left | right].
    + exists w1, (Obj a). split; [reflexivity|]. split; [reflexivity|]. rewrite <- app_assoc in B1. split; [exact B1 | lia].
    + exists w1. split; [reflexivity|]. split; [assumption|]. exists (tick w). split; [lia | assumption].
Qed.

Lemma later_threw : forall (w w1 w2 : world), tick w <= tick w1 -> threw fails w1 w2 -> threw fails w w2.
Proof. intros w w1 w2 L (k & Hk & F). exists k. split; [lia | assumption]. Qed.

Lemma forward_in : forall nothrow ys (w : world) b pre mid k,
  buffer w b = Some (pre ++ map Obj ys ++ mid ++ repeat Raw (length ys + k)) ->
  exists gone, length gone = length ys /\ full gone /\
  ((exists w', relocate_forward fails nothrow w b (length pre) (length ys) b (length pre + length ys + length mid) =
       Fin w' (length pre + length ys + length mid + length ys) /\
     but w w' b (Some (pre ++ gone ++ mid ++ map Obj ys ++ repeat Raw k)) /\ tick w <= tick w') \/
   (exists w' j, j < length ys /\
     relocate_forward fails nothrow w b (length pre) (length ys) b (length pre + length ys + length mid) =
       Exc w' (length pre + length ys + length mid + j) /\
     but w w' b (Some (pre ++ gone ++ mid ++ map Obj (firstn j ys) ++ repeat Raw (length ys - j + k))) /\ threw fails w w')).
Proof.
  intros nothrow ys. induction ys as [|y ys IH]; intros w b pre mid k E.
  - exists []. split; [reflexivity|]. split; [constructor|]. left. exists w. cbn [length relocate_forward]. rewrite !Nat.add_0_r.
    split; [reflexivity|]. split; [|lia]. cbn [map app length Nat.add] in *. now apply but_refl.
  - cbn [length map relocate_forward Nat.add repeat app] in *.
    destruct (construct_one nothrow w b (length pre) (length pre + S (length ys) + length mid) y pre (map Obj ys ++ mid) (repeat Raw (length ys + k))) as
      [(w1 & g & -> & Rg & B1 & T1) | (w1 & -> & S1 & Th)].
    + rewrite E, <- app_assoc. reflexivity.
    + reflexivity.
    + rewrite app_length, map_length. lia.
    + destruct (IH w1 b (pre ++ [g]) (mid ++ [Obj y]) k) as (gone & Lg & Fg & H).
      { rewrite (but_eq _ _ _ _ B1), <- !app_assoc. reflexivity. }
      exists (g :: gone). split; [cbn; lia|]. split; [now constructor|].
      rewrite !app_length in H. cbn [length] in H. replace (length pre + 1 + length ys + (length mid + 1)) with (S (length pre + S (length ys) + length mid)) in H by lia.
      replace (length pre + 1) with (S (length pre)) in H by lia.
      destruct H as [(w2 & -> & B2 & T2) | (w2 & j & Hj & -> & B2 & Th)]; [left | right].
      * exists w2. split; [f_equal; lia|]. split; [|lia]. rewrite <- !app_assoc in B2. cbn [app] in *. eapply but_trans; eassumption.
      * exists w2, (S j). split; [lia|]. split; [f_equal; lia|]. split; [|eapply later_threw; eassumption].
        rewrite <- !app_assoc in B2. cbn [app firstn map] in *. eapply but_trans; eassumption.
    + exists (map Obj (y :: ys)). split; [now rewrite map_length|]. split; [apply objs_not_raw|]. right. exists w1, 0.
      split; [lia|]. split; [f_equal; lia|]. split; [|assumption]. apply same_but; [assumption|]. rewrite E. reflexivity.
Qed.

Lemma up_by : forall nothrow ys (w : world) b pre gap post, gap <> [] -> full gap ->
  buffer w b = Some (pre ++ map Obj ys ++ gap ++ post) ->
  (exists w' gap', move_up_by fails nothrow w b (length pre) (length ys) (length gap) = Fin w' tt /\ length gap' = length gap /\ full gap' /\
     but w w' b (Some (pre ++ gap' ++ map Obj ys ++ post)) /\ tick w <= tick w') \/
  (exists w' ss, move_up_by fails nothrow w b (length pre) (length ys) (length gap) = Exc w' tt /\ length ss = length ys + length gap /\ full ss /\
     but w w' b (Some (pre ++ ss ++ post)) /\ threw fails w w').
Proof.
  intros nothrow ys. induction ys as [|y ys IH] using rev_ind; intros w b pre gap post N Fg E.
  - left. exists w, gap. split; [reflexivity|]. split; [reflexivity|]. split; [assumption|]. split; [now apply but_refl | lia].
  - destruct (exists_last N) as (gap0 & g & ->). rewrite !app_length. cbn [length]. replace (length ys + 1) with (S (length ys)) by lia. cbn [move_up_by].
    apply Forall_app in Fg. destruct Fg as (F0 & F1). inversion F1 as [|? ? Rg _]; subst.
    rewrite map_app in E. cbn [map] in E.
    destruct (assign_one nothrow w b (length pre + length ys) (length pre + length ys + (length gap0 + 1)) y g (pre ++ map Obj ys) gap0 post) as
      [(w1 & h & -> & Rh & B1 & T1) | (w1 & -> & S1 & Th)].
    + rewrite E, <- !app_assoc. reflexivity.
    + now rewrite app_length, map_length.
    + rewrite app_length, map_length. lia.
    + assumption.
    + destruct (IH w1 b pre (h :: gap0) (Obj y :: post)) as [(w2 & gap' & E2 & Lg & Fg & B2 & T2) | (w2 & ss & E2 & Ls & Fs & B2 & Th)].
      * discriminate.
      * now constructor.
      * rewrite (but_eq _ _ _ _ B1), <- !app_assoc. reflexivity.
      * cbn [length] in E2. replace (length gap0 + 1) with (S (length gap0)) by lia. rewrite E2. left. exists w2, gap'. split; [reflexivity|].
        split; [cbn [length] in Lg; lia|]. split; [assumption|]. split; [|lia]. rewrite map_app, <- !app_assoc. eapply but_trans; eassumption.
      * cbn [length] in E2. replace (length gap0 + 1) with (S (length gap0)) by lia. rewrite E2. right. exists w2, (ss ++ [Obj y]). split; [reflexivity|].
        split; [rewrite app_length; cbn [length] in *; lia|]. split; [apply Forall_app; split; [assumption | now repeat constructor]|].
        split; [rewrite <- !app_assoc; eapply but_trans; eassumption | eapply later_threw; eassumption].
    + right. exists w1, (map Obj ys ++ Obj y :: gap0 ++ [g]). split; [reflexivity|].
      split; [rewrite app_length, map_length; cbn [length]; rewrite app_length; cbn [length]; lia|].
      split; [apply Forall_app; split; [apply objs_not_raw|]; constructor; [reflexivity|]; apply Forall_app; split; [assumption | now repeat constructor]|].
      split; [|assumption]. apply same_but; [assumption|]. rewrite E, <- !app_assoc. cbn [app]. rewrite <- app_assoc. reflexivity.
Qed.

Lemma fill_cases : forall l (w : world) b pre ss post, length ss = length l -> full ss ->
  buffer w b = Some (pre ++ ss ++ post) ->
  (exists w', assign_list fails w b (length pre) l = Fin w' tt /\ but w w' b (Some (pre ++ map Obj l ++ post)) /\ tick w <= tick w') \/
  (exists w' ss', assign_list fails w b (length pre) l = Exc w' tt /\ length ss' = length l /\ full ss' /\
     but w w' b (Some (pre ++ ss' ++ post)) /\ threw fails w w').
Proof.
  induction l as [|a l IH]; intros w b pre ss post L F E.
  - destruct ss; [|discriminate]. left. exists w. split; [reflexivity|]. split; [now apply but_refl | lia].
  - destruct ss as [|s ss]; [discriminate|]. cbn [length] in L. inversion F as [|? ? Rs Fs]; subst. cbn [assign_list map app] in *.
    destruct (assign_full fails w b (length pre) a s pre (ss ++ post) E eq_refl Rs) as [(F1 & w1 & -> & B1 & T1) | (F1 & w1 & -> & S1 & T1)].
    + destruct (IH w1 b (pre ++ [Obj a]) ss post) as [(w2 & E2 & B2 & T2) | (w2 & ss' & E2 & L2 & F2 & B2 & Th)]; [lia | assumption | | |].
      * rewrite (but_eq _ _ _ _ B1), <- app_assoc. reflexivity.
      * rewrite app_length in E2. cbn [length] in E2. replace (S (length pre)) with (length pre + 1) by lia. rewrite E2. left. exists w2. split; [reflexivity|].
        rewrite <- app_assoc in B2. split; [eapply but_trans; eassumption | lia].
      * rewrite app_length in E2. cbn [length] in E2. replace (S (length pre)) with (length pre + 1) by lia. rewrite E2. right. exists w2, (Obj a :: ss').
        split; [reflexivity|]. split; [cbn; lia|]. split; [now constructor|]. rewrite <- app_assoc in B2.
        split; [eapply but_trans; eassumption | eapply later_threw; [|eassumption]; lia].
    + right. exists w1, (s :: ss). split; [reflexivity|]. split; [cbn; lia|]. split; [assumption|].
      split; [apply same_but; assumption | exists (tick w); split; [lia | assumption]].
Qed.

Lemma many_room : forall nothrow base (w : world) v xs p l, owns ms base w v xs -> p <= length xs -> l <> [] ->
  length xs + length l <= vcap w v ->
  (exists w' v', insert_many fails nothrow ms w v p l = Fin w' v' /\ owns ms base w' v' (firstn p xs ++ l ++ skipn p xs)) \/
  (exists w' v' rest, insert_many fails nothrow ms w v p l = Exc w' v' /\
     owns_objects ms base w' v' (map Obj (firstn p xs) ++ rest) /\
     length xs <= p + length rest <= length xs + length l /\ threw fails w w').
Proof.
  intros nothrow base w v xs p l OW Hp NL HC.
  assert (L0 : 0 < length l) by (destruct l; [contradiction | cbn; lia]).
  unfold insert_many. pose proof HC as HC'. unfold vcap in HC. destruct v as [[b|] n]; cbn [vbuf] in HC; [|lia].
  destruct OW as (L & H1 & H2 & k & E & M). cbn [vlen] in L. subst n. rewrite E, app_length, map_length, repeat_length in HC.
  cbn [vlen vbuf]. destruct (Nat.ltb_spec (length xs) p); [lia|]. destruct (Nat.eqb_spec (length l) 0); [lia|].
  destruct (Nat.leb_spec (length l) (vcap w (TVec (Some b) (length xs)) - length xs)); [|lia]. cbn zeta.
  assert (DONE : forall w' ss k', but w w' b (Some (ss ++ repeat Raw k')) -> full ss -> length ss + k' = length xs + k ->
            owns_objects ms base w' (TVec (Some b) (length ss)) ss).
  { intros w' ss k' B' F' L'. split; [reflexivity|]. split; [now apply full_raw|]. exists b, k'. split; [reflexivity|]. split; [assumption|].
    split; [intros i Hi; rewrite (but_ne _ _ _ _ i B' Hi); now apply H2|]. split; [exact (but_eq _ _ _ _ B') | lia]. }
  set (X1 := firstn p xs). set (X2 := skipn p xs).
  assert (LX1 : length X1 = p) by (unfold X1; rewrite firstn_length; lia).
  assert (LX2 : length X2 = length xs - p) by (unfold X2; rewrite skipn_length; lia).
  assert (XS : xs = X1 ++ X2) by (symmetry; apply firstn_skipn).
  destruct (Nat.ltb_spec (length xs - p) (length l)) as [TL | TL].
  - (* some of the values go behind the last element *)
    set (l2 := skipn (length xs - p) l). set (l1 := firstn (length xs - p) l).
    assert (Ll2 : length l2 = length l - (length xs - p)) by (unfold l2; now rewrite skipn_length).
    assert (Ll1 : length l1 = length xs - p) by (unfold l1; rewrite firstn_length; lia).
    assert (LL : l = l1 ++ l2) by (symmetry; apply firstn_skipn).
    unfold at_end. cbn [vbuf vlen].
    destruct (construct_list_cases fails l2 w b (length xs) (map Obj xs) (length X2 + (k - length l))) as
      [(Q & w1 & -> & B1 & T1) | (j & w1 & Hj & Q & F1 & -> & B1 & T1)].
    { rewrite E. do 3 f_equal. lia. } { now rewrite map_length. }
    2:{ right. exists w1. exists (TVec (Some b) (length xs + j)). exists (map Obj (X2 ++ firstn j l2)). split; [reflexivity|].
        rewrite <- map_app, app_assoc, <- XS. split; [|split].
        - replace (length xs + j) with (length (map (@Obj A) (xs ++ firstn j l2))) by (rewrite map_length, app_length, firstn_length; lia).
          eapply DONE with (k' := length l2 - j + (length X2 + (k - length l))); [rewrite map_app, <- app_assoc; exact B1 | apply objs_not_raw |].
          rewrite map_length, app_length, firstn_length. lia.
        - rewrite map_length, app_length, firstn_length. lia.
        - exists (tick w + j). split; [lia | assumption]. }
    fold l1. cbn [vlen]. destruct (Nat.eqb_spec (length l1) 0) as [Z1 | Z1].
    + left. eexists _, _. split; [reflexivity|]. apply owns_objects_owns.
      assert (X2E : X2 = []) by (apply length_zero_iff_nil; lia). assert (l1E : l1 = []) by (apply length_zero_iff_nil; lia).
      rewrite X2E, app_nil_r, LL, l1E. cbn [app]. rewrite X2E, app_nil_r in XS. rewrite <- XS.
      replace (length xs + length l2) with (length (map (@Obj A) (xs ++ l2))) by (now rewrite map_length, app_length).
      eapply DONE; [rewrite map_app, <- app_assoc; exact B1 | apply objs_not_raw |]. rewrite map_length, app_length. lia.
    + unfold move_range. replace (length xs + length l2 - (p + length l)) with 0 by lia. rewrite Nat.add_0_r.
      destruct (forward_in nothrow X2 w1 b (map Obj X1) (map Obj l2) (k - length l)) as (gone & Lg & Fg & H').
      { rewrite (but_eq _ _ _ _ B1). rewrite XS at 1. rewrite map_app, <- app_assoc. reflexivity. }
      rewrite !map_length, LX1 in H'. rewrite <- LX2. replace (length xs + length l2) with (p + length X2 + length l2) by lia.
      destruct H' as [(w2 & -> & B2 & T2) | (w2 & j & Hj & -> & B2 & Th)].
      * cbn [move_up_by].
        destruct (fill_cases l1 w2 b (map Obj X1) gone (map Obj l2 ++ map Obj X2 ++ repeat Raw (k - length l))) as
          [(w3 & E3 & B3 & T3) | (w3 & ss' & E3 & L3 & F3 & B3 & Th)]; [lia | assumption | exact (but_eq _ _ _ _ B2) | |];
          rewrite map_length, LX1 in E3; rewrite E3.
        -- left. eexists _, _. split; [reflexivity|]. apply owns_objects_owns.
           replace (p + length X2 + length l2 + length X2) with (length (map (@Obj A) (X1 ++ l ++ X2))) by (rewrite map_length, !app_length; lia).
           eapply DONE with (k' := k - length l); [|apply objs_not_raw | rewrite map_length, !app_length; lia].
           rewrite LL at 1. rewrite !map_app, <- !app_assoc. eapply but_trans; [exact B1|]. eapply but_trans; eassumption.
        -- right. eexists w3, _, (ss' ++ map Obj l2 ++ map Obj X2). split; [reflexivity|]. split; [|split].
           ++ replace (p + length X2 + length l2 + length X2) with (length (map (@Obj A) X1 ++ ss' ++ map Obj l2 ++ map Obj X2))
                by (rewrite !app_length, !map_length; lia).
              eapply DONE with (k' := k - length l); [| |rewrite !app_length, !map_length; lia].
              ** rewrite <- !app_assoc. eapply but_trans; [exact B1|]. eapply but_trans; eassumption.
              ** repeat (apply Forall_app; split); try apply objs_not_raw. assumption.
           ++ rewrite !app_length, !map_length. lia.
           ++ eapply later_threw; [|exact Th]. lia.
      * right. eexists w2, _, (gone ++ map Obj l2 ++ map Obj (firstn j X2)). split; [reflexivity|]. split; [|split].
        -- replace (p + length X2 + length l2 + j) with (length (map (@Obj A) X1 ++ gone ++ map Obj l2 ++ map Obj (firstn j X2)))
             by (rewrite !app_length, !map_length, firstn_length; lia).
           eapply DONE with (k' := length X2 - j + (k - length l)); [| |rewrite !app_length, !map_length, firstn_length; lia].
           ++ rewrite <- !app_assoc. eapply but_trans; eassumption.
           ++ repeat (apply Forall_app; split); try apply objs_not_raw. assumption.
        -- rewrite !app_length, !map_length, firstn_length. lia.
        -- eapply later_threw; [|exact Th]. lia.
  - (* all of the values take the places of elements *)
    rewrite (firstn_all2 l) by lia. destruct (Nat.eqb_spec (length l) 0); [lia|]. cbn [vlen].
    set (m := length xs - p - length l). set (Y := firstn m X2). set (T := skipn m X2).
    assert (LY : length Y = m) by (unfold Y; rewrite firstn_length; lia).
    assert (LT : length T = length l) by (unfold T; rewrite skipn_length; unfold m; lia).
    assert (XT : X2 = Y ++ T) by (symmetry; apply firstn_skipn).
    unfold move_range. replace (length xs - (p + length l)) with m by (unfold m; lia).
    destruct (forward_in nothrow T w b (map Obj (X1 ++ Y)) [] (k - length l)) as (gone & Lg & Fg & H').
    { rewrite E. rewrite XS, XT at 1. rewrite app_assoc, map_app, <- app_assoc. cbn [app]. do 4 f_equal. lia. }
    rewrite !map_length, app_length, LX1, LY, LT in H'. cbn [length] in H'.
    replace (length xs - (p + m)) with (length l) by (unfold m; lia). replace (p + m + length l + 0) with (length xs) in H' by (unfold m; lia).
    destruct H' as [(w2 & -> & B2 & T2) | (w2 & j & Hj & -> & B2 & Th)].
    + destruct (up_by nothrow Y w2 b (map Obj X1) gone (map Obj T ++ repeat Raw (k - length l))) as
        [(w3 & gap & E3 & L3 & F3 & B3 & T3) | (w3 & ss & E3 & L3 & F3 & B3 & Th)].
      { intros ->. cbn in Lg. lia. } { assumption. } { rewrite (but_eq _ _ _ _ B2), map_app, <- app_assoc. reflexivity. }
      all: rewrite map_length, LX1, LY, Lg, LT in E3; rewrite E3.
      * destruct (fill_cases l w3 b (map Obj X1) gap (map Obj Y ++ map Obj T ++ repeat Raw (k - length l))) as
          [(w4 & E4 & B4 & T4) | (w4 & ss' & E4 & L4 & F4 & B4 & Th)]; [lia | assumption | exact (but_eq _ _ _ _ B3) | |];
          rewrite map_length, LX1 in E4; rewrite E4.
        -- left. eexists _, _. split; [reflexivity|]. apply owns_objects_owns.
           replace (length xs + length l) with (length (map (@Obj A) (X1 ++ l ++ X2))) by (rewrite map_length, !app_length; lia).
           eapply DONE with (k' := k - length l); [|apply objs_not_raw | rewrite map_length, !app_length; lia].
           rewrite XT at 1. rewrite !map_app, <- !app_assoc. eapply but_trans; [exact B2|]. eapply but_trans; eassumption.
        -- right. eexists w4, _, (ss' ++ map Obj Y ++ map Obj T). split; [reflexivity|]. split; [|split].
           ++ replace (length xs + length l) with (length (map (@Obj A) X1 ++ ss' ++ map Obj Y ++ map Obj T))
                by (rewrite !app_length, !map_length; unfold m in LY; lia).
              eapply DONE with (k' := k - length l); [| |rewrite !app_length, !map_length; unfold m in LY; lia].
              ** rewrite <- !app_assoc. eapply but_trans; [exact B2|]. eapply but_trans; eassumption.
              ** repeat (apply Forall_app; split); try apply objs_not_raw. assumption.
           ++ rewrite !app_length, !map_length. unfold m in LY. lia.
           ++ eapply later_threw; [|exact Th]. lia.
      * right. eexists w3, _, (ss ++ map Obj T). split; [reflexivity|]. split; [|split].
        -- replace (length xs + length l) with (length (map (@Obj A) X1 ++ ss ++ map Obj T))
             by (rewrite !app_length, !map_length; unfold m in LY; lia).
           eapply DONE with (k' := k - length l); [| |rewrite !app_length, !map_length; unfold m in LY; lia].
           ++ rewrite <- !app_assoc. eapply but_trans; eassumption.
           ++ repeat (apply Forall_app; split); try apply objs_not_raw. assumption.
        -- rewrite !app_length, !map_length. unfold m in LY. lia.
        -- eapply later_threw; [|exact Th]. lia.
    + right. eexists w2, _, (map Obj Y ++ gone ++ map Obj (firstn j T)). split; [reflexivity|]. split; [|split].
      * replace (length xs + j) with (length (map (@Obj A) X1 ++ map Obj Y ++ gone ++ map Obj (firstn j T)))
          by (rewrite !app_length, !map_length, firstn_length; unfold m in LY; lia).
        eapply DONE with (k' := length l - j + (k - length l)); [| |rewrite !app_length, !map_length, firstn_length; unfold m in LY; lia].
        -- rewrite map_app, <- !app_assoc in B2. rewrite <- !app_assoc. exact B2.
        -- repeat (apply Forall_app; split); try apply objs_not_raw. assumption.
      * rewrite !app_length, !map_length, firstn_length. unfold m in LY. lia.
      * assumption.
Qed.
End Proofs.

(** * The statements of the properties *)

Lemma c355_no_room :
  forall (A : Type) fails nothrow_move ms (base w : world A) v xs p l, max_size_ok ms -> owns ms base w v xs ->
  (p <= length xs)%nat -> (vcap w v < length xs + length l)%nat -> Z.of_nat (length l) < 2 ^ 63 ->
  (exists w' v', insert_many fails nothrow_move ms w v p l = Fin w' v' /\
     owns ms base w' v' (firstn p xs ++ l ++ skipn p xs)) \/
  (exists w', insert_many fails nothrow_move ms w v p l = Exc w' v /\ same_memory w w' /\
     (threw fails w w' \/ ms < Z.of_nat (length xs) + Z.of_nat (length l))).
Proof.
  intros A fails nm ms base w v xs p l M O' H C L. pose proof (vlen_owns ms base w v xs O') as LV. destruct (owns_cap ms base w v xs O') as (CG & _).
  assert (E : insert_many fails nm ms w v p l = insert_new_buffer fails nm ms w v p l).
  { unfold insert_many. rewrite LV. destruct (Nat.ltb_spec (length xs) p); [lia|]. destruct (Nat.eqb_spec (length l) 0); [lia|].
    destruct (Nat.leb_spec (length l) (vcap w v - length xs)); [lia | reflexivity]. }
  rewrite E. exact (many_grow fails ms nm base w v xs p l M O' H C L).
Qed.

Lemma c355_room :
  forall (A : Type) fails nothrow_move ms (base w : world A) v xs p l, owns ms base w v xs ->
  (p <= length xs)%nat -> l <> [] -> (length xs + length l <= vcap w v)%nat ->
  (exists w' v', insert_many fails nothrow_move ms w v p l = Fin w' v' /\
     owns ms base w' v' (firstn p xs ++ l ++ skipn p xs)) \/
  (exists w' v' rest w'', insert_many fails nothrow_move ms w v p l = Exc w' v' /\
     owns_objects ms base w' v' (map Obj (firstn p xs) ++ rest) /\
     (length xs <= p + length rest <= length xs + length l)%nat /\ threw fails w w' /\
     vdeallocate w' v' = Some w'' /\ same_memory base w'').
Proof.
  intros A fails nm ms base w v xs p l O' H N C.
  destruct (many_room fails ms nm base w v xs p l O' H N C) as [F | (w' & v' & rest & E & OO & LL & T)]; [now left | right].
  destruct (objects_dealloc ms base w' v' _ OO) as (w'' & E2 & S2). exists w', v', rest, w''. split; [exact E|]. split; [exact OO|]. split; [exact LL|]. split; [exact T|]. split; [exact E2 | exact S2].
Qed.

Lemma c355_nothing :
  forall (A : Type) fails nothrow_move ms (w : world A) v p, (p <= vlen v)%nat ->
  insert_many fails nothrow_move ms w v p [] = Fin w v.
Proof.
  intros A fails nm ms w v p H. unfold insert_many. destruct (Nat.ltb_spec (vlen v) p); [lia | reflexivity].
Qed.
