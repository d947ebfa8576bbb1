(** Proofs about MoreTools.v. *)
From Verif Require Import Common Ints MoreTools SpecMoreTools.
From Verif Require ErasedProofs SmallClassesProofs.
Open Scope Z_scope.

(** * Braces *)
Lemma brace_other : forall b c, c <> 123 -> c <> 125 -> c <> 92 -> brace_call b c = UB.
Proof.
  intros b c A B C. unfold brace_call. destruct (Z.eqb_spec c 123); [contradiction|]. destruct (Z.eqb_spec c 125); [contradiction|]. destruct (Z.eqb_spec c 92); [contradiction|reflexivity].
Qed.
Lemma count_if_escape : forall b, b_escape (count_if b) = b_escape b.
Proof. intro b. unfold count_if. destruct (b_in b); reflexivity. Qed.
Lemma brace_no_escape : forall text b rs b', b_escape b = false -> brace_run b text = Ok (rs, b') -> b_escape b' = false.
Proof.
  induction text as [|c text IH]; intros b rs b' N E; [cbn in E; congruence|]. cbn [brace_run] in E.
  destruct (brace_call b c) as [[r b1]| | |] eqn:R; try discriminate. cbn [bind] in E. destruct (brace_run b1 text) as [[rs1 b2]| | |] eqn:R2; try discriminate. cbn [bind] in E. injection E as _ <-.
  apply (IH b1 rs1 b2); [|exact R2]. unfold brace_call in R. rewrite N in R. cbn [negb andb] in R.
  destruct (b_in b) eqn:BI; cbn [negb b_escape b_in b_size] in R; rewrite ?N, ?BI in R; cbn [negb] in R.
  - destruct (c =? 123); [discriminate|]. destruct (c =? 125); [injection R as _ <-; reflexivity|]. destruct (c =? 92); [|discriminate].
    injection R as _ <-. rewrite count_if_escape. unfold switch_escape. rewrite N. reflexivity.
  - destruct (c =? 123); [injection R as _ <-; reflexivity|]. destruct (c =? 125); [discriminate|]. destruct (c =? 92); [|discriminate].
    injection R as _ <-. rewrite count_if_escape. reflexivity.
Qed.
Lemma brace_backslashes : forall k n, 0 <= n -> n + Z.of_nat k < 2 ^ 64 ->
  brace_run (mk_brace n false true) (repeat 92 k ++ [125]) = Ok (repeat true k ++ [false], mk_brace (n + Z.of_nat k) false false).
Proof.
  induction k as [|k IH]; intros n P L.
  - cbn. replace (n + 0) with n by lia. reflexivity.
  - cbn [repeat app brace_run].
    change (brace_call (mk_brace n false true) 92) with (Ok (true, mk_brace ((n + 1) mod 2 ^ 64) false true)).
    cbn [bind]. rewrite Z.mod_small by lia. rewrite IH by lia. cbn [bind]. replace (n + 1 + Z.of_nat k) with (n + Z.of_nat (S k)) by lia. reflexivity.
Qed.

(** * Tracked memory *)
Definition tinv (s : theap) : Prop :=
  (forall i p, nth_error (t_ptrs s) i = Some p -> t_destroyed p = false ->
     exists l, nth_error (t_blocks s) (t_block p) = Some (true, l) /\ 0 <= t_index p <= Z.of_nat (length l)) /\
  (forall i j p q, nth_error (t_ptrs s) i = Some p -> nth_error (t_ptrs s) j = Some q -> t_destroyed p = false -> t_destroyed q = false -> t_block p = t_block q -> i = j).
Lemma rd_some : forall T (l : list T) i x, nth_error l i = Some x -> rd l i = Ok x.
Proof. intros T l i x H. unfold rd. now rewrite H. Qed.
Lemma rd_inv : forall T (l : list T) i x, rd l i = Ok x -> nth_error l i = Some x.
Proof. intros T l i x H. unfold rd in H. destruct (nth_error l i); congruence. Qed.
Lemma stopped : forall s i o, deallocated s i -> through o i -> tstep s o = Throw.
Proof.
  intros s i o [p [H D]] T. pose proof (rd_some _ _ _ _ H) as R.
  destruct T as [-> | [-> | [[v ->] | [-> | [-> | [n ->]]]]]]; cbn [tstep]; rewrite R; cbn [bind]; rewrite D; reflexivity.
Qed.

(** Changing the index of pointer i, or marking it. *)
Lemma tinv_ptr : forall s i p p', tinv s -> nth_error (t_ptrs s) i = Some p -> t_block p' = t_block p ->
  (t_destroyed p' = false -> t_destroyed p = false /\ exists l, nth_error (t_blocks s) (t_block p) = Some (true, l) /\ 0 <= t_index p' <= Z.of_nat (length l)) ->
  tinv (mk_theap (t_blocks s) (upd (t_ptrs s) i p')).
Proof.
  intros s i p p' [V1 V2] H B K. split; cbn [t_ptrs t_blocks].
  - intros j q Hj Dq. rewrite SmallClassesProofs.nth_error_upd in Hj. destruct (Nat.eqb_spec j i) as [E|N].
    + rewrite H in Hj. injection Hj as <-. destruct (K Dq) as [_ [l [Hl L]]]. exists l. rewrite B. auto.
    + exact (V1 j q Hj Dq).
  - intros j k q r Hj Hk Dq Dr Bq. rewrite SmallClassesProofs.nth_error_upd in Hj, Hk. destruct (Nat.eqb_spec j i) as [E|N]; destruct (Nat.eqb_spec k i) as [E'|N']; rewrite ?H in *.
    + congruence.
    + injection Hj as <-. destruct (K Dq) as [Dp _]. rewrite E. apply (V2 i k p r H Hk Dp Dr). congruence.
    + injection Hk as <-. destruct (K Dr) as [Dp _]. rewrite E'. apply (V2 j i q p Hj H Dq Dp). congruence.
    + exact (V2 j k q r Hj Hk Dq Dr Bq).
Qed.
(** Changing the contents of a block. *)
Lemma tinv_cells : forall s b l l', tinv s -> nth_error (t_blocks s) b = Some (true, l) -> length l' = length l ->
  tinv (mk_theap (upd (t_blocks s) b (true, l')) (t_ptrs s)).
Proof.
  intros s b l l' [V1 V2] H L. split; cbn [t_ptrs t_blocks]; [|exact V2].
  intros j q Hj Dq. destruct (V1 j q Hj Dq) as [m [Hm Q]]. rewrite SmallClassesProofs.nth_error_upd. destruct (Nat.eqb_spec (t_block q) b) as [E|N].
  - rewrite H. exists l'. split; [reflexivity|]. rewrite E, H in Hm. injection Hm as <-. lia.
  - exists m. auto.
Qed.
Lemma set_cell_ok : forall s p l v s', set_cell s p l v = Ok s' ->
  0 <= t_index p < Z.of_nat (length l) /\ s' = mk_theap (upd (t_blocks s) (t_block p) (true, upd l (Z.to_nat (t_index p)) v)) (t_ptrs s).
Proof.
  intros s p l v s' E. unfold set_cell in E. destruct ((0 <=? t_index p) && (t_index p <? Z.of_nat (length l))) eqn:C; [|discriminate]. injection E as <-. split; [lia|reflexivity].
Qed.
Lemma block_of_ok : forall s p l, block_of s p = Ok l -> nth_error (t_blocks s) (t_block p) = Some (true, l).
Proof. intros s p l H. unfold block_of in H. destruct (nth_error (t_blocks s) (t_block p)) as [[[|] m]|]; congruence. Qed.
Lemma stop_ok : forall b u, stop_unless b = Ok u -> b = true.
Proof. intros [|] u H; [reflexivity|discriminate]. Qed.
Ltac ustop E := match type of E with bind ?x _ = _ => let r := fresh "r" in let R := fresh "R" in destruct x as [r| | |] eqn:R; try discriminate E; cbn [bind] in E end.
Lemma tstep_inv : forall s o r s', tinv s -> no_copy o -> tstep s o = Ok (r, s') -> tinv s'.
Proof.
  intros s o r s' V N E. destruct o as [n|i|i|i|i v|i|i|i n]; cbn [tstep] in E.
  - injection E as _ <-. destruct V as [V1 V2].
    assert (SN : forall j p, nth_error (t_ptrs s ++ [TPtr (length (t_blocks s)) 0 false]) j = Some p ->
      (j = length (t_ptrs s) /\ p = TPtr (length (t_blocks s)) 0 false) \/ nth_error (t_ptrs s) j = Some p).
    { intros j p H. destruct (Nat.lt_ge_cases j (length (t_ptrs s))) as [L|L]; [rewrite nth_error_app1 in H by exact L; auto|].
      rewrite nth_error_app2 in H by exact L. left. destruct (j - length (t_ptrs s))%nat eqn:D; cbn in H; [split; [lia|congruence]|destruct n0; discriminate]. }
    assert (BN : forall j p, nth_error (t_ptrs s) j = Some p -> t_destroyed p = false -> (t_block p < length (t_blocks s))%nat).
    { intros j p H D. destruct (V1 j p H D) as [l [Hl _]]. apply nth_error_Some. congruence. }
    split; cbn [t_ptrs t_blocks].
    + intros j p H D. destruct (SN j p H) as [[-> ->] | H'].
      * cbn [t_block t_index]. exists (repeat None n). rewrite nth_error_app2, Nat.sub_diag by lia. split; [reflexivity|]. lia.
      * destruct (V1 j p H' D) as [l [Hl Q]]. exists l. rewrite nth_error_app1 by (exact (BN j p H' D)). auto.
    + intros j k p q Hj Hk Dp Dq B. destruct (SN j p Hj) as [[-> ->] | Hj']; destruct (SN k q Hk) as [[-> ->] | Hk'].
      * reflexivity.
      * pose proof (BN k q Hk' Dq). cbn [t_block] in B. lia.
      * pose proof (BN j p Hj' Dp). cbn [t_block] in B. lia.
      * exact (V2 j k p q Hj' Hk' Dp Dq B).
  - destruct (N i eq_refl).
  - ustop E. ustop E. ustop E. ustop E. injection E as _ <-. apply stop_ok in R0, R1. apply rd_inv in R. apply (tinv_ptr s i r0 _ V R); [reflexivity|].
    intros _. cbn [t_index]. apply negb_true_iff in R0. split; [exact R0|]. destruct V as [V1 _]. destruct (V1 i r0 R R0) as [l [Hl Q]]. exists l. split; [exact Hl|].
    unfold range_size in R1. rewrite Hl in R1. lia.
  - ustop E. ustop E. ustop E. ustop E. injection E as _ <-. apply stop_ok in R0, R1. apply rd_inv in R. apply (tinv_ptr s i r0 _ V R); [reflexivity|].
    intros _. cbn [t_index]. apply negb_true_iff in R0. split; [exact R0|]. destruct V as [V1 _]. destruct (V1 i r0 R R0) as [l [Hl Q]]. exists l. split; [exact Hl|]. lia.
  - ustop E. ustop E. ustop E. ustop E. injection E as _ <-. apply set_cell_ok in R2 as [Q ->]. apply block_of_ok in R1. apply (tinv_cells s _ r2 _ V R1). apply ErasedProofs.upd_length_e.
  - ustop E. ustop E. ustop E. ustop E. ustop E. injection E as _ <-. apply set_cell_ok in R3 as [Q ->]. apply block_of_ok in R1. apply (tinv_cells s _ r2 _ V R1). apply ErasedProofs.upd_length_e.
  - ustop E. ustop E. ustop E. ustop E. injection E as _ <-. exact V.
  - ustop E. ustop E. ustop E. ustop E. apply stop_ok in R0, R1. apply rd_inv in R. apply block_of_ok in R2. apply negb_true_iff in R0.
    destruct (n =? length r3)%nat; [|discriminate]. injection E as _ <-. destruct V as [V1 V2]. split; cbn [t_ptrs t_blocks].
    + intros j q Hj Dq. rewrite SmallClassesProofs.nth_error_upd in Hj. destruct (Nat.eqb_spec j i) as [Ej|Nj]; [rewrite R in Hj; injection Hj as <-; discriminate|].
      destruct (V1 j q Hj Dq) as [l [Hl Q]]. exists l. split; [|exact Q]. rewrite SmallClassesProofs.nth_error_upd. destruct (Nat.eqb_spec (t_block q) (t_block r0)) as [Eb|Nb]; [|exact Hl].
      destruct (Nj (V2 j i q r0 Hj R Dq R0 Eb)).
    + intros j k q q' Hj Hk Dq Dq' B. rewrite SmallClassesProofs.nth_error_upd in Hj, Hk.
      destruct (Nat.eqb_spec j i) as [Ej|Nj]; [rewrite R in Hj; injection Hj as <-; discriminate|]. destruct (Nat.eqb_spec k i) as [Ek|Nk]; [rewrite R in Hk; injection Hk as <-; discriminate|].
      exact (V2 j k q q' Hj Hk Dq Dq' B).
Qed.
Lemma trun_inv : forall ops s vs s', tinv s -> Forall no_copy ops -> trun s ops = Ok (vs, s') -> tinv s'.
Proof.
  induction ops as [|o ops IH]; intros s vs s' V N E; cbn [trun] in E; [congruence|].
  destruct (tstep s o) as [[r s1]| | |] eqn:T1; try discriminate. cbn [bind] in E. destruct (trun s1 ops) as [[rs s2]| | |] eqn:T2; try discriminate. cbn [bind] in E. injection E as _ <-.
  exact (IH s1 rs s2 (tstep_inv s o r s1 V (Forall_inv N) T1) (Forall_inv_tail N) T2).
Qed.
Lemma tinv0 : tinv theap0.
Proof. split; intros i; [intros p H|intros j p q H]; destruct i; discriminate. Qed.
Lemma run_stands : forall ops vs s i, Forall no_copy ops -> trun theap0 ops = Ok (vs, s) -> (i < length (t_ptrs s))%nat ->
  deallocated s i \/ exists k l, stands s i k l /\ 0 <= k <= Z.of_nat (length l).
Proof.
  intros ops vs s i N E L. destruct (trun_inv _ _ _ _ tinv0 N E) as [V1 _]. destruct (nth_error (t_ptrs s) i) as [p|] eqn:H; [|apply nth_error_None in H; lia].
  destruct (t_destroyed p) eqn:D; [left; exists p; auto|]. right. destruct (V1 i p H D) as [l [Hl Q]]. exists (t_index p), l. split; [|exact Q].
  exists (t_block p). split; [rewrite H; destruct p; cbn in *; congruence|exact Hl].
Qed.
Lemma stands_ops : forall s i k l, stands s i k l -> 0 <= k <= Z.of_nat (length l) ->
  (k < Z.of_nat (length l) -> exists s', tstep s (TInc i) = Ok (None, s') /\ stands s' i (k + 1) l) /\
  (k = Z.of_nat (length l) -> tstep s (TInc i) = Throw) /\
  (0 < k -> exists s', tstep s (TDec i) = Ok (None, s') /\ stands s' i (k - 1) l) /\
  (k = 0 -> tstep s (TDec i) = Throw) /\
  (forall v, nth_error l (Z.to_nat k) = Some (Some v) -> tstep s (TRead i) = Ok (Some v, s)) /\
  (forall v, k < Z.of_nat (length l) -> exists s', tstep s (TConstruct i v) = Ok (None, s') /\ stands s' i k (upd l (Z.to_nat k) (Some v))) /\
  (forall v, nth_error l (Z.to_nat k) = Some (Some v) -> exists s', tstep s (TDestroy i) = Ok (None, s') /\ stands s' i k (upd l (Z.to_nat k) None)) /\
  (forall n, k <> 0 -> tstep s (TDealloc i n) = Throw) /\
  (k = 0 -> exists s', tstep s (TDealloc i (length l)) = Ok (None, s') /\ deallocated s' i).
Proof.
  intros s i k l [b [H B]] K. pose proof (rd_some _ _ _ _ H) as R. assert (LI : (i < length (t_ptrs s))%nat) by (apply nth_error_Some; congruence).
  assert (LB : (b < length (t_blocks s))%nat) by (apply nth_error_Some; congruence).
  assert (BO : block_of s (TPtr b k false) = Ok l) by (unfold block_of; cbn [t_block]; now rewrite B).
  assert (RS : range_size s (TPtr b k false) = Z.of_nat (length l)) by (unfold range_size; cbn [t_block]; now rewrite B).
  assert (GC : forall v, nth_error l (Z.to_nat k) = Some (Some v) -> get_cell (TPtr b k false) l = Ok v /\ k < Z.of_nat (length l)).
  { intros v Hv. assert (Q : (Z.to_nat k < length l)%nat) by (apply nth_error_Some; congruence). split; [|lia]. unfold get_cell. cbn [t_index].
    replace ((0 <=? k) && (k <? Z.of_nat (length l))) with true by lia. now rewrite (nth_error_nth l _ None Hv). }
  assert (SC : forall v, k < Z.of_nat (length l) -> set_cell s (TPtr b k false) l v = Ok (mk_theap (upd (t_blocks s) b (true, upd l (Z.to_nat k) v)) (t_ptrs s))).
  { intros v Q. unfold set_cell. cbn [t_index t_block]. replace ((0 <=? k) && (k <? Z.of_nat (length l))) with true by lia. reflexivity. }
  assert (ST : forall l', stands (mk_theap (upd (t_blocks s) b (true, l')) (t_ptrs s)) i k l').
  { intro l'. exists b. split; [exact H|]. cbn [t_blocks]. now apply ErasedProofs.nth_error_upd_same. }
  assert (MV : forall k', stands (mk_theap (t_blocks s) (upd (t_ptrs s) i (TPtr b k' false))) i k' l).
  { intro k'. exists b. split; [now apply ErasedProofs.nth_error_upd_same|exact B]. }
  cbn [tstep]. rewrite R. cbn [bind t_destroyed negb stop_unless t_index t_block]. rewrite BO, RS. cbn [bind].
  split; [|split; [|split; [|split; [|split; [|split; [|split; [|split]]]]]]].
  - intro Q. replace (k <? Z.of_nat (length l)) with true by lia. eexists. split; [reflexivity|apply MV].
  - intro Q. replace (k <? Z.of_nat (length l)) with false by lia. reflexivity.
  - intro Q. replace (0 <? k) with true by lia. eexists. split; [reflexivity|apply MV].
  - intros ->. reflexivity.
  - intros v Hv. destruct (GC v Hv) as [-> _]. reflexivity.
  - intros v Q. rewrite (SC _ Q). eexists. split; [reflexivity|apply ST].
  - intros v Hv. destruct (GC v Hv) as [-> Q]. cbn [bind]. rewrite (SC _ Q). eexists. split; [reflexivity|apply ST].
  - intros n Q. apply Z.eqb_neq in Q. rewrite Q. reflexivity.
  - intros ->. cbn [Z.eqb stop_unless bind]. rewrite Nat.eqb_refl. eexists. split; [reflexivity|]. eexists. split; [cbn [t_ptrs]; now apply ErasedProofs.nth_error_upd_same|reflexivity].
Qed.
Lemma construct_end : forall s i l v, stands s i (Z.of_nat (length l)) l -> tstep s (TConstruct i v) = UB.
Proof.
  intros s i l v [b [H B]]. cbn [tstep]. rewrite (rd_some _ _ _ _ H). cbn [bind t_destroyed negb stop_unless]. unfold block_of. cbn [t_block]. rewrite B. cbn [bind].
  unfold set_cell. cbn [t_index]. rewrite Z.ltb_irrefl, andb_false_r. reflexivity.
Qed.

(** * Storage *)
Lemma count_upd : forall T (f : T -> bool) l i x y, nth_error l i = Some y ->
  (count f (upd l i x) + (if f y then 1 else 0) = count f l + (if f x then 1 else 0))%nat.
Proof.
  unfold count. induction l as [|a l IH]; intros i x y H; [destruct i; discriminate|]. destruct i as [|i]; cbn [upd filter nth_error] in *.
  - injection H as ->. destruct (f x), (f y); cbn [length]; lia.
  - specialize (IH i x y H). destruct (f a); cbn [length]; lia.
Qed.
Lemma count_snoc : forall T (f : T -> bool) l x, count f (l ++ [x]) = (count f l + (if f x then 1 else 0))%nat.
Proof. intros T f l x. unfold count. rewrite filter_app, app_length. cbn. destruct (f x); reflexivity. Qed.
Lemma ustep_count : forall s o r s', ustep false s o = Ok (r, s') ->
  ((if is_construct o then 1 else 0) + count alive_slot (u_slots s) + u_lost s = (if is_destruct o then 1 else 0) + count alive_slot (u_slots s') + u_lost s')%nat.
Proof.
  intros s o r s' E. destruct o as [|i|i v|i|i|i v]; cbn [ustep is_construct is_destruct] in *; unfold living, slot in *.
  - injection E as _ <-. cbn [u_slots u_lost]. rewrite count_snoc. cbn [alive_slot]. lia.
  - ustop E. injection E as _ <-. cbn [u_slots u_lost]. rewrite count_snoc. cbn [alive_slot]. lia.
  - ustop E. injection E as _ <-. apply rd_inv in R. cbn [u_slots u_lost]. pose proof (count_upd _ alive_slot _ _ (Some v) _ R) as C. destruct r0; cbn [alive_slot] in C; lia.
  - destruct (rd (u_slots s) i) as [[w|]| | |] eqn:R; try discriminate. cbn [bind] in E. injection E as _ <-. apply rd_inv in R. cbn [u_slots u_lost]. pose proof (count_upd _ alive_slot _ _ None _ R) as C. cbn [alive_slot] in C. lia.
  - destruct (rd (u_slots s) i) as [[w|]| | |] eqn:R; try discriminate. cbn [bind] in E. injection E as _ <-. lia.
  - destruct (rd (u_slots s) i) as [[w|]| | |] eqn:R; try discriminate. cbn [bind] in E. injection E as _ <-. apply rd_inv in R. cbn [u_slots u_lost]. pose proof (count_upd _ alive_slot _ _ (Some v) _ R) as C. cbn [alive_slot] in C. lia.
Qed.
Lemma urun_count : forall ops s vs s', urun false s ops = Ok (vs, s') ->
  (count is_construct ops + count alive_slot (u_slots s) + u_lost s = count is_destruct ops + count alive_slot (u_slots s') + u_lost s')%nat.
Proof.
  induction ops as [|o ops IH]; intros s vs s' E; cbn [urun] in E; [injection E as _ <-; cbn; lia|].
  destruct (ustep false s o) as [[r s1]| | |] eqn:T1; try discriminate. cbn [bind] in E. destruct (urun false s1 ops) as [[rs s2]| | |] eqn:T2; try discriminate. cbn [bind] in E. injection E as _ <-.
  pose proof (ustep_count _ _ _ _ T1). pose proof (IH _ _ _ T2). unfold count in *. cbn [filter]. destruct (is_construct o), (is_destruct o); cbn [length]; lia.
Qed.

(** * The statements of the properties *)

Lemma c320_group_refuted :
  (forall b c, c <> 123 -> c <> 125 -> c <> 92 -> brace_call b c = UB) /\
  forall text inner, group_text text -> text = 123 :: inner ++ [125] -> inner <> [] -> brace_run brace0 text = UB.
Proof.
  split; [exact brace_other|]. intros text inner G -> N. inversion G as [inner' F E]. apply app_inv_tail in E. subst inner'.
destruct inner as [|c inner]; [congruence|]. pose proof (Forall_inv F) as [A [B C]]. cbn [app brace_run].
change (brace_call brace0 123) with (Ok (true, mk_brace 0 false true)). cbn [bind]. rewrite (brace_other _ c A B C). reflexivity.
Qed.

Lemma c320_escape_refuted :
  (forall text rs b, brace_run brace0 text = Ok (rs, b) -> b_escape b = false) /\
  (exists b, brace_run brace0 [92; 123] = Ok ([true; true], b) /\ b_in b = true) /\ brace_run brace0 [92; 125] = Throw.
Proof.
  split; [intros text rs b E; exact (brace_no_escape text brace0 rs b eq_refl E)|]. split; [eexists; split; reflexivity|reflexivity].
Qed.

Lemma c320_group_partial :
  forall k, Z.of_nat k < 2 ^ 64 -> brace_run brace0 (123 :: repeat 92 k ++ [125]) = Ok (true :: repeat true k ++ [false], mk_brace (Z.of_nat k) false false).
Proof.
  intros k L. cbn [brace_run]. change (brace_call brace0 123) with (Ok (true, mk_brace 0 false true)). cbn [bind]. rewrite (brace_backslashes k 0) by lia. reflexivity.
Qed.

Lemma c320_misplaced :
  forall text rs b, brace_run brace0 text = Ok (rs, b) ->
  (b_in b = true -> brace_run b [123] = Throw) /\ (b_in b = false -> brace_run b [125] = Throw).
Proof.
  intros text rs b E. pose proof (brace_no_escape text brace0 rs b eq_refl E) as N. destruct b as [n e i]. cbn [b_escape] in N. subst e. split; cbn [b_in]; intros ->; reflexivity.
Qed.

Lemma c321_after_deallocation :
  forall s i o, deallocated s i -> through o i -> tstep s o = Throw.
Proof.
  exact stopped.
Qed.

Lemma c321_no_copies :
  forall ops vs s i, Forall no_copy ops -> trun theap0 ops = Ok (vs, s) -> (i < length (t_ptrs s))%nat ->
  deallocated s i \/ exists k l, stands s i k l /\ 0 <= k <= Z.of_nat (length l).
Proof.
  exact run_stands.
Qed.

Lemma c321_operations :
  forall s i k l, stands s i k l -> 0 <= k <= Z.of_nat (length l) ->
  (k < Z.of_nat (length l) -> exists s', tstep s (TInc i) = Ok (None, s') /\ stands s' i (k + 1) l) /\
  (k = Z.of_nat (length l) -> tstep s (TInc i) = Throw) /\
  (0 < k -> exists s', tstep s (TDec i) = Ok (None, s') /\ stands s' i (k - 1) l) /\
  (k = 0 -> tstep s (TDec i) = Throw) /\
  (forall v, nth_error l (Z.to_nat k) = Some (Some v) -> tstep s (TRead i) = Ok (Some v, s)) /\
  (forall v, k < Z.of_nat (length l) -> exists s', tstep s (TConstruct i v) = Ok (None, s') /\ stands s' i k (upd l (Z.to_nat k) (Some v))) /\
  (forall v, nth_error l (Z.to_nat k) = Some (Some v) -> exists s', tstep s (TDestroy i) = Ok (None, s') /\ stands s' i k (upd l (Z.to_nat k) None)) /\
  (forall n, k <> 0 -> tstep s (TDealloc i n) = Throw) /\
  (k = 0 -> exists s', tstep s (TDealloc i (length l)) = Ok (None, s') /\ deallocated s' i).
Proof.
  exact stands_ops.
Qed.

Lemma c321_allocate :
  forall s n, exists s', tstep s (TAlloc n) = Ok (None, s') /\ stands s' (length (t_ptrs s)) 0 (repeat None n).
Proof.
  intros s n. eexists. split; [reflexivity|]. exists (length (t_blocks s)). cbn [t_ptrs t_blocks]. split; (rewrite nth_error_app2, Nat.sub_diag by lia; reflexivity).
Qed.

Lemma c321_undetected_refuted :
  (forall s i l v, stands s i (Z.of_nat (length l)) l -> tstep s (TConstruct i v) = UB) /\
  (forall n, trun theap0 [TAlloc n; TCopy 0; TDealloc 0 n; TDealloc 1 n] = UB /\ trun theap0 [TAlloc n; TCopy 0; TDealloc 0 n; TRead 1] = UB) /\
  forall n m, n <> m -> trun theap0 [TAlloc n; TDealloc 0 m] = UB.
Proof.
  split; [exact construct_end|]. split.
- intro n. cbn. rewrite !repeat_length, !Nat.eqb_refl. cbn. split; reflexivity.
- intros n m N. cbn. rewrite repeat_length. destruct (Nat.eqb_spec m n); [congruence|reflexivity].
Qed.

Lemma c322_objects :
  forall trivial s i v,
  (holds s i v -> ustep trivial s (URead i) = Ok (Some v, s)) /\
  (vacant s i -> ustep trivial s (URead i) = UB /\ ustep trivial s (UDestruct i) = UB) /\
  (forall u, holds s i u -> exists s', ustep trivial s (UWrite i v) = Ok (None, s') /\ holds s' i v) /\
  (forall u, holds s i u -> exists s', ustep trivial s (UDestruct i) = Ok (None, s') /\ vacant s' i) /\
  (holds s i v \/ vacant s i -> forall w, exists s', ustep trivial s (UConstruct i w) = Ok (None, s') /\ holds s' i w /\
     (vacant s i -> u_lost s' = u_lost s) /\ (holds s i v -> u_lost s' = S (u_lost s))).
Proof.
  intros trivial s i v. unfold holds, vacant. cbn [ustep]. unfold living, slot, rd.
split; [intros ->; reflexivity|]. split; [intros ->; split; reflexivity|].
split; [|split].
- intros u H. rewrite H. eexists. split; [reflexivity|]. cbn [u_slots]. rewrite SmallClassesProofs.nth_error_upd, Nat.eqb_refl, H. reflexivity.
- intros u H. rewrite H. eexists. split; [reflexivity|]. cbn [u_slots]. rewrite SmallClassesProofs.nth_error_upd, Nat.eqb_refl, H. reflexivity.
- intros [H | H] w; rewrite H; (eexists; split; [reflexivity|]; cbn [u_slots u_lost]; rewrite SmallClassesProofs.nth_error_upd, Nat.eqb_refl, H; split; [reflexivity|]; split; [intro; congruence|intro; congruence]).
Qed.

Lemma c322_frame :
  forall trivial s o r s' j, ustep trivial s o = Ok (r, s') -> (j < length (u_slots s))%nat ->
  (forall v, o <> UConstruct j v) -> (forall v, o <> UWrite j v) -> o <> UDestruct j -> nth_error (u_slots s') j = nth_error (u_slots s) j.
Proof.
  intros trivial s o r s' j E L N1 N2 N3. destruct o as [|i|i v|i|i|i v]; cbn [ustep] in E; unfold living, slot in E.
- injection E as _ <-. cbn [u_slots]. now rewrite nth_error_app1.
- destruct (rd (u_slots s) i) as [x| | |]; try discriminate. injection E as _ <-. cbn [u_slots]. now rewrite nth_error_app1.
- destruct (rd (u_slots s) i) as [x| | |]; try discriminate. injection E as _ <-. cbn [u_slots]. rewrite SmallClassesProofs.nth_error_upd. destruct (Nat.eqb_spec j i) as [-> | D]; [destruct (N1 v eq_refl)|reflexivity].
- destruct (rd (u_slots s) i) as [[x|]| | |]; try discriminate. injection E as _ <-. cbn [u_slots]. rewrite SmallClassesProofs.nth_error_upd. destruct (Nat.eqb_spec j i) as [-> | D]; [destruct (N3 eq_refl)|reflexivity].
- destruct (rd (u_slots s) i) as [[x|]| | |]; try discriminate. injection E as _ <-. reflexivity.
- destruct (rd (u_slots s) i) as [[x|]| | |]; try discriminate. injection E as _ <-. cbn [u_slots]. rewrite SmallClassesProofs.nth_error_upd. destruct (Nat.eqb_spec j i) as [-> | D]; [destruct (N2 v eq_refl)|reflexivity].
Qed.

Lemma c322_balance :
  forall ops vs s, urun false (mk_ust [] 0) ops = Ok (vs, s) ->
  count is_construct ops = (count is_destruct ops + count alive_slot (u_slots s) + u_lost s)%nat.
Proof.
  intros ops vs s E. pose proof (urun_count ops _ vs s E) as H. cbn in H. lia.
Qed.

Lemma c322_copy :
  forall s i v, holds s i v -> exists s', ustep true s (UCopy i) = Ok (None, s') /\ holds s' (length (u_slots s)) v /\ holds s' i v.
Proof.
  intros s i v H. assert (L : (i < length (u_slots s))%nat) by (apply nth_error_Some; unfold holds in H; congruence). unfold holds in *. cbn [ustep]. unfold slot, rd. rewrite H. eexists. split; [reflexivity|]. cbn [u_slots].
rewrite nth_error_app2, Nat.sub_diag by lia. split; [reflexivity|]. now rewrite nth_error_app1.
Qed.

Lemma c322_copy_refuted :
  forall s i v, holds s i v -> exists s', ustep false s (UCopy i) = Ok (None, s') /\
  ustep false s' (URead (length (u_slots s))) = UB /\ ustep false s' (UDestruct (length (u_slots s))) = UB.
Proof.
  intros s i v H. unfold holds in H. cbn [ustep]. unfold living, slot, rd. rewrite H. eexists. split; [reflexivity|]. cbn [u_slots].
rewrite nth_error_app2, Nat.sub_diag by lia. split; reflexivity.
Qed.

Lemma c323_int128 :
  int128_min = - 2 ^ 127 /\ int128_lowest = - 2 ^ 127 /\ int128_max = 2 ^ 127 - 1 /\ int128_digits = 127 /\
  (forall v, Z.abs v < 10 ^ int128_digits10 -> int128_min <= v <= int128_max) /\
  exists v, Z.abs v < 10 ^ (int128_digits10 + 1) /\ ~ (int128_min <= v <= int128_max).
Proof.
  assert (A : int128_min = - 2 ^ 127) by reflexivity. assert (B : int128_max = 2 ^ 127 - 1) by reflexivity. assert (C : int128_digits10 = 38) by reflexivity.
split; [exact A|]. split; [reflexivity|]. split; [exact B|]. split; [reflexivity|]. rewrite A, B, C. split; [intros v H; lia|]. exists (2 ^ 127). split; lia.
Qed.

Lemma c323_uint128 :
  uint128_min = 0 /\ uint128_max = 2 ^ 128 - 1 /\ uint128_digits = 128 /\
  (forall v, 0 <= v < 10 ^ uint128_digits10 -> uint128_min <= v <= uint128_max) /\
  exists v, 0 <= v < 10 ^ (uint128_digits10 + 1) /\ ~ (uint128_min <= v <= uint128_max).
Proof.
  assert (B : uint128_max = 2 ^ 128 - 1) by reflexivity. assert (C : uint128_digits10 = 38) by reflexivity.
split; [reflexivity|]. split; [exact B|]. split; [reflexivity|]. rewrite B, C. unfold uint128_min. split; [intros v H; lia|]. exists (2 ^ 128). split; lia.
Qed.
