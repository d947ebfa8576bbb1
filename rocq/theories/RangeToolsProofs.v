(** Proofs about container algorithms, sorted insertion, Sample and swaps. *)
From Verif Require Import Common CommonProofs SpecAlg AlgSearch AlgSearchProofs RangeTools SpecRangeTools.
From Coq Require Import Permutation Sorted.
Open Scope Z_scope.

Lemma wr_app {A} (a : list A) y b x : wr (a ++ y :: b) (length a) x = Ok (a ++ x :: b).
Proof.
  unfold wr. rewrite app_length. cbn [length]. destruct (Nat.ltb_spec (length a) (length a + S (length b))); [|lia]. f_equal.
  induction a as [|h a IH]; cbn [app length upd]; [reflexivity|]. rewrite IH; [reflexivity|]. cbn in *. lia.
Qed.
Lemma rd_app {A} (a : list A) y b : rd (a ++ y :: b) (length a) = Ok y.
Proof. unfold rd. rewrite nth_error_app2, Nat.sub_diag by lia. reflexivity. Qed.
Lemma wr_out {A} (l : list A) d x : (length l <= d)%nat -> wr l d x = UB.
Proof. intros H. unfold wr. destruct (Nat.ltb_spec d (length l)); [lia|reflexivity]. Qed.

Lemma copy_split {A} (src : list A) : forall a b, (length src <= length b)%nat ->
  copy src (a ++ b) (length a) = Ok (a ++ src ++ skipn (length src) b).
Proof.
  induction src as [|x src IH]; intros a b L; cbn [copy app length]; [reflexivity|].
  destruct b as [|y b]; [cbn in L; lia|]. rewrite wr_app. cbn [bind]. cbn in L.
  specialize (IH (a ++ [x]) b ltac:(lia)). rewrite <- app_assoc in IH. cbn [app] in IH. rewrite app_length in IH. cbn [length] in IH.
  rewrite Nat.add_1_r in IH. rewrite IH. rewrite <- app_assoc. reflexivity.
Qed.
Lemma skipn_add {A} (l : list A) : forall a b, skipn (a + b) l = skipn b (skipn a l).
Proof. induction l as [|x l IH]; intros [|a] b; cbn [skipn Nat.add]; try reflexivity; [destruct b; reflexivity|]. apply IH. Qed.
Lemma copy_spec {A} (src out : list A) d : (d + length src <= length out)%nat -> copy src out d = Ok (written out d src).
Proof.
  intros L. pose proof (copy_split src (firstn d out) (skipn d out)) as H. rewrite firstn_skipn, skipn_length, firstn_length_le in H by lia.
  rewrite H by lia. unfold written. rewrite skipn_add. reflexivity.
Qed.
Lemma copy_over {A} (src : list A) : forall out d, (d <= length out)%nat -> (length out < d + length src)%nat -> copy src out d = UB.
Proof.
  induction src as [|x src IH]; intros out d D L; cbn [copy length] in *; [lia|].
  destruct (Nat.ltb_spec d (length out)) as [H|H]; [|rewrite wr_out by lia; reflexivity].
  unfold wr. destruct (Nat.ltb_spec d (length out)); [|lia]. cbn [bind].
  assert (E : length (upd out d x) = length out). { clear. revert d. induction out as [|y out IH]; intros [|d]; cbn; auto. }
  apply IH; rewrite E; lia.
Qed.

Lemma copy_n_loop_copy {A} n : forall (src : list A) i out d, (i + n <= length src)%nat ->
  copy_n_loop n src i out d = copy (firstn n (skipn i src)) out d.
Proof.
  induction n as [|n IH]; intros src i out d L; [reflexivity|].
  assert (exists x, nth_error src i = Some x) as (x & E) by (destruct (nth_error src i) eqn:E; [eauto|apply nth_error_None in E; lia]).
  cbn [copy_n_loop]. unfold rd. rewrite E. cbn [bind].
  assert (F : skipn i src = x :: skipn (S i) src). { clear - E. revert i E. induction src as [|y src IH]; intros [|i] E; cbn in E; try discriminate; [injection E as ->; reflexivity|]. cbn [skipn]. rewrite (IH i E). reflexivity. }
  rewrite F. cbn [firstn copy]. destruct (wr out d x); cbn [bind]; try reflexivity. apply IH. lia.
Qed.
Lemma copy_n_copy {A} (src : list A) count out d : 0 <= count -> copy_n src count out d = copy (firstn (Z.to_nat count) src) out d.
Proof.
  intros H. unfold copy_n. cbv zeta. rewrite copy_n_loop_copy by lia. cbn [skipn].
  destruct (Z.le_gt_cases count (Z.of_nat (length src))).
  - rewrite Z.min_l by lia. reflexivity.
  - rewrite Z.min_r by lia. rewrite Nat2Z.id, firstn_all, firstn_all2 by lia. reflexivity.
Qed.
Lemma copy_if_copy {A} pred : forall (src : list A) out d,
  copy_if src out d pred = (out' <- copy (filter pred src) out d ;; Ok (out', (d + length (filter pred src))%nat)).
Proof.
  induction src as [|x src IH]; intros out d; cbn [copy_if filter copy length]; [rewrite Nat.add_0_r; reflexivity|].
  destruct (pred x); [|apply IH]. cbn [copy length]. destruct (wr out d x); cbn [bind]; try reflexivity. rewrite IH.
  rewrite Nat.add_succ_r. reflexivity.
Qed.

Lemma each_pos_spec {A St} (func : St -> A -> Z -> St * A) : forall l2 fuel st l1 l3 row last,
  last = row + Z.of_nat (length l2) -> (length l2 < fuel)%nat ->
  each_pos_loop func fuel st (l1 ++ l2 ++ l3) (length l1) row last =
  let (st', l2') := visit func st l2 row in Ok (st', l1 ++ l2' ++ l3).
Proof.
  induction l2 as [|x l2 IH]; intros fuel st l1 l3 row last L F; (destruct fuel as [|fuel]; [lia|]); cbn [each_pos_loop visit length] in *.
  - destruct (Z.ltb_spec row last); [lia|]. reflexivity.
  - destruct (Z.ltb_spec row last); [|lia]. cbn [app]. rewrite rd_app. cbn [bind]. destruct (func st x row) as [st1 x']. rewrite wr_app. cbn [bind].
    specialize (IH fuel st1 (l1 ++ [x']) l3 (row + 1) last ltac:(lia) ltac:(lia)). rewrite <- app_assoc, app_length in IH. cbn [app length] in IH. rewrite Nat.add_1_r in IH.
    rewrite IH. destruct (visit func st1 l2 (row + 1)) as [st2 l2']. rewrite <- app_assoc. reflexivity.
Qed.
Lemma begin_at_ra n k : 0 <= n -> 0 <= k < 2 ^ 63 -> begin_at true 0 n k = Ok (Z.min n k).
Proof.
  intros N K. unfold begin_at, safe_advance. rewrite !to_ptrdiff_id by (try rewrite to_ptrdiff_id; lia).
  unfold safe_advance_impl, safe_advance_ra. destruct (Z.ltb_spec k 0); [lia|]. cbv zeta. destruct (Z.ltb_spec (n - 0) 0); [lia|]. f_equal. lia.
Qed.
Lemma each_pos_over {A St} (func : St -> A -> Z -> St * A) : forall fuel st l it row last,
  Z.of_nat (length l) < Z.of_nat it + (last - row) -> (it <= length l)%nat -> last - row < Z.of_nat fuel -> row < last ->
  each_pos_loop func fuel st l it row last = UB.
Proof.
  induction fuel as [|fuel IH]; intros st l it row last H I F L; [lia|]. cbn [each_pos_loop].
  destruct (Z.ltb_spec row last); [|lia]. unfold rd. destruct (nth_error l it) as [x|] eqn:E; [|reflexivity]. cbn [bind].
  assert (it < length l)%nat by (apply nth_error_Some; congruence). destruct (func st x row) as [st1 x']. unfold wr. destruct (Nat.ltb_spec it (length l)); [|lia]. cbn [bind].
  assert (EL : length (upd l it x') = length l). { clear. revert it. induction l as [|y l IH]; intros [|it]; cbn; auto. }
  apply IH; rewrite ?EL; lia.
Qed.

Lemma subset_spec {C} (func : C -> Z -> C) : forall n fuel c first last, last = first + Z.of_nat n -> (n < fuel)%nat ->
  subset_loop func fuel c first last = Ok (fold_left func (map (fun k => first + Z.of_nat k) (seq 0 n)) c).
Proof.
  induction n as [|n IH]; intros fuel c first last L F; (destruct fuel as [|fuel]; [lia|]); cbn [subset_loop].
  - destruct (Z.ltb_spec first last); [lia|]. reflexivity.
  - destruct (Z.ltb_spec first last); [|lia]. rewrite (IH fuel (func c first) (first + 1) last) by lia. f_equal.
    cbn [seq map fold_left]. rewrite Z.add_0_r. f_equal. rewrite <- seq_shift, map_map. apply map_ext. intros k. lia.
Qed.

(** * Sorted insertion *)
Lemma insert_spec {A} (comp : A -> A -> bool) : strict_weak comp -> forall c v, sorted_by comp c ->
  exists l1 l2, c = l1 ++ l2 /\ sorted_insert comp c v = Ok (l1 ++ v :: l2) /\
    (forall x, In x l1 -> comp x v = true) /\ (forall x, In x l2 -> comp x v = false).
Proof.
  intros W c v S. destruct (lower_bound_sorted comp W c v S) as (p & E & (P & B & H)).
  pose proof (sorted_partitioned_lt comp W c v S) as Pt.
  exists (firstn p c), (skipn p c). split; [symmetry; apply firstn_skipn|]. split; [unfold sorted_insert; rewrite E; reflexivity|].
  assert (F : forall k x, nth_error (skipn p c) k = Some x -> nth_error c (p + k) = Some x).
  { clear. revert p. induction c as [|y c IH]; intros [|p] k x; cbn [skipn Nat.add nth_error]; auto. destruct k; discriminate. }
  split; intros x I; apply In_nth_error in I; destruct I as (k & I).
  - assert (k < length (firstn p c))%nat by (apply nth_error_Some; congruence). rewrite firstn_length_le in H0 by lia.
    specialize (B k x H0). destruct (comp x v); [reflexivity|]. cbn in B. symmetry. apply B. rewrite <- (firstn_skipn p c). rewrite nth_error_app1 by (rewrite firstn_length_le; lia). exact I.
  - apply F in I. destruct (comp x v) eqn:C; [|reflexivity]. destruct k as [|k].
    + rewrite Nat.add_0_r in I. specialize (H x I). rewrite C in H. discriminate.
    + assert (exists y, nth_error c p = Some y) as (y & Y).
      { destruct (nth_error c p) eqn:Y; [eauto|]. apply nth_error_None in Y. assert (p + Datatypes.S k < length c)%nat by (apply nth_error_Some; congruence). lia. }
      specialize (H y Y). assert (comp y v = true) as C2 by (apply (Pt p (p + Datatypes.S k)%nat y x); auto; lia). rewrite C2 in H. discriminate.
Qed.
Lemma sorted_app {A} (R : A -> A -> Prop) : forall a b, StronglySorted R a -> StronglySorted R b -> (forall x y, In x a -> In y b -> R x y) -> StronglySorted R (a ++ b).
Proof.
  induction a as [|x a IH]; intros b Sa Sb H; cbn [app]; [exact Sb|]. inversion Sa as [|? ? Sa' Fa]; subst. constructor.
  - apply IH; auto. intros; apply H; [right|]; auto.
  - apply Forall_app. split; [exact Fa|]. apply Forall_forall. intros y Y. apply H; [left; reflexivity|exact Y].
Qed.
Lemma sorted_app_inv {A} (R : A -> A -> Prop) : forall a b, StronglySorted R (a ++ b) -> StronglySorted R a /\ StronglySorted R b /\ (forall x y, In x a -> In y b -> R x y).
Proof.
  induction a as [|x a IH]; intros b S; cbn [app] in *; [repeat split; [constructor|exact S|intros ? ? []]|].
  inversion S as [|? ? S' F]; subst. destruct (IH b S') as (Sa & Sb & H). apply Forall_app in F as [F1 F2]. repeat split; auto.
  - constructor; auto.
  - intros u y [-> | U] Y; [apply (proj1 (Forall_forall _ _) F2); exact Y|auto].
Qed.
Lemma insert_sorted {A} (comp : A -> A -> bool) : strict_weak comp -> forall c v, sorted_by comp c ->
  exists c', sorted_insert comp c v = Ok c' /\ sorted_by comp c' /\ Permutation c' (v :: c).
Proof.
  intros W c v S. destruct (insert_spec comp W c v S) as (l1 & l2 & -> & E & L & R). exists (l1 ++ v :: l2). split; [exact E|].
  split; [|symmetry; apply Permutation_middle]. apply sorted_app_inv in S as (S1 & S2 & H). apply sorted_app; auto.
  - constructor; [exact S2|]. apply Forall_forall. exact R.
  - intros x y X [<- | Y]; [|apply H; auto]. specialize (L x X). destruct W as [Ir Tr _]. destruct (comp v x) eqn:C; [|reflexivity].
    pose proof (Tr _ _ _ L C) as Z. rewrite Ir in Z. discriminate.
Qed.
Lemma insert_all_sorted {A} (comp : A -> A -> bool) : strict_weak comp -> forall vs c, sorted_by comp c ->
  exists c', sorted_insert_all comp c vs = Ok c' /\ sorted_by comp c' /\ Permutation c' (vs ++ c).
Proof.
  intros W. induction vs as [|v vs IH]; intros c S; cbn [sorted_insert_all app]; [exists c; auto|].
  destruct (insert_sorted comp W c v S) as (c1 & E & S1 & P1). rewrite E. cbn [bind]. destruct (IH c1 S1) as (c2 & E2 & S2 & P2). exists c2. split; [exact E2|]. split; [exact S2|].
  rewrite P2. rewrite P1. symmetry. apply Permutation_middle.
Qed.
Lemma insert_equal_reversed {A} (comp : A -> A -> bool) : strict_weak comp -> forall vs c,
  (forall x y, In x (vs ++ c) -> In y (vs ++ c) -> equivalent comp x y) -> sorted_insert_all comp c vs = Ok (rev vs ++ c).
Proof.
  intros W. induction vs as [|v vs IH]; intros c H; cbn [sorted_insert_all rev app]; [reflexivity|].
  assert (S : sorted_by comp c).
  { assert (G : forall x y, In x c -> In y c -> equivalent comp x y) by (intros; apply H; cbn; right; apply in_or_app; auto).
    clear - G. induction c as [|x c IH]; constructor; [apply IH; intros; apply G; right; auto|]. apply Forall_forall. intros y Y. apply (G x y); [left; reflexivity|right; exact Y]. }
  destruct (insert_spec comp W c v S) as (l1 & l2 & E & R & L1 & _).
  assert (l1 = []) as ->.
  { destruct l1 as [|x l1]; [reflexivity|]. specialize (L1 x (or_introl eq_refl)). destruct (H x v) as (Q & _); [right; apply in_or_app; right; rewrite E; left; reflexivity|left; reflexivity|]. congruence. }
  cbn [app] in E, R. subst l2. rewrite R. cbn [bind]. rewrite IH; [rewrite <- app_assoc; reflexivity|].
  intros x y X Y. apply H; cbn; rewrite in_app_iff in *; cbn [In] in *; tauto.
Qed.

(** * Sample *)
Section SampleProofs.
  Context {A E : Type}.
  Variable draw : E -> Z * E.
  Variable keep : Z.
  Lemma settle_len : forall (l : list A) e, (length (fst (settle draw keep l e)) <= length l)%nat.
  Proof.
    induction l as [|x l IH]; intros e; cbn [settle length fst]; [lia|]. destruct (draw e) as [r e']. destruct (r <=? keep); [cbn; lia|]. specialize (IH e'). lia.
  Qed.
  Lemma settle_traverse : forall (l : list A) e fuel, (length l < fuel)%nat ->
    traverse draw keep fuel (settle draw keep l e) = Ok (chosen keep l (draws draw (length l) e)).
  Proof.
    unfold chosen. induction l as [|x l IH]; intros e fuel F.
    - destruct fuel; [lia|]. reflexivity.
    - cbn [settle length draws combine filter map fst snd]. destruct (draw e) as [r e'] eqn:D. cbn [fst snd]. destruct (r <=? keep) eqn:K.
      + destruct fuel as [|fuel]; [lia|]. cbn [traverse advance bind map fst]. rewrite IH by (cbn in F; lia). reflexivity.
      + apply IH. cbn in F. lia.
  Qed.
  Lemma traverse_fuel : forall f1 f2 (v : list A * E), (length (fst v) < f1)%nat -> (length (fst v) < f2)%nat ->
    traverse draw keep f1 v = traverse draw keep f2 v.
  Proof.
    induction f1 as [|f1 IH]; intros [|f2] [l e] F1 F2; cbn [fst] in *; try lia. cbn [traverse]. destruct l as [|x l]; [reflexivity|].
    cbn [advance bind]. pose proof (settle_len l e). cbn [length] in *. rewrite (IH f2) by lia. reflexivity.
  Qed.
  Lemma sample_view size (l : list A) e : keep < size -> exists v, sample draw keep size l e = Ok v /\
    run_view draw keep v = Ok (chosen keep l (draws draw (length l) e)).
  Proof.
    intros K. unfold sample. destruct (Z.ltb_spec keep size); [|lia]. eexists. split; [reflexivity|]. unfold run_view.
    rewrite (traverse_fuel _ (Datatypes.S (length l))); [apply settle_traverse; lia|lia|]. pose proof (settle_len l e). lia.
  Qed.
End SampleProofs.
Lemma draws_len {E} (draw : E -> Z * E) : forall n e, length (draws draw n e) = n.
Proof. induction n as [|n IH]; intros e; cbn; [reflexivity|]. rewrite IH. reflexivity. Qed.
Lemma chosen_map {A B} (f : A -> B) keep : forall l nums, chosen keep (map f l) nums = map f (chosen keep l nums).
Proof.
  unfold chosen. induction l as [|x l IH]; intros [|n nums]; cbn [map combine filter fst snd]; try reflexivity. destruct (n <=? keep); cbn [map fst]; rewrite IH; reflexivity.
Qed.
Lemma chosen_all {A} keep : forall (l : list A) nums, length nums = length l -> Forall (fun n => n <= keep) nums -> chosen keep l nums = l.
Proof.
  unfold chosen. induction l as [|x l IH]; intros [|n nums] L F; cbn in L; try discriminate; [reflexivity|]. inversion F; subst. cbn [combine filter snd].
  destruct (Z.leb_spec n keep); [|lia]. cbn [map fst]. rewrite IH by (auto; lia). reflexivity.
Qed.
Lemma chosen_none {A} keep : forall (l : list A) nums, Forall (fun n => keep < n) nums -> chosen keep l nums = [].
Proof.
  unfold chosen. induction l as [|x l IH]; intros [|n nums] F; [reflexivity..|]. inversion F; subst. cbn [combine filter snd].
  destruct (Z.leb_spec n keep); [lia|]. apply IH. assumption.
Qed.

(** * ForEach and views *)
Lemma for_each_visit {A St} (fn : St -> A -> St * A) : forall l st row, for_each fn st l = visit (fun st x _ => fn st x) st l row.
Proof.
  induction l as [|x l IH]; intros st row; cbn [for_each visit]; [reflexivity|]. destruct (fn st x) as [st1 x']. rewrite (IH st1 (row + 1)). reflexivity.
Qed.
Lemma indexed_spec {A St} (fn : St -> A -> St * A) : forall l2 fuel st l1, (length l2 < fuel)%nat ->
  indexed_loop fn fuel st (l1 ++ l2) (length l1) = let (st', l') := for_each fn st l2 in Ok (st', l1 ++ l').
Proof.
  induction l2 as [|x l2 IH]; intros fuel st l1 F; (destruct fuel as [|fuel]; [lia|]); cbn [indexed_loop for_each].
  - rewrite app_nil_r. destruct (Nat.ltb_spec (length l1) (length l1)); [lia|]. reflexivity.
  - rewrite app_length. cbn [length] in *. destruct (Nat.ltb_spec (length l1) (length l1 + Datatypes.S (length l2))); [|lia].
    rewrite rd_app. cbn [bind]. destruct (fn st x) as [st1 x']. rewrite wr_app. cbn [bind].
    specialize (IH fuel st1 (l1 ++ [x']) ltac:(lia)). rewrite <- app_assoc, app_length in IH. cbn [app length] in IH. rewrite Nat.add_1_r in IH. rewrite IH.
    destruct (for_each fn st1 l2) as [st2 l']. rewrite <- app_assoc. reflexivity.
Qed.
Lemma for_each_indexed_spec {A St} (fn : St -> A -> St * A) st l : for_each_indexed fn st l = Ok (for_each fn st l).
Proof.
  unfold for_each_indexed. pose proof (indexed_spec fn l (Datatypes.S (length l)) st [] ltac:(lia)) as H. cbn [app length] in H. rewrite H. destruct (for_each fn st l). reflexivity.
Qed.
Lemma view_loop_spec {V W} (get : list V -> res W) (g : list V -> W) : forall l2 fuel l1,
  (forall t, In t l2 -> get t = Ok (g t)) -> (length l2 < fuel)%nat ->
  view_loop fuel get (l1 ++ l2) (length l1) (length (l1 ++ l2)) = Ok (map g l2).
Proof.
  induction l2 as [|x l2 IH]; intros fuel l1 H F; (destruct fuel as [|fuel]; [lia|]); cbn [view_loop map].
  - rewrite app_nil_r, Nat.eqb_refl. reflexivity.
  - rewrite app_length. cbn [length] in *. destruct (Nat.eqb_spec (length l1) (length l1 + Datatypes.S (length l2))); [lia|]. rewrite rd_app. cbn [bind].
    rewrite H by (left; reflexivity). cbn [bind]. specialize (IH fuel (l1 ++ [x])). rewrite <- app_assoc, !app_length in IH. cbn [app length] in IH.
    replace (length l1 + 1)%nat with (Datatypes.S (length l1)) in IH by lia.
    replace (length l1 + (1 + length l2))%nat with (length l1 + Datatypes.S (length l2))%nat in IH by lia.
    rewrite IH; [reflexivity| |lia]. intros t T. apply H. right. exact T.
Qed.
Lemma get_elems_spec {V} (d : V) t : forall indices, (forall i, In i indices -> (i < length t)%nat) -> get_elems indices t = Ok (map (fun i => nth i t d) indices).
Proof.
  induction indices as [|i indices IH]; intros H; cbn [get_elems map]; [reflexivity|]. unfold get_elem, rd. rewrite (nth_error_nth' t d) by (apply H; left; reflexivity).
  cbn [bind]. rewrite IH by (intros; apply H; right; assumption). reflexivity.
Qed.
Lemma elements_spec {V} (d : V) indices r : in_arity indices r -> elements indices r = Ok (map (fun t => map (fun i => nth i t d) indices) r).
Proof.
  intros H. unfold elements. apply (view_loop_spec (get_elems indices) (fun t => map (fun i => nth i t d) indices) r (Datatypes.S (length r)) []); [|lia].
  intros t T. apply get_elems_spec. intros i I. eapply H; eauto.
Qed.
Lemma element_spec {V} (d : V) i r : in_arity [i] r -> element i r = Ok (map (fun t => nth i t d) r).
Proof.
  intros H. unfold element. apply (view_loop_spec (get_elem i) (fun t => nth i t d) r (Datatypes.S (length r)) []); [|lia].
  intros t T. unfold get_elem, rd. rewrite (nth_error_nth' t d); [reflexivity|]. apply (H t i T). left. reflexivity.
Qed.

(** * Swaps *)
Lemma upd_len {A} (l : list A) : forall i x, length (upd l i x) = length l.
Proof. induction l as [|y l IH]; intros [|i] x; cbn; auto. Qed.
Lemma upd_nth {A} (l : list A) : forall i k x, (i < length l)%nat -> nth_error (upd l i x) k = if (k =? i)%nat then Some x else nth_error l k.
Proof. induction l as [|y l IH]; intros [|i] [|k] x L; cbn in *; try lia; try reflexivity. apply IH. lia. Qed.
Lemma wr_ok {A} (l : list A) i x : (i < length l)%nat -> wr l i x = Ok (upd l i x).
Proof. intros H. unfold wr. destruct (Nat.ltb_spec i (length l)); [reflexivity|lia]. Qed.
Lemma rd_ok {A} (l : list A) i : (i < length l)%nat -> exists x, rd l i = Ok x /\ nth_error l i = Some x.
Proof. intros H. unfold rd. destruct (nth_error l i) eqn:E; [eauto|]. apply nth_error_None in E. lia. Qed.
Lemma swap_spec {A} (mem : list A) i j : (i < length mem)%nat -> (j < length mem)%nat ->
  exists mem', iter_swap mem i j = Ok mem' /\ exchanged mem i j mem'.
Proof.
  intros L1 L2. unfold iter_swap. destruct (rd_ok mem i L1) as (x & -> & X). destruct (rd_ok mem j L2) as (y & -> & Y). cbn [bind].
  rewrite wr_ok by assumption. cbn [bind]. rewrite wr_ok by (rewrite upd_len; assumption). eexists. split; [reflexivity|].
  unfold exchanged. rewrite !upd_len. split; [reflexivity|]. split; [|split; [|intros k N1 N2]]; rewrite upd_nth by (rewrite upd_len; assumption); rewrite upd_nth by assumption.
  - rewrite Nat.eqb_refl. destruct (Nat.eqb_spec i j); [subst; congruence|congruence].
  - rewrite Nat.eqb_refl. congruence.
  - destruct (Nat.eqb_spec k j), (Nat.eqb_spec k i); congruence.
Qed.
Lemma cswap_spec {A} (mem : list A) i j : (i < length mem)%nat -> (j < length mem)%nat ->
  exists mem', cswap mem i j = Ok mem' /\ exchanged mem i j mem'.
Proof.
  intros L1 L2. unfold cswap. destruct (rd_ok mem i L1) as (x & -> & X). destruct (rd_ok mem j L2) as (y & -> & Y). cbn [bind].
  rewrite wr_ok by assumption. cbn [bind]. rewrite wr_ok by (rewrite upd_len; assumption). eexists. split; [reflexivity|].
  unfold exchanged. rewrite !upd_len. split; [reflexivity|]. split; [|split; [|intros k N1 N2]]; rewrite upd_nth by (rewrite upd_len; assumption); rewrite upd_nth by assumption.
  - rewrite Nat.eqb_refl. congruence.
  - rewrite Nat.eqb_refl. destruct (Nat.eqb_spec j i); [subst; congruence|congruence].
  - destruct (Nat.eqb_spec k j), (Nat.eqb_spec k i); congruence.
Qed.
Lemma swap_ranges_spec {A} : forall p1 p2 (mem : list A), length p1 = length p2 -> NoDup (p1 ++ p2) ->
  (forall p, In p (p1 ++ p2) -> (p < length mem)%nat) ->
  exists mem', swap_ranges mem p1 p2 = Ok (mem', p1, p2) /\
    (forall k p q, nth_error p1 k = Some p -> nth_error p2 k = Some q -> nth_error mem' p = nth_error mem q /\ nth_error mem' q = nth_error mem p) /\
    (forall p, ~ In p (p1 ++ p2) -> nth_error mem' p = nth_error mem p).
Proof.
  induction p1 as [|p p1 IH]; intros [|q p2] mem L N B; cbn in L; try discriminate; cbn [swap_ranges app] in *.
  - exists mem. split; [reflexivity|]. split; [intros [|k]; discriminate|reflexivity].
  - inversion N as [|? ? Np N']; subst. pose proof (NoDup_remove_1 _ _ _ N') as N1. pose proof (NoDup_remove_2 _ _ _ N') as Nq.
    rewrite in_app_iff in Np. cbn [In] in Np.
    destruct (swap_spec mem p q) as (m1 & E & (Len & X1 & X2 & X3)); [apply B; left; reflexivity|apply B; right; apply in_or_app; right; left; reflexivity|].
    rewrite E. cbn [bind]. destruct (IH p2 m1) as (m2 & E2 & Y1 & Y2); [lia|exact N1| |].
    { intros r R. rewrite Len. apply B. right. apply in_app_iff in R. apply in_or_app. cbn. tauto. }
    rewrite E2. cbn [bind]. exists m2. split; [reflexivity|]. rewrite in_app_iff in Nq.
    assert (K : forall r, In r p1 \/ In r p2 -> nth_error m1 r = nth_error mem r).
    { intros r R. apply X3; intros ->; tauto. }
    split.
    + intros [|k] a b Ha Hb; cbn [nth_error] in *.
      * injection Ha as <-. injection Hb as <-. rewrite !Y2 by (rewrite in_app_iff; tauto). auto.
      * destruct (Y1 k a b Ha Hb) as [U1 U2]. apply nth_error_In in Ha. apply nth_error_In in Hb. rewrite U1, U2, !K by tauto. auto.
    + intros r R. cbn [In] in R. rewrite in_app_iff in R. cbn [In] in R. rewrite Y2 by (rewrite in_app_iff; tauto). apply X3; intros ->; tauto.
Qed.

(** * The statements of the properties *)

Lemma chosen_seq_in keep : forall n s nums k, length nums = n -> existsb (Nat.eqb k) (chosen keep (seq s n) nums) = true ->
  (s <= k)%nat.
Proof.
  unfold chosen. induction n as [|n IH]; intros s [|m nums] k L H; cbn in L; try discriminate. cbn [seq combine filter snd] in H.
  destruct (m <=? keep); cbn [map fst existsb] in H.
  - destruct (Nat.eqb_spec k s); [lia|]. cbn [orb] in H. apply IH in H; lia.
  - apply IH in H; lia.
Qed.
Lemma chosen_positions_gen {A} keep : forall (l : list A) n s nums, length l = n -> length nums = n ->
  chosen keep l nums = map fst (filter (fun p => existsb (Nat.eqb (snd p)) (chosen keep (seq s n) nums)) (combine l (seq s n))).
Proof.
  induction l as [|x l IH]; intros n s nums L N; [reflexivity|]. destruct n as [|n]; [discriminate|]. destruct nums as [|m nums]; [discriminate|]. cbn in L, N.
  specialize (IH n (Datatypes.S s) nums ltac:(lia) ltac:(lia)).
  assert (G : chosen keep (seq s (Datatypes.S n)) (m :: nums) = (if m <=? keep then [s] else []) ++ chosen keep (seq (Datatypes.S s) n) nums).
  { unfold chosen. cbn [seq combine filter snd]. destruct (m <=? keep); reflexivity. }
  assert (G2 : chosen keep (x :: l) (m :: nums) = (if m <=? keep then [x] else []) ++ chosen keep l nums).
  { unfold chosen. cbn [seq combine filter snd]. destruct (m <=? keep); reflexivity. }
  rewrite G, G2. clear G G2. cbn [seq combine filter snd].
  assert (F : existsb (Nat.eqb s) ((if m <=? keep then [s] else []) ++ chosen keep (seq (Datatypes.S s) n) nums) = (m <=? keep)).
  { rewrite existsb_app. destruct (m <=? keep); cbn [existsb]; [rewrite Nat.eqb_refl; reflexivity|]. cbn [orb].
    destruct (existsb (Nat.eqb s) (chosen keep (seq (Datatypes.S s) n) nums)) eqn:H; [|reflexivity]. apply chosen_seq_in in H; lia. }
  rewrite F. transitivity ((if m <=? keep then [x] else []) ++ map fst (filter (fun p => existsb (Nat.eqb (snd p)) ((if m <=? keep then [s] else []) ++ chosen keep (seq (Datatypes.S s) n) nums)) (combine l (seq (Datatypes.S s) n)))).
  2: destruct (m <=? keep); reflexivity. f_equal. rewrite IH at 1. f_equal. apply filter_ext_in. intros [a k] I. cbn [snd]. apply in_combine_r in I. apply in_seq in I.
  rewrite existsb_app. destruct (m <=? keep); cbn [existsb orb]; [|reflexivity]. destruct (Nat.eqb_spec k s); [lia|]. reflexivity.
Qed.
Lemma chosen_positions {A} keep (l : list A) n nums : length l = n -> length nums = n ->
  chosen keep l nums = map fst (filter (fun p => existsb (Nat.eqb (snd p)) (chosen keep (seq 0 n) nums)) (combine l (seq 0 n))).
Proof. intros L N. apply chosen_positions_gen; assumption. Qed.

Lemma c293_copy :
  forall (A : Type) (src out : list A) d, (d <= length out)%nat ->
  ((d + length src <= length out)%nat -> copy src out d = Ok (written out d src)) /\
  ((length out < d + length src)%nat -> copy src out d = UB).
Proof.
  intros A src out d D. split; intros H; [apply copy_spec; exact H|apply copy_over; assumption].
Qed.

Lemma c293_copy_n :
  forall (A : Type) (src out : list A) count d, 0 <= count -> copy_n src count out d = copy (firstn (Z.to_nat count) src) out d.
Proof.
  intros A src out count d H. apply copy_n_copy. exact H.
Qed.

Lemma c293_copy_if :
  forall (A : Type) (src out : list A) d pred, (d + length (filter pred src) <= length out)%nat ->
  copy_if src out d pred = Ok (written out d (filter pred src), (d + length (filter pred src))%nat).
Proof.
  intros A src out d pred H. rewrite copy_if_copy, copy_spec by exact H. reflexivity.
Qed.

Lemma c293_with_pos :
  forall (A St : Type) (func : St -> A -> Z -> St * A) st (l1 l2 l3 : list A), Z.of_nat (length l1) < 2 ^ 63 ->
  let first := Z.of_nat (length l1) in
  for_each_with_pos func st (l1 ++ l2 ++ l3) first (first + Z.of_nat (length l2)) =
    Ok (fst (visit func st l2 first), l1 ++ snd (visit func st l2 first) ++ l3) /\
  for_each_with_pos_all func st l2 = Ok (visit func st l2 0).
Proof.
  intros A St func st l1 l2 l3 B first. split.
  - unfold for_each_with_pos. rewrite begin_at_ra by (subst first; lia). cbn [bind]. replace (Z.to_nat (Z.min (Z.of_nat (length (l1 ++ l2 ++ l3))) first)) with (length l1) by (subst first; rewrite app_length; lia).
    rewrite each_pos_spec by lia. destruct (visit func st l2 first). reflexivity.
  - unfold for_each_with_pos_all, for_each_with_pos. rewrite begin_at_ra by lia. cbn [bind]. pose proof (each_pos_spec func l2 (Datatypes.S (Z.to_nat (Z.of_nat (length l2) - 0))) st [] [] 0 (Z.of_nat (length l2)) ltac:(lia) ltac:(lia)) as H.
    cbn [app length] in H. rewrite app_nil_r in H. replace (Z.to_nat (Z.min (Z.of_nat (length l2)) 0)) with 0%nat by lia. rewrite H. destruct (visit func st l2 0). rewrite app_nil_r. reflexivity.
Qed.

Lemma c293_with_pos_outside :
  forall (A St : Type) (func : St -> A -> Z -> St * A) st (l : list A) first last, 0 <= first < last -> first < 2 ^ 63 -> Z.of_nat (length l) < last ->
  for_each_with_pos func st l first last = UB.
Proof.
  intros A St func st l first last F B L. unfold for_each_with_pos. rewrite begin_at_ra by lia. cbn [bind]. apply each_pos_over; lia.
Qed.

Lemma c293_subset :
  forall (C : Type) (func : C -> Z -> C) c first n,
  for_each_subset func c first (first + Z.of_nat n) = Ok (fold_left func (map (fun k => first + Z.of_nat k) (seq 0 n)) c).
Proof.
  intros C func c first n. unfold for_each_subset. apply subset_spec; lia.
Qed.

Lemma c294_sorted :
  forall (A : Type) (comp : A -> A -> bool), strict_weak comp -> forall values c, sorted_by comp c ->
  exists c', sorted_insert_all comp c values = Ok c' /\ sorted_by comp c' /\ Permutation c' (values ++ c).
Proof.
  intros A comp W values c S. apply insert_all_sorted; assumption.
Qed.

Lemma c294_position :
  forall (A : Type) (comp : A -> A -> bool), strict_weak comp -> forall c v, sorted_by comp c ->
  exists l1 l2, c = l1 ++ l2 /\ sorted_insert comp c v = Ok (l1 ++ v :: l2) /\
    (forall x, In x l1 -> comp x v = true) /\ (forall x, In x l2 -> comp x v = false).
Proof.
  intros A comp W c v S. apply insert_spec; assumption.
Qed.

Lemma c294_stable_refuted :
  forall (A : Type) (comp : A -> A -> bool), strict_weak comp -> forall values c,
  (forall x y, In x (values ++ c) -> In y (values ++ c) -> equivalent comp x y) -> sorted_insert_all comp c values = Ok (rev values ++ c).
Proof.
  intros A comp W values c H. apply insert_equal_reversed; assumption.
Qed.

Lemma c295_sample :
  forall (A E : Type) (draw : E -> Z * E) keep size (l : list A) e, keep < size ->
  exists v, sample draw keep size l e = Ok v /\ run_view draw keep v = Ok (chosen keep l (draws draw (length l) e)).
Proof.
  intros A E draw keep size l e K. apply sample_view. exact K.
Qed.

Lemma c295_extremes :
  forall (A E : Type) (draw : E -> Z * E) keep size (l : list A) e, (forall e, 1 <= fst (draw e) <= size) ->
  (size <= keep -> sample draw keep size l e = Throw) /\
  (keep = 0 -> 0 < size -> exists v, sample draw keep size l e = Ok v /\ run_view draw keep v = Ok []).
Proof.
  intros A E draw keep size l e D. split; [intros H; unfold sample; destruct (Z.ltb_spec keep size); [lia|reflexivity]|].
  intros K P. destruct (sample_view draw keep size l e ltac:(lia)) as (v & V & R). exists v. split; [exact V|]. rewrite R. rewrite chosen_none; [reflexivity|].
  subst keep. clear - D. revert e. induction (length l) as [|n IH]; intros e; cbn [draws]; constructor; [specialize (D e); lia|apply IH].
Qed.

Lemma c295_independent_refuted :
  forall (E : Type) (draw : E -> Z * E) keep size e n (A B : Type) (la : list A) (lb : list B), keep < size -> length la = n -> length lb = n ->
  exists va vb positions, sample draw keep size la e = Ok va /\ sample draw keep size lb e = Ok vb /\
    run_view draw keep va = Ok (map fst (filter (fun p => existsb (Nat.eqb (snd p)) positions) (combine la (seq 0 n)))) /\
    run_view draw keep vb = Ok (map fst (filter (fun p => existsb (Nat.eqb (snd p)) positions) (combine lb (seq 0 n)))).
Proof.
  intros E draw keep size e n A B la lb K La Lb. destruct (sample_view draw keep size la e K) as (va & Va & Ra). destruct (sample_view draw keep size lb e K) as (vb & Vb & Rb).
  exists va, vb, (chosen keep (seq 0 n) (draws draw n e)). split; [exact Va|]. split; [exact Vb|]. rewrite Ra, Rb, La, Lb. split; f_equal; apply chosen_positions; auto using draws_len.
Qed.

Lemma c296_for_each :
  forall (A St : Type) (fn : St -> A -> St * A) st (l : list A),
  for_each fn st l = visit (fun st x _ => fn st x) st l 0 /\ for_each_indexed fn st l = Ok (for_each fn st l).
Proof.
  intros A St fn st l. split; [apply for_each_visit|apply for_each_indexed_spec].
Qed.

Lemma c296_elements :
  forall (V : Type) (d : V) indices r, in_arity indices r ->
  elements indices r = Ok (map (fun t => map (fun i => nth i t d) indices) r) /\ swizzle indices r = elements indices r.
Proof.
  intros V d indices r H. split; [apply elements_spec; exact H|reflexivity].
Qed.

Lemma c296_element :
  forall (V : Type) (d : V) i r, in_arity [i] r -> element i r = Ok (map (fun t => nth i t d) r).
Proof.
  intros V d i r H. apply element_spec. exact H.
Qed.

Lemma c296_maybe :
  forall (A : Type) (x y : A), (In y (maybe_elements (Some x)) <-> y = x) /\ length (maybe_elements (Some x)) = 1%nat /\ maybe_elements (@None A) = [].
Proof.
  intros A x y. split; [cbn; split; [intros [-> | []]; reflexivity|intros ->; left; reflexivity]|]. split; reflexivity.
Qed.

Lemma c297_swap :
  forall (A : Type) (mem : list A) i j, (i < length mem)%nat -> (j < length mem)%nat ->
  (exists mem', cswap mem i j = Ok mem' /\ exchanged mem i j mem') /\ (exists mem', iter_swap mem i j = Ok mem' /\ exchanged mem i j mem').
Proof.
  intros A mem i j Hi Hj. split; [apply cswap_spec|apply swap_spec]; assumption.
Qed.

Lemma c297_ranges_refuted :
  forall (A : Type) (p1 p2 : list nat) (mem : list A), length p1 = length p2 -> NoDup (p1 ++ p2) -> (forall p, In p (p1 ++ p2) -> (p < length mem)%nat) ->
  exists mem', swap_ranges mem p1 p2 = Ok (mem', p1, p2) /\
    (forall k p q, nth_error p1 k = Some p -> nth_error p2 k = Some q -> nth_error mem' p = nth_error mem q /\ nth_error mem' q = nth_error mem p) /\
    (forall p, ~ In p (p1 ++ p2) -> nth_error mem' p = nth_error mem p).
Proof.
  intros A p1 p2 mem L N B. apply swap_ranges_spec; assumption.
Qed.

Lemma c297_ranges_short :
  forall (A : Type) (p1 p2 : list nat) (mem : list A), (length p2 < length p1)%nat -> forall r, swap_ranges mem p1 p2 <> Ok r.
Proof.
  intros A. induction p1 as [|p p1 IH]; intros [|q p2] mem L r; cbn [length swap_ranges] in *; try lia; try discriminate. destruct (iter_swap mem p q) as [m| | |]; cbn [bind]; try discriminate.
  specialize (IH p2 m ltac:(lia)). destruct (swap_ranges m p1 p2) as [[[m' a] b]| | |]; cbn [bind]; try discriminate. exfalso. eapply IH. reflexivity.
Qed.
