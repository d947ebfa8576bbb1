(** Proofs about the small tools. *)
From Coq Require Import Permutation ZifyNat Zquot.
From Verif Require Import Common CommonProofs Ints SmallTools SpecSmallTools.
Open Scope Z_scope.
Local Arguments Z.pow : simpl never.

(** * ft.h *)
Lemma apply_at_nth e args fs : forall i idx, 0 <= idx -> Z.of_nat i <= idx ->
  apply_at e i idx fs args =
  match nth_error fs (Z.to_nat (idx - Z.of_nat i)) with
  | Some f => if f_takes f (map fst args) then Answered (f_run f (map snd args)) else if e && f_takes f [] then Answered (f_run f []) else Aborted
  | None => Aborted
  end.
Proof.
  induction fs as [|f fs IH]; intros i idx H L; cbn [apply_at]; [rewrite (proj2 (nth_error_None [] _)) by (cbn; lia); reflexivity|].
  destruct (Z.eqb_spec idx (Z.of_nat i)) as [->|N].
  - rewrite Z.sub_diag. reflexivity.
  - rewrite IH by lia. replace (Z.to_nat (idx - Z.of_nat i)) with (S (Z.to_nat (idx - Z.of_nat (S i)))) by lia. reflexivity.
Qed.
Lemma set_at_nth t run fs : forall i idx, 0 <= idx -> Z.of_nat i <= idx ->
  set_at i idx fs t run =
  match nth_error fs (Z.to_nat (idx - Z.of_nat i)) with
  | Some f => if f_sets f t then Some (upd fs (Z.to_nat (idx - Z.of_nat i)) (Fn (f_takes f) (f_sets f) run)) else None
  | None => None
  end.
Proof.
  induction fs as [|f fs IH]; intros i idx H L; cbn [set_at]; [rewrite (proj2 (nth_error_None [] _)) by (cbn; lia); reflexivity|].
  destruct (Z.eqb_spec idx (Z.of_nat i)) as [->|N].
  - rewrite Z.sub_diag. cbn [nth_error Z.to_nat]. reflexivity.
  - rewrite IH by lia. replace (Z.to_nat (idx - Z.of_nat i)) with (S (Z.to_nat (idx - Z.of_nat (S i)))) by lia. cbn [nth_error].
    destruct (nth_error fs _) as [g|]; auto. destruct (f_sets g t); auto.
Qed.

(** * ac.h *)
Section Nested.
  Context {T : Type}.
  Lemma nested_ind2 (P : nested T -> Prop) (Q : list (nested T) -> Prop) :
    (forall x, P (Leaf x)) -> (forall l, Q l -> P (Arr l)) -> Q [] -> (forall a l, P a -> Q l -> Q (a :: l)) -> forall a, P a.
  Proof.
    intros HL HA HN HC. fix F 1. intros [x|l]; [apply HL|]. apply HA. induction l as [|a l IH]; [exact HN|]. apply HC; [apply F|exact IH].
  Qed.
End Nested.
Section Cmp.
  Context {T R : Type}.
  Variable cmp : T -> T -> R.
  Variable same : R -> R -> bool.
  Variable eqv : R.
  Hypothesis same_eq : forall x y, same x y = true <-> x = y.
  Lemma first_app xs ys xs' ys' r r' : length xs = length ys -> first_result cmp eqv xs ys r -> first_result cmp eqv xs' ys' r' ->
    first_result cmp eqv (xs ++ xs') (ys ++ ys') (if negb (same r eqv) then r else r').
  Proof.
    intros L H H'. destruct H as [(-> & A) | (i & x & y & Ex & Ey & Er & Nr & A)].
    - rewrite (proj2 (same_eq eqv eqv) eq_refl). cbn [negb].
      assert (B : forall j x y, (j < length xs)%nat -> nth_error (xs ++ xs') j = Some x -> nth_error (ys ++ ys') j = Some y -> cmp x y = eqv).
      { intros j x y J Ex Ey. rewrite nth_error_app1 in Ex, Ey by lia. eauto. }
      destruct H' as [(-> & A') | (i & x & y & Ex & Ey & Er & Nr & A')].
      + left. split; auto. intros j x y Ex Ey. destruct (Nat.lt_ge_cases j (length xs)) as [J|J]; [eauto|].
        rewrite nth_error_app2 in Ex, Ey by lia. rewrite <- L in Ey. eauto.
      + right. exists (length xs + i)%nat, x, y. split; [rewrite nth_error_app2 by lia; rewrite <- Ex; f_equal; lia|]. split; [rewrite nth_error_app2 by lia; rewrite <- Ey; f_equal; lia|].
        split; auto. split; auto. intros j x' y' J Ex' Ey'. destruct (Nat.lt_ge_cases j (length xs)) as [J'|J']; [eauto|].
        rewrite nth_error_app2 in Ex', Ey' by lia. rewrite <- L in Ey'. apply (A' (j - length xs)%nat); auto. lia.
    - assert (S' : same r eqv = false) by (destruct (same r eqv) eqn:E; auto; apply same_eq in E; congruence). rewrite S'. cbn [negb].
      right. assert (I1 : (i < length xs)%nat) by (apply nth_error_Some; congruence).
      exists i, x, y. split; [rewrite nth_error_app1; auto|]. split; [rewrite nth_error_app1; auto; lia|]. split; auto. split; auto.
      intros j x' y' J Ex' Ey'. rewrite nth_error_app1 in Ex', Ey' by lia. eauto.
  Qed.
  Lemma array_cmp_ok a : forall b, same_shape a b -> first_result cmp eqv (flatten a) (flatten b) (array_cmp cmp same eqv a b) /\ length (flatten a) = length (flatten b).
  Proof.
    revert a. apply (nested_ind2 (fun a => forall b, same_shape a b -> first_result cmp eqv (flatten a) (flatten b) (array_cmp cmp same eqv a b) /\ length (flatten a) = length (flatten b))
      (fun l => forall m, Forall2 same_shape l m ->
      first_result cmp eqv (concat (map flatten l)) (concat (map flatten m)) (array_cmp cmp same eqv (Arr l) (Arr m)) /\ length (concat (map flatten l)) = length (concat (map flatten m)))).
    - intros x b H. inversion H; subst. cbn [flatten array_cmp]. split; auto.
      destruct (same (cmp x y) eqv) eqn:E.
      + apply same_eq in E. left. split; auto. intros [|[|i]] u v; cbn; intros Eu Ev; try discriminate. congruence.
      + right. exists 0%nat, x, y. repeat (split; auto). { intros K. apply same_eq in K. congruence. } intros; lia.
    - intros l Hl b H. inversion H; subst. apply Hl; auto.
    - intros m H. inversion H; subst. split; auto. left. split; auto. intros [|i] u v; cbn; discriminate.
    - intros a l IHa IHa0 m H. inversion H as [|? b ? m' Hab Hlm]; subst. destruct (IHa b Hab) as (F1 & L1). destruct (IHa0 m' Hlm) as (F2 & L2).
      cbn [map concat]. split; [|rewrite !app_length; lia]. exact (first_app _ _ _ _ _ _ L1 F1 F2).
  Qed.
End Cmp.

(** * bh.h *)
Lemma sz_small x : 0 <= x < 2 ^ 64 -> sz x = x.
Proof. intros H. unfold sz, wrap. apply Z.mod_small. exact H. Qed.
Lemma sz_negative x : - 2 ^ 63 <= x < 0 -> 2 ^ 63 <= sz x.
Proof. intros H. unfold sz, wrap. replace x with (x + 2 ^ 64 + (-1) * 2 ^ 64) by lia. rewrite Z.mod_add by lia. rewrite Z.mod_small by lia. lia. Qed.
Lemma bits_at_ok dbg ty ps : forall b, Z.of_nat (length b) <= 2 ^ 63 -> Forall (fun p => 0 <= p < Z.of_nat (length b)) ps ->
  exists b', bits_at dbg ty b ps = Ok b' /\ length b' = length b /\
    forall i, (nth_error b' i = Some true <-> nth_error b i = Some true \/ ((i < length b)%nat /\ In (Z.of_nat i) ps)).
Proof.
  induction ps as [|p ps IH]; intros b L F; cbn [bits_at].
  - exists b. split; auto. split; auto. intros i. split; [auto|]. intros [H|(_ & [])]; auto.
  - inversion F as [|? ? Hp F']; subst. rewrite sz_small by lia. rewrite (proj2 (Z.leb_le 0 p)), orb_true_r by lia. rewrite (proj2 (Z.ltb_lt p _)) by lia.
    cbn [negb]. rewrite !andb_false_r. unfold bs_set. rewrite (proj2 (Z.ltb_lt p _)) by lia. unfold wr.
    destruct (Nat.ltb_spec (Z.to_nat p) (length b)) as [H|H]; [|lia]. cbn [bind].
    destruct (IH (upd b (Z.to_nat p) true)) as (b' & E & Lb & B); [rewrite upd_length; auto|rewrite upd_length; auto|].
    exists b'. rewrite upd_length in Lb. split; auto. split; auto. intros i. rewrite B, upd_length. destruct (Nat.eq_dec i (Z.to_nat p)) as [->|N].
    + rewrite nth_error_upd_eq by auto. split; auto. intros _. right. split; auto. left. lia.
    + rewrite nth_error_upd_ne by auto. split; intros [K|(K & I)]; auto.
      * right. split; auto. right. auto.
      * destruct I as [->|I]; [rewrite Nat2Z.id in N; congruence|auto].
Qed.
Lemma bits_at_throw dbg ty ps : forall b, Z.of_nat (length b) <= 2 ^ 63 -> Forall (fun p => - 2 ^ 63 <= p < 2 ^ 64) ps ->
  (exists p, In p ps /\ ~ 0 <= p < Z.of_nat (length b)) -> bits_at dbg ty b ps = Throw.
Proof.
  induction ps as [|p ps IH]; intros b L F (q & I & N); [destruct I|]. inversion F as [|? ? Hp F']; subst. cbn [bits_at].
  destruct (dbg && negb (negb (signed ty) || (0 <=? p))) eqn:D1; [reflexivity|].
  destruct (dbg && negb (sz p <? Z.of_nat (length b))) eqn:D2; [reflexivity|].
  unfold bs_set. destruct (Z.ltb_spec (sz p) (Z.of_nat (length b))) as [H|H]; [|reflexivity].
  destruct (Z_lt_ge_dec p 0) as [Hn|Hn]; [pose proof (sz_negative p ltac:(lia)); lia|]. rewrite sz_small in * by lia.
  unfold wr. destruct (Nat.ltb_spec (Z.to_nat p) (length b)) as [H'|H']; [|lia]. cbn [bind]. apply IH; rewrite ?upd_length; auto.
  exists q. split; auto. destruct I as [->|I]; auto. lia.
Qed.

(** * cl.h *)
Definition cl_inv (s : cl) : Prop := match cl_cached s with Some x => nth_error (cl_mem s) (cl_pos s) = Some x | None => True end.
Definition fresh_of (s : cl) : bool := match cl_cached s with Some _ => false | None => true end.
Lemma cl_value_ok s : cl_inv s -> match nth_error (cl_mem s) (cl_pos s) with
  | Some x => cl_value s = Ok (Cl (cl_mem s) ((if fresh_of s then 1 else 0) + cl_reads s) (cl_pos s) (Some x), x)
  | None => cl_value s = UB end.
Proof.
  unfold cl_inv, fresh_of, cl_value. destruct s as [m r p [x|]]; cbn.
  - intros ->. reflexivity.
  - intros _. unfold rd. destruct (nth_error m p); reflexivity.
Qed.
Lemma cl_run_ok ops : forall s, Forall reads_only ops -> cl_inv s ->
  match plain_run (cl_mem s) (cl_pos s) ops with
  | Some (q, ys) => exists c, cl_run s ops = Ok (Cl (cl_mem s) (stays_read (fresh_of s) ops + cl_reads s) q c, ys)
  | None => cl_run s ops = UB
  end.
Proof.
  induction ops as [|op ops IH]; intros s F Iv; cbn [plain_run cl_run stays_read].
  - destruct s as [m r p c]. cbn. eauto.
  - inversion F as [|? ? Hop F']; subst. pose proof (cl_value_ok s Iv) as V. destruct s as [m r p c]. cbn [cl_mem cl_pos cl_reads] in *.
    destruct op; try (destruct Hop); cbn [cl_step].
    + destruct (nth_error m p) as [x|] eqn:Ex; rewrite V; [|reflexivity]. cbn [bind].
      specialize (IH (Cl m ((if fresh_of (Cl m r p c) then 1 else 0) + r) p (Some x)) F' Ex). cbn [cl_mem cl_pos cl_reads fresh_of cl_cached] in IH.
      destruct (plain_run m p ops) as [(q & ys)|].
      * destruct IH as (c' & E). exists c'. unfold fresh_of, cl_cached in *. rewrite E. cbn [bind]. do 3 f_equal. destruct c; lia.
      * rewrite IH. reflexivity.
    + unfold cl_next. cbn [cl_pos cl_mem cl_reads]. destruct (p <? length m)%nat; [|reflexivity]. cbn [bind].
      specialize (IH (Cl m r (S p) None) F' Logic.I). cbn [cl_mem cl_pos cl_reads fresh_of cl_cached] in IH.
      destruct (plain_run m (S p) ops) as [(q & ys)|]; [destruct IH as (c' & ->)|rewrite IH]; cbn [bind]; eauto.
    + unfold cl_next. cbn [cl_pos cl_mem cl_reads]. destruct (nth_error m p) as [x|] eqn:Ex.
      * assert (p < length m)%nat by (apply nth_error_Some; congruence). rewrite (proj2 (Nat.ltb_lt p _)) by auto. cbn [bind]. rewrite V. cbn [bind cl_reads cl_pos cl_cached cl_mem].
        specialize (IH (Cl m ((if fresh_of (Cl m r p c) then 1 else 0) + r) (S p) None) F' Logic.I). cbn [cl_mem cl_pos cl_reads fresh_of cl_cached] in IH.
        destruct (plain_run m (S p) ops) as [(q & ys)|].
        -- destruct IH as (c' & E). exists c'. unfold fresh_of, cl_cached in *. rewrite E. cbn [bind]. do 3 f_equal. destruct c; lia.
        -- rewrite IH. reflexivity.
      * destruct (p <? length m)%nat eqn:Lp; [|reflexivity]. cbn [bind]. rewrite V. reflexivity.
    + unfold cl_prev. cbn [cl_pos cl_mem cl_reads]. destruct p as [|p]; [reflexivity|]. cbn [Nat.ltb Nat.leb bind]. replace (S p - 1)%nat with p by lia.
      specialize (IH (Cl m r p None) F' Logic.I). cbn [cl_mem cl_pos cl_reads fresh_of cl_cached] in IH.
      destruct (plain_run m p ops) as [(q & ys)|]; [destruct IH as (c' & ->)|rewrite IH]; cbn [bind]; eauto.
    + unfold cl_prev. cbn [cl_pos cl_mem cl_reads]. destruct p as [|p]; [reflexivity|]. cbn [Nat.ltb Nat.leb bind]. replace (S p - 1)%nat with p by lia.
      destruct (nth_error m (S p)) as [x|] eqn:Ex; rewrite V; [|reflexivity]. cbn [bind cl_reads cl_pos cl_cached cl_mem].
      specialize (IH (Cl m ((if fresh_of (Cl m r (S p) c) then 1 else 0) + r) p None) F' Logic.I). cbn [cl_mem cl_pos cl_reads fresh_of cl_cached] in IH.
      destruct (plain_run m p ops) as [(q & ys)|].
      * destruct IH as (c' & E). exists c'. unfold fresh_of, cl_cached in *. rewrite E. cbn [bind]. do 3 f_equal. destruct c; lia.
      * rewrite IH. reflexivity.
Qed.
Lemma cl_value_mem s s' x : cl_value s = Ok (s', x) -> cl_mem s' = cl_mem s.
Proof. unfold cl_value. destruct (cl_cached s); [intros E; inversion E; auto|]. unfold rd. destruct (nth_error _ _); cbn [bind]; intros E; inversion E; auto. Qed.
Lemma cl_step_mem s op s' y : cl_step s op = Ok (s', y) -> cl_mem s' = cl_mem s.
Proof.
  assert (N : forall t, cl_next s = Ok t -> cl_mem t = cl_mem s) by (intros t; unfold cl_next; destruct (_ <? _)%nat; intros E; inversion E; auto).
  assert (P : forall t, cl_prev s = Ok t -> cl_mem t = cl_mem s) by (intros t; unfold cl_prev; destruct (cl_pos s); intros E; inversion E; auto).
  destruct op; cbn [cl_step].
  - destruct (cl_value s) as [(t & x)| | |] eqn:E; cbn [bind]; try discriminate. intros H; inversion H; subst. eapply cl_value_mem; eauto.
  - destruct (cl_value s) as [(t & z)| | |] eqn:E; cbn [bind]; try discriminate. intros H; inversion H; subst. cbn. eapply cl_value_mem; eauto.
  - destruct (cl_next s) as [t| | |] eqn:E; cbn [bind]; try discriminate. intros H; inversion H; subst. auto.
  - destruct (cl_next s) as [t| | |] eqn:E; cbn [bind]; try discriminate. destruct (cl_value s) as [(r & x)| | |]; cbn [bind]; try discriminate. intros H; inversion H; subst. cbn. auto.
  - destruct (cl_prev s) as [t| | |] eqn:E; cbn [bind]; try discriminate. intros H; inversion H; subst. auto.
  - destruct (cl_prev s) as [t| | |] eqn:E; cbn [bind]; try discriminate. destruct (cl_value s) as [(r & x)| | |]; cbn [bind]; try discriminate. intros H; inversion H; subst. cbn. auto.
Qed.
Lemma cl_run_mem ops : forall s s' ys, cl_run s ops = Ok (s', ys) -> cl_mem s' = cl_mem s.
Proof.
  induction ops as [|op ops IH]; intros s s' ys; cbn [cl_run]; [intros E; inversion E; auto|].
  destruct (cl_step s op) as [(t & y)| | |] eqn:E; cbn [bind]; try discriminate. apply cl_step_mem in E.
  destruct (cl_run t ops) as [(u & zs)| | |] eqn:E2; cbn [bind]; try discriminate. intros H; inversion H; subst. rewrite (IH _ _ _ E2). auto.
Qed.
Lemma cl_write mem p x y : nth_error mem p = Some y ->
  exists s, cl_run (cl_make mem p) [ClWrite x; ClRead; ClNext; ClPrev; ClRead] = Ok (s, [x; y]).
Proof.
  intros E. assert (p < length mem)%nat by (apply nth_error_Some; congruence). unfold cl_make. cbn [cl_run cl_step]. unfold cl_value, rd. cbn [cl_cached cl_mem cl_pos]. rewrite E.
  cbn [bind cl_mem cl_reads cl_pos cl_cached]. unfold cl_next. cbn [cl_pos cl_mem cl_reads]. rewrite (proj2 (Nat.ltb_lt p _)) by auto. cbn [bind]. unfold cl_prev. cbn [bind cl_pos cl_mem cl_reads cl_cached]. rewrite E. cbn [bind]. eauto.
Qed.

(** * sl.h *)
Lemma times_S k m x : times (S k) m x = sz (times k m x * m).
Proof. reflexivity. Qed.
Lemma times_ok k m x : 1 <= m -> 0 <= x -> x * m ^ Z.of_nat k < 2 ^ 64 -> times k m x = x * m ^ Z.of_nat k.
Proof.
  intros Hm Hx. induction k as [|k IH]; intros H.
  - change (Z.of_nat 0) with 0. rewrite Z.pow_0_r. change (times 0 m x) with x. lia.
  - rewrite times_S. rewrite Nat2Z.inj_succ, Z.pow_succ_r in * by lia. assert (0 <= m ^ Z.of_nat k) by (apply Z.pow_nonneg; lia).
    rewrite IH by nia. rewrite sz_small by nia. nia.
Qed.

(** * dn.h *)
Lemma iter_swap {A} (f : A -> A) n : forall s, Nat.iter n f (f s) = f (Nat.iter n f s).
Proof. induction n as [|n IH]; intros s; [reflexivity|]. change (f (Nat.iter n f (f s)) = f (f (Nat.iter n f s))). rewrite IH. reflexivity. Qed.
Section DoN.
  Context {S : Type}.
  Variable call : S -> S.
  Variable call_with : S -> Z -> S.
  Lemma do_n_ok n : forall s fuel, (n < fuel)%nat -> Z.of_nat n < 2 ^ 64 -> do_n call fuel (Z.of_nat n) s = Ok (Nat.iter n call s).
  Proof.
    induction n as [|n IH]; intros s fuel F L; (destruct fuel as [|fuel]; [lia|]); cbn [do_n].
    - reflexivity.
    - rewrite (proj2 (Z.ltb_lt 0 _)) by lia. replace (Z.of_nat (Datatypes.S n) - 1) with (Z.of_nat n) by lia. rewrite sz_small by lia. rewrite IH by lia. rewrite iter_swap. reflexivity.
  Qed.
  Lemma do_n_arg_loop_ok k : forall n fuel s, (k < fuel)%nat -> Z.of_nat (n + k) < 2 ^ 64 ->
    do_n_arg_loop call_with fuel (Z.of_nat n) (Z.of_nat (n + k)) s = Ok (fold_left call_with (map Z.of_nat (seq n k)) s).
  Proof.
    induction k as [|k IH]; intros n fuel s F L; (destruct fuel as [|fuel]; [lia|]); cbn [do_n_arg_loop].
    - rewrite (proj2 (Z.ltb_ge _ _)) by lia. reflexivity.
    - rewrite (proj2 (Z.ltb_lt _ _)) by lia. replace (Z.of_nat n + 1) with (Z.of_nat (Datatypes.S n)) by lia. rewrite sz_small by lia.
      replace (n + Datatypes.S k)%nat with (Datatypes.S n + k)%nat by lia. rewrite IH by lia. reflexivity.
  Qed.
  Lemma fold_perm l l' : commuting call_with -> Permutation l l' -> forall s, fold_left call_with l s = fold_left call_with l' s.
  Proof.
    intros C P. induction P as [|x l l' P IH|x y l|l l' l'' P1 IH1 P2 IH2]; intros s; cbn [fold_left]; auto.
    - rewrite C. reflexivity.
    - rewrite IH1. apply IH2.
  Qed.
  Lemma static_count_calls order s : do_n_static call order s = Nat.iter (length order) call s.
  Proof.
    unfold do_n_static. revert s. induction order as [|i l IH]; intros s; cbn [fold_left length]; auto. rewrite IH. rewrite iter_swap. reflexivity.
  Qed.
End DoN.

(** * The statements of the properties *)

From Verif Require Import SpecBits.
Lemma array_cmp_equal : forall (T : Type) (eq : T -> T -> bool) a b, (forall x y, eq x y = true <-> x = y) -> same_shape a b ->
  (array_cmp eq Bool.eqb true a b = true <-> flatten a = flatten b).
Proof.
  intros T eq a b H Sh. destruct (array_cmp_ok eq Bool.eqb true Bool.eqb_true_iff a b Sh) as (F & L).
  destruct F as [(-> & A) | (i & x & y & Ex & Ey & -> & N & _)].
  - split; auto. intros _. clear - A L H. revert A L. generalize (flatten b). induction (flatten a) as [|x l IH]; intros [|y m] A L; try discriminate; auto.
    f_equal; [apply H; apply (A 0%nat); reflexivity|]. apply IH; [|cbn in L; lia]. intros i. apply (A (S i)).
  - split; [intros E; congruence|]. intros E. rewrite E in Ex. assert (x = y) by congruence. subst y. destruct N. apply H. reflexivity.
Qed.
Lemma times_mod k m x : 0 <= x < 2 ^ 64 -> times k m x = (x * m ^ Z.of_nat k) mod 2 ^ 64.
Proof.
  intros Hx. induction k as [|k IH].
  - change (Z.of_nat 0) with 0. rewrite Z.pow_0_r, Z.mul_1_r, Z.mod_small by lia. reflexivity.
  - rewrite times_S, IH. unfold sz. rewrite Nat2Z.inj_succ, Z.pow_succ_r by lia. rewrite Z.mul_mod_idemp_l by lia. f_equal. lia.
Qed.
Lemma literal_mod : forall u x, 0 <= x < 2 ^ 64 -> literal u x = (x * unit_size (other_unit u)) mod 2 ^ 64.
Proof. intros u x H. destruct u; cbn [literal other_unit unit_size]; rewrite times_mod by auto; reflexivity. Qed.
Lemma literal_other : forall u x, 0 < x < 2 ^ 64 -> x * unit_size (other_unit u) < 2 ^ 64 ->
  literal u x = x * unit_size (other_unit u) /\ literal u x <> x * unit_size u.
Proof.
  intros u x H L. assert (P : 0 < unit_size (other_unit u)) by (destruct u; reflexivity). rewrite literal_mod, Z.mod_small by nia. split; auto.
  assert (N : unit_size (other_unit u) <> unit_size u) by (destruct u; discriminate). intros E. apply N. nia.
Qed.
Lemma static_args_small count by_n order : 0 <= count < 2 ^ 64 -> 0 < by_n -> Permutation order (seq 0 (static_count count by_n)) ->
  static_args order by_n = map (fun i => Z.of_nat i * by_n) order.
Proof.
  intros H B P. unfold static_args. apply map_ext_in. intros i I. apply (Permutation_in _ P) in I. apply in_seq in I. unfold static_count in I.
  apply sz_small. pose proof (Z.mul_div_le count by_n B). assert (Z.of_nat i < count / by_n) by lia. nia.
Qed.
Lemma ceil_div count by_n : 0 <= count -> 0 < by_n -> (count + by_n - 1) / by_n = count / by_n + (if count mod by_n =? 0 then 0 else 1).
Proof.
  intros H B. pose proof (Z_div_mod_eq_full count by_n). pose proof (Z.mod_pos_bound count by_n B). destruct (Z.eqb_spec (count mod by_n) 0) as [E|E].
  - symmetry. apply (Z.div_unique _ _ _ (by_n - 1)); lia.
  - symmetry. apply (Z.div_unique _ _ _ (count mod by_n - 1)); lia.
Qed.
Lemma static_arg_ok : forall (S : Type) (call_with : S -> Z -> S) count by_n order s, 0 <= count < 2 ^ 64 -> 0 < by_n -> count mod by_n = 0 -> commuting call_with ->
  Permutation order (seq 0 (static_count count by_n)) ->
  do_n_arg_static call_with order by_n s = fold_left call_with (multiples by_n count) s.
Proof.
  intros S call_with count by_n order s H B D C P. unfold do_n_arg_static. rewrite (static_args_small count) by auto. apply fold_perm; auto.
  unfold multiples. rewrite ceil_div, D by lia. cbn [Z.eqb]. rewrite Z.add_0_r. apply Permutation_map. exact P.
Qed.
Lemma static_arg_missed : forall count by_n order, 0 <= count < 2 ^ 64 -> 0 < by_n -> count mod by_n <> 0 -> Permutation order (seq 0 (static_count count by_n)) ->
  exists m, In m (multiples by_n count) /\ 0 <= m < count /\ ~ In m (static_args order by_n).
Proof.
  intros count by_n order H B D P. pose proof (Z_div_mod_eq_full count by_n). pose proof (Z.mod_pos_bound count by_n B). pose proof (Z.div_pos count by_n ltac:(lia) B).
  exists (count / by_n * by_n). split; [|split; [nia|]].
  - unfold multiples. rewrite ceil_div by lia. destruct (Z.eqb_spec (count mod by_n) 0); [lia|]. apply in_map_iff. exists (Z.to_nat (count / by_n)). split; [rewrite Z2Nat.id by lia; reflexivity|].
    apply in_seq. lia.
  - rewrite (static_args_small count) by auto. intros I. apply in_map_iff in I. destruct I as (i & E & I). apply (Permutation_in _ P) in I. apply in_seq in I. unfold static_count in I. nia.
Qed.
Lemma log_fold l : forall log : list Z, fold_left (fun log x => log ++ [x]) l log = log ++ l.
Proof. induction l as [|x l IH]; intros log; cbn [fold_left]; [rewrite app_nil_r; auto|]. rewrite IH, <- app_assoc. reflexivity. Qed.
Lemma static_arg_order : forall count by_n, 0 <= count < 2 ^ 64 -> 0 < by_n -> (2 <= static_count count by_n)%nat ->
  exists order, Permutation order (seq 0 (static_count count by_n)) /\
    exists x y l, do_n_arg_static (fun log x => log ++ [x]) order by_n [] = x :: y :: l /\ y < x.
Proof.
  intros count by_n H B L. destruct (static_count count by_n) as [|[|k]] eqn:E; try lia. exists (1%nat :: 0%nat :: seq 2 k).
  assert (P : Permutation (1%nat :: 0%nat :: seq 2 k) (seq 0 (S (S k)))) by (cbn [seq]; apply perm_swap). split; auto.
  unfold do_n_arg_static. rewrite log_fold, (static_args_small count) by (auto; rewrite E; auto). cbn [app map]. eexists _, _, _. split; [reflexivity|]. lia.
Qed.

Lemma c253_call :
  forall same allow_empty fs idx args f, 0 <= idx -> nth_error fs (Z.to_nat idx) = Some f -> f_takes f (map fst args) = true ->
  ft_call same allow_empty fs idx args = Ok (Answered (f_run f (map snd args))) /\
  ft_operator same allow_empty fs idx args = Ok (Answered (f_run f (map snd args))).
Proof.
  intros same e fs idx args f H E T. unfold ft_operator, ft_call, rd. rewrite E. cbn [bind]. destruct same; auto.
  rewrite !apply_at_nth by lia. cbn [Z.of_nat]. rewrite Z.sub_0_r, E, T. auto.
Qed.

Lemma c253_other :
  forall allow_empty fs idx args, 0 <= idx ->
  (forall f, nth_error fs (Z.to_nat idx) = Some f -> f_takes f (map fst args) = false -> 
     ft_call false allow_empty fs idx args = Ok (if allow_empty && f_takes f [] then Answered (f_run f []) else Aborted)) /\
  (Z.of_nat (length fs) <= idx -> ft_call false allow_empty fs idx args = Ok Aborted /\ ft_operator false allow_empty fs idx args = Ok Aborted).
Proof.
  intros e fs idx args H. unfold ft_operator, ft_call. rewrite !apply_at_nth by lia. cbn [Z.of_nat]. rewrite Z.sub_0_r. split.
  - intros f -> ->. destruct (e && f_takes f []); reflexivity.
  - intros L. rewrite (proj2 (nth_error_None fs _)) by lia. auto.
Qed.

Lemma c253_set :
  forall same fs idx f t run, 0 <= idx -> nth_error fs (Z.to_nat idx) = Some f -> f_sets f t = true ->
  exists fs', ft_set same fs idx t run = Ok (Some fs') /\ length fs' = length fs /\
    nth_error fs' (Z.to_nat idx) = Some (Fn (f_takes f) (f_sets f) run) /\
    forall i, i <> Z.to_nat idx -> nth_error fs' i = nth_error fs i.
Proof.
  intros same fs idx f t run H E T. assert (L : (Z.to_nat idx < length fs)%nat) by (apply nth_error_Some; congruence).
  exists (upd fs (Z.to_nat idx) (Fn (f_takes f) (f_sets f) run)). split.
  - unfold ft_set, rd, wr. rewrite set_at_nth by lia. cbn [Z.of_nat]. rewrite Z.sub_0_r, E, T. cbn [bind]. rewrite (proj2 (Nat.ltb_lt _ _)) by auto. destruct same; reflexivity.
  - rewrite upd_length. split; auto. split; [apply nth_error_upd_eq; auto|]. intros i N. apply nth_error_upd_ne. auto.
Qed.

Lemma c253_set_abort :
  forall fs idx t run, 0 <= idx ->
  (Z.of_nat (length fs) <= idx \/ exists f, nth_error fs (Z.to_nat idx) = Some f /\ f_sets f t = false) -> ft_set false fs idx t run = Ok None.
Proof.
  intros fs idx t run H K. unfold ft_set. rewrite set_at_nth by lia. cbn [Z.of_nat]. rewrite Z.sub_0_r. destruct K as [L|(f & -> & ->)]; auto. rewrite (proj2 (nth_error_None fs _)) by lia. auto.
Qed.

Lemma c253_same_type_refuted :
  forall allow_empty fs idx args t run, Z.of_nat (length fs) <= idx ->
  ft_call true allow_empty fs idx args = UB /\ ft_set true fs idx t run = UB.
Proof.
  intros e fs idx args t run L. unfold ft_call, ft_set, rd. rewrite (proj2 (nth_error_None fs _)) by lia. auto.
Qed.

Lemma c253_allow_empty_refuted :
  forall fs idx args f, 0 <= idx -> nth_error fs (Z.to_nat idx) = Some f -> f_takes f (map fst args) = false -> f_takes f [] = true ->
  ft_call false true fs idx args = Ok (Answered (f_run f [])) /\ ft_operator false true fs idx args = Ok Aborted.
Proof.
  intros fs idx args f H E T T'. unfold ft_operator, ft_call. rewrite !apply_at_nth by lia. cbn [Z.of_nat]. rewrite Z.sub_0_r, E, T, T'. auto.
Qed.

Lemma c254_first_difference :
  forall (T R : Type) (cmp : T -> T -> R) same eqv a b, (forall x y, same x y = true <-> x = y) -> same_shape a b ->
  first_result cmp eqv (flatten a) (flatten b) (array_cmp cmp same eqv a b).
Proof.
  intros T R cmp same eqv a b H S. apply (array_cmp_ok cmp same eqv H a b S).
Qed.

Lemma c254_equal :
  forall (T : Type) (eq : T -> T -> bool) a b, (forall x y, eq x y = true <-> x = y) -> same_shape a b ->
  (array_cmp eq Bool.eqb true a b = true <-> flatten a = flatten b).
Proof.
  exact array_cmp_equal.
Qed.

Lemma c255_positions :
  forall dbg ty n ps, Z.of_nat n <= 2 ^ 63 -> Forall (fun p => 0 <= p < Z.of_nat n) ps ->
  exists b, create_bitset dbg ty n ps = Ok b /\ length b = n /\ forall i, nth_error b i = Some true <-> (i < n)%nat /\ In (Z.of_nat i) ps.
Proof.
  intros dbg ty n ps L F. destruct (bits_at_ok dbg ty ps (repeat false n)) as (b & E & Lb & B); rewrite ?repeat_length in *; auto.
  exists b. split; auto. split; auto. intros i. rewrite B. split; [intros [H|H]|]; auto. exfalso. apply nth_error_In, repeat_spec in H. discriminate.
Qed.

Lemma c255_out_of_range :
  forall dbg ty n ps, Z.of_nat n <= 2 ^ 63 -> std_width (width ty) -> Forall (fits ty) ps -> (exists p, In p ps /\ ~ 0 <= p < Z.of_nat n) ->
  create_bitset dbg ty n ps = Throw.
Proof.
  intros dbg ty n ps L W F E. apply bits_at_throw; rewrite ?repeat_length; auto. apply Forall_forall. intros p I. rewrite Forall_forall in F. specialize (F p I).
  unfold fits, lowest, highest in F. destruct W as [W|[W|[W|W]]]; rewrite W in F; destruct (signed ty); cbn in F; lia.
Qed.

Lemma c256_values :
  forall mem p ops, Forall reads_only ops ->
  match plain_run mem p ops with
  | Some (q, ys) => exists c, cl_run (cl_make mem p) ops = Ok (Cl mem (stays_read true ops) q c, ys)
  | None => cl_run (cl_make mem p) ops = UB
  end.
Proof.
  intros mem p ops F. pose proof (cl_run_ok ops (cl_make mem p) F Logic.I) as H. cbn in H. destruct (plain_run mem p ops) as [(q & ys)|]; auto. destruct H as (c & E). exists c. rewrite E, Nat.add_0_r. reflexivity.
Qed.

Lemma c256_write_refuted :
  forall mem p x y, nth_error mem p = Some y ->
  (exists s, cl_run (cl_make mem p) [ClWrite x; ClRead; ClNext; ClPrev; ClRead] = Ok (s, [x; y])) /\
  forall q ops s ys, cl_run (cl_make mem q) ops = Ok (s, ys) -> cl_mem s = mem.
Proof.
  intros mem p x y E. split; [apply cl_write; auto|]. intros q ops s ys R. apply cl_run_mem in R. exact R.
Qed.

Lemma c257_units_refuted :
  forall u x, 0 < x < 2 ^ 64 -> x * unit_size (other_unit u) < 2 ^ 64 ->
  literal u x = x * unit_size (other_unit u) /\ literal u x <> x * unit_size u.
Proof.
  exact literal_other.
Qed.

Lemma c257_modulo :
  forall u x, 0 <= x < 2 ^ 64 -> literal u x = (x * unit_size (other_unit u)) mod 2 ^ 64.
Proof.
  exact literal_mod.
Qed.

Lemma c258_do_n :
  forall (S : Type) (call : S -> S) call_with (n : nat) fuel s, Z.of_nat n < 2 ^ 64 -> (n < fuel)%nat ->
  do_n call fuel (Z.of_nat n) s = Ok (Nat.iter n call s) /\
  do_n_arg call_with fuel (Z.of_nat n) s = Ok (fold_left call_with (map Z.of_nat (seq 0 n)) s).
Proof.
  intros S call call_with n fuel s L F. split; [apply do_n_ok; auto|]. first [exact (do_n_arg_loop_ok call call_with n 0 fuel s F L) | exact (do_n_arg_loop_ok call_with n 0 fuel s F L)].
Qed.

Lemma c258_static :
  forall (S : Type) (call : S -> S) count order s, Permutation order (seq 0 count) -> do_n_static call order s = Nat.iter count call s.
Proof.
  intros S call count order s P. rewrite static_count_calls. apply Permutation_length in P. rewrite P, seq_length. reflexivity.
Qed.

Lemma c258_static_arg_partial :
  forall (S : Type) (call_with : S -> Z -> S) count by_n order s, 0 <= count < 2 ^ 64 -> 0 < by_n -> count mod by_n = 0 -> commuting call_with ->
  Permutation order (seq 0 (static_count count by_n)) ->
  do_n_arg_static call_with order by_n s = fold_left call_with (multiples by_n count) s.
Proof.
  exact static_arg_ok.
Qed.

Lemma c258_remainder_refuted :
  forall count by_n order, 0 <= count < 2 ^ 64 -> 0 < by_n -> count mod by_n <> 0 -> Permutation order (seq 0 (static_count count by_n)) ->
  exists m, In m (multiples by_n count) /\ 0 <= m < count /\ ~ In m (static_args order by_n).
Proof.
  exact static_arg_missed.
Qed.

Lemma c258_order_refuted :
  forall count by_n, 0 <= count < 2 ^ 64 -> 0 < by_n -> (2 <= static_count count by_n)%nat ->
  exists order, Permutation order (seq 0 (static_count count by_n)) /\
    exists x y l, do_n_arg_static (fun log x => log ++ [x]) order by_n [] = x :: y :: l /\ y < x.
Proof.
  exact static_arg_order.
Qed.
