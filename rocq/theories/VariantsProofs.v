(** Proofs about variants and tuples. *)
From Coq Require Import ZifyNat Zquot.
From Verif Require Import Common CommonProofs Ints BitsProofs Math MathProofs Variants SpecMath SpecVariants.
Open Scope Z_scope.
Local Arguments Z.pow : simpl never.

(** * vi.h *)
Section Visit.
Context {V R : Type} (vis : nat -> V -> res R).
Lemma switch_hit n cs v i x d : v_held v = Some (i, x) -> (exists c, In c cs /\ i = n + c)%nat -> switch n cs v vis d = vis i x.
Proof.
  intros H (c & I & E). induction cs as [|b cs IH]; [contradiction|]. cbn [switch]. unfold v_index. rewrite H.
  destruct (Z.eqb_spec (Z.of_nat i) (Z.of_nat (n + b))) as [Q|Q].
  - assert (i = n + b)%nat by lia. subst i. unfold get_nt. rewrite H. rewrite <- H0, Nat.eqb_refl. reflexivity.
  - destruct I as [->|I]; [lia|]. apply IH; auto.
Qed.
Lemma switch_miss n cs v i x d : v_held v = Some (i, x) -> (forall c, In c cs -> i <> n + c)%nat -> switch n cs v vis d = d.
Proof.
  intros H N. induction cs as [|b cs IH]; [reflexivity|]. cbn [switch]. unfold v_index. rewrite H.
  destruct (Z.eqb_spec (Z.of_nat i) (Z.of_nat (n + b))) as [Q|Q].
  - exfalso. apply (N b); [left; auto | lia].
  - apply IH. intros c I. apply N. right; auto.
Qed.
Lemma switch_none n cs v d : v_held v = None -> (forall c, In c cs -> Z.of_nat (n + c) < 2 ^ 63) -> switch n cs v vis d = d.
Proof.
  intros H N. induction cs as [|b cs IH]; [reflexivity|]. cbn [switch]. unfold v_index. rewrite H.
  assert (B : Z.of_nat (n + b) < 2 ^ 63) by (apply N; left; auto). assert (P : 2 ^ 63 < 2 ^ 64 - 1) by reflexivity.
  destruct (Z.eqb_spec variant_npos (Z.of_nat (n + b))) as [Q|Q]; [unfold variant_npos in Q; lia|].
  apply IH. intros c I. apply N. right; auto.
Qed.
Lemma in_16 c : In c cases_16 <-> (c < 16)%nat.
Proof. split; [cbn [cases_16 In]; lia|]. intros H. do 16 (destruct c as [|c]; [cbn; tauto|]). lia. Qed.
Lemma in_cases d c : (2 <= d < 16)%nat -> (In c (cases d) <-> (c < d)%nat).
Proof.
  intros H. do 16 (destruct d as [|d]; [first [lia | split; [cbn [cases In]; lia |]; intros L;
    do 16 (destruct c as [|c]; [first [lia | cbn; tauto]|]); lia]|]). lia.
Qed.
Lemma visit_from_held v i x : v_held v = Some (i, x) -> (i < v_size v)%nat ->
  forall fuel n, (n <= i)%nat -> (v_size v - n < fuel)%nat -> visit_from fuel n v vis = vis i x.
Proof.
  intros H L. induction fuel as [|fuel IH]; intros n N F; [lia|]. cbn [visit_from].
  destruct (Nat.leb_spec 16 (v_size v - n)) as [B|B].
  - destruct (Nat.lt_ge_cases i (n + 16)) as [C|C].
    + apply switch_hit; auto. exists (i - n)%nat. rewrite in_16. lia.
    + rewrite (switch_miss n cases_16 v i x) by (auto; intros c I; apply in_16 in I; lia).
      rewrite (proj2 (Nat.ltb_lt _ _)) by lia. apply IH; lia.
  - destruct (Nat.leb_spec 2 (v_size v - n)) as [D|D].
    + apply switch_hit; auto. exists (i - n)%nat. rewrite in_cases by lia. lia.
    + assert (n = i) by lia. subst n. unfold get_nt. rewrite H, Nat.eqb_refl. reflexivity.
Qed.
Lemma visit_from_none v : v_held v = None -> Z.of_nat (v_size v) < 2 ^ 63 ->
  forall fuel n, (n <= v_size v)%nat -> (v_size v - n < fuel)%nat -> visit_from fuel n v vis = UB.
Proof.
  intros H L. induction fuel as [|fuel IH]; intros n N F; [lia|]. cbn [visit_from].
  destruct (Nat.leb_spec 16 (v_size v - n)) as [B|B].
  - rewrite switch_none by (auto; intros c I; apply in_16 in I; lia).
    destruct (Nat.ltb_spec 16 (v_size v - n)); [apply IH; lia | reflexivity].
  - destruct (Nat.leb_spec 2 (v_size v - n)) as [D|D].
    + apply switch_none; auto. intros c I. apply in_cases in I; lia.
    + unfold get_nt. rewrite H. reflexivity.
Qed.
Lemma visit_nt_held v i x : holds v i x -> visit_nt v vis = vis i x.
Proof. intros (H & L & B). unfold visit_nt. apply visit_from_held; auto; lia. Qed.
Lemma visit_nt_none v : valueless v -> visit_nt v vis = UB.
Proof. intros (H & L & B). unfold visit_nt. apply visit_from_none; auto; lia. Qed.
Lemma visit_held b v i x : holds v i x -> visit b v vis = vis i x.
Proof.
  intros H. unfold visit, is_empty, v_index. rewrite (proj1 H). destruct b; [|apply visit_nt_held; auto].
  assert (P : 2 ^ 63 < 2 ^ 64 - 1) by reflexivity. unfold variant_npos. destruct H as (H & L & B).
  destruct (Z.eqb_spec (Z.of_nat i) (2 ^ 64 - 1)) as [Q|Q]; [lia|]. apply visit_nt_held. repeat split; auto.
Qed.
Lemma visit_none b v : valueless v -> visit b v vis = if b then Throw else UB.
Proof. intros H. unfold visit, is_empty, v_index. rewrite (proj1 H). destruct b; [rewrite Z.eqb_refl; auto | apply visit_nt_none; auto]. Qed.
Lemma visit_result_held v i x : holds v i x -> visit_result v vis = vis i x.
Proof. intros H. unfold visit_result, v_index. rewrite (proj1 H). destruct (Z.ltb_spec (Z.of_nat i) 0); [lia|]. apply visit_nt_held; auto. Qed.
Lemma visit_result_none v : valueless v -> visit_result v vis = UB.
Proof. intros H. unfold visit_result, v_index. rewrite (proj1 H). apply visit_nt_none; auto. Qed.
End Visit.

(** * th.h *)
Lemma get_impl_ok index : forall more tpos, get_impl more tpos index =
  if (Z.of_nat tpos <=? index) && (index <? Z.of_nat tpos + Z.of_nat more) then Some (Z.to_nat index) else None.
Proof.
  induction more as [|more IH]; intros tpos; cbn [get_impl].
  - destruct (Z.leb_spec (Z.of_nat tpos) index), (Z.ltb_spec index (Z.of_nat tpos + Z.of_nat 0)); cbn [andb]; auto; lia.
  - destruct (Z.eqb_spec index (Z.of_nat tpos)) as [->|N].
    + rewrite Z.leb_refl, (proj2 (Z.ltb_lt _ _)) by lia. cbn [andb]. rewrite Nat2Z.id. auto.
    + rewrite IH. destruct (Z.leb_spec (Z.of_nat tpos) index), (Z.ltb_spec index (Z.of_nat tpos + Z.of_nat (S more))),
        (Z.leb_spec (Z.of_nat (S tpos)) index), (Z.ltb_spec index (Z.of_nat (S tpos) + Z.of_nat more)); cbn [andb]; auto; lia.
Qed.
Lemma apply_at_impl_ok {A E} index (func : A -> option E) : forall tp n, apply_at_impl n tp index func =
  if Z.of_nat n <=? index then match nth_error tp (Z.to_nat (index - Z.of_nat n)) with
    | Some x => match func x with Some e => [e] | None => [] end | None => [] end else [].
Proof.
  induction tp as [|x tp IH]; intros n; cbn [apply_at_impl].
  - destruct (Z.leb_spec (Z.of_nat n) index); auto. rewrite (proj2 (nth_error_None [] _)) by (cbn; lia). auto.
  - rewrite IH. destruct (Z.eqb_spec (Z.of_nat n) index) as [Q|N].
    + subst index. rewrite Z.leb_refl, Z.sub_diag, (proj2 (Z.leb_gt _ _)) by lia. cbn [Z.to_nat nth_error]. apply app_nil_r.
    + destruct (Z.leb_spec (Z.of_nat n) index), (Z.leb_spec (Z.of_nat (S n)) index); try lia; cbn [app]; auto.
      replace (Z.to_nat (index - Z.of_nat n)) with (S (Z.to_nat (index - Z.of_nat (S n)))) by lia. reflexivity.
Qed.
Lemma tuple_apply_cut {A S} (f : S -> A -> res (S * A)) : forall tp1 tp2 s, tuple_apply f s (tp1 ++ tp2) =
  (r <- tuple_apply f s tp1;; q <- tuple_apply f (fst r) tp2;; Ok (fst q, snd r ++ snd q)).
Proof.
  induction tp1 as [|x tp1 IH]; intros tp2 s; cbn [app tuple_apply bind fst snd].
  - destruct (tuple_apply f s tp2) as [[s' t]| | |]; reflexivity.
  - destruct (f s x) as [[s' y]| | |]; cbn [bind fst snd]; auto. rewrite IH.
    destruct (tuple_apply f s' tp1) as [[s2 y2]| | |]; cbn [bind fst snd]; auto.
    destruct (tuple_apply f s2 tp2) as [[s3 y3]| | |]; reflexivity.
Qed.
Lemma print_loop : forall t os, exists b, tuple_apply print_one (false, os) t = Ok ((b, os ++ concat (map (fun v => 44 :: 32 :: v) t)), t).
Proof.
  induction t as [|v t IH]; intros os; cbn [tuple_apply map concat].
  - exists false. rewrite app_nil_r. reflexivity.
  - cbn [print_one negb bind fst snd]. destruct (IH ((os ++ [44]) ++ [32] ++ v)) as (b & ->). exists b. cbn [bind fst snd].
    rewrite <- !app_assoc. reflexivity.
Qed.
Lemma listed_concat v t : listed (v :: t) = (32 :: v) ++ concat (map (fun v => 44 :: 32 :: v) t).
Proof.
  revert v. induction t as [|u t IH]; intros v; [cbn; rewrite app_nil_r; reflexivity|].
  change (listed (v :: u :: t)) with ((32 :: v) ++ [44] ++ listed (u :: t)). rewrite IH. reflexivity.
Qed.
Lemma tuple_print_ok os t : tuple_print os t = Ok (os ++ [123] ++ listed t ++ [32; 125]).
Proof.
  unfold tuple_print. destruct t as [|v t]; [cbn [tuple_apply bind fst snd listed app]; rewrite <- app_assoc; reflexivity|].
  cbn [tuple_apply print_one negb bind fst snd]. destruct (print_loop t ((os ++ [123]) ++ [32] ++ v)) as (b & ->). cbn [bind fst snd].
  rewrite listed_concat, <- !app_assoc. reflexivity.
Qed.

(** * Arithmetic *)
Lemma std_pos T : std_ity T -> 0 < width T.
Proof. unfold std_ity. lia. Qed.
Lemma usual_width A B : width A <= width (usual A B) /\ width B <= width (usual A B) /\ 0 < width (usual A B).
Proof.
  destruct (promote_width A) as (P1 & P2), (promote_width B) as (Q1 & Q2). unfold usual.
  destruct (Bool.eqb _ _); cbn [width]; [lia|]. destruct (signed (promote A)), (signed (promote B)); cbv zeta; destruct (Z.leb_spec (width (promote A)) (width (promote B))), (Z.leb_spec (width (promote B)) (width (promote A))); lia.
Qed.
Lemma usual_same T : usual T T = promote T.
Proof. unfold usual. rewrite Bool.eqb_reflx, Z.max_id. destruct (promote T). reflexivity. Qed.
Lemma fits_promote T x : std_ity T -> fits T x -> fits (usual T T) x.
Proof.
  intros W. rewrite usual_same. unfold promote. destruct (Z.ltb_spec (width T) 32) as [L|L]; auto.
  unfold fits, lowest, highest. cbn [signed width i32]. destruct W as [W|[W|[W|W]]]; rewrite W in *; try lia; destruct (signed T); intros H;
    change (2 ^ (32 - 1)) with 2147483648; change (2 ^ (8 - 1)) with 128 in *; change (2 ^ (16 - 1)) with 32768 in *; change (2 ^ 8) with 256 in *; change (2 ^ 16) with 65536 in *; lia.
Qed.
Lemma mod_sub_0 a b m : 0 < m -> (a - b) mod m = 0 <-> a mod m = b mod m.
Proof.
  intros P. split; intros H.
  - apply Z.mod_divide in H; [|lia]. destruct H as (k & H). replace a with (b + k * m) by lia. apply Z.mod_add. lia.
  - rewrite Zminus_mod, H, Z.sub_diag. apply Z.mod_0_l. lia.
Qed.
Lemma store T w z r : 0 < width T <= w -> (r = z \/ r = wrap w z) ->
  fits T (conv T r) /\ (conv T r - z) mod 2 ^ width T = 0 /\ (fits T z -> conv T r = z).
Proof.
  intros P E. assert (Q : conv T r = conv T z).
  { destruct E as [-> | ->]; auto. rewrite <- (conv_wrap_arg T (wrap w z)), <- (conv_wrap_arg T z) by lia. f_equal. unfold wrap.
    apply Z.bits_inj'. intros i I. destruct (Z.lt_ge_cases i (width T)).
    - rewrite !Z.mod_pow2_bits_low by lia. reflexivity.
    - rewrite !Z.mod_pow2_bits_high by lia. reflexivity. }
  rewrite Q. split; [apply conv_fits; lia|]. split; [|intros; apply conv_id; auto; lia].
  apply mod_sub_0; [apply Z.pow_pos_nonneg; lia|]. change (wrap (width T) (conv T z) = wrap (width T) z). apply conv_wrap. lia.
Qed.
Lemma calc_cases C z : (signed C = true /\ ~ fits C z /\ calc C z = UB) \/ ((signed C = true -> fits C z) /\ exists r, calc C z = Ok r /\ (r = z \/ r = wrap (width C) z)).
Proof.
  unfold calc, fits. destruct (signed C) eqn:S; [|right; split; [discriminate|]; eexists; split; [reflexivity|auto]].
  destruct (Z.leb_spec (lowest C) z), (Z.leb_spec z (highest C)); cbn [andb]; try (left; repeat split; auto; lia).
  right. split; [auto|]. exists z. auto.
Qed.
Section Op.
Variables (o : op) (T A : ity) (x : Z) (B : ity) (y : Z).
Hypothesis (WT : 0 < width T <= width (usual A B)) (Fx : fits (usual A B) x) (Fy : fits (usual A B) y).
Lemma op_t_ok : ~ undefined o A x B y -> exists r, op_t o T A x B y = Ok r /\ result_of o T x y r.
Proof.
  intros U. unfold op_t, binary, result_of. rewrite !conv_id by (auto; lia).
  destruct o.
  1-3: match goal with |- context [calc ?C ?e] => destruct (calc_cases C e) as [(S & N & _)|(_ & r & -> & E)];
    [exfalso; apply U; right; split; auto; intros z X; inversion X; subst; auto|] end;
    cbn [bind]; eexists; split; [reflexivity|]; eexists; split; [constructor|]; eapply store; eauto.
  destruct (Z.eqb_spec y 0) as [E0|E0]; [exfalso; apply U; left; auto|].
  destruct (calc_cases (usual A B) (Z.quot x y)) as [(S & N & _)|(_ & r & -> & E)];
    [exfalso; apply U; right; split; auto; intros z X; inversion X; subst; auto|].
  cbn [bind]; eexists; split; [reflexivity|]; eexists; split; [constructor; auto|]; eapply store; eauto.
Qed.
Lemma op_t_ub : undefined o A x B y -> op_t o T A x B y = UB.
Proof.
  intros U. unfold op_t, binary. rewrite !conv_id by (auto; lia).
  destruct U as [(-> & ->)|(S & U)]; [reflexivity|]. destruct o.
  1-3: match goal with |- context [calc ?C ?e] => destruct (calc_cases C e) as [(_ & _ & ->)|(F & _)];
    [reflexivity | exfalso; apply (U e); [constructor | auto]] end.
  destruct (Z.eqb_spec y 0) as [E0|E0]; [reflexivity|].
  destruct (calc_cases (usual A B) (Z.quot x y)) as [(_ & _ & ->)|(F & _)]; [reflexivity | exfalso; apply (U (Z.quot x y)); [constructor; auto | auto]].
Qed.
Lemma undefined_dec : undefined o A x B y \/ ~ undefined o A x B y.
Proof.
  unfold undefined. destruct (signed (usual A B)) eqn:S.
  2:{ destruct o; [right; intros [[? ?]|[? ?]]; discriminate..|]. destruct (Z.eq_dec y 0); [left; auto|right; intros [[? ?]|[? ?]]; congruence]. }
  destruct o.
  1-3: match goal with |- context [exact ?o x y] => destruct (calc_cases (usual A B) (match o with Add => x + y | Sub => x - y | _ => x * y end)) as [(_ & N & _)|(F & _)];
    [left; right; split; auto; intros z X; inversion X; subst; auto | right; intros [[? ?]|[_ U]]; [discriminate|]; eapply U; [constructor | auto]] end.
  destruct (Z.eq_dec y 0) as [E|E]; [left; auto|]. destruct (calc_cases (usual A B) (Z.quot x y)) as [(_ & N & _)|(F & _)].
  - left. right. split; auto. intros z X; inversion X; subst; auto.
  - right. intros [[_ ?]|[_ U]]; [congruence|]. eapply U; [constructor; auto | auto].
Qed.
End Op.

(** * Elementwise functions *)
Lemma apply_tuple_ok f P : forall ts a b, length a = length ts -> length b = length ts ->
  (forall i T x y, nth_error ts i = Some T -> nth_error a i = Some x -> nth_error b i = Some y -> exists z, f T x y = Ok z /\ P T x y z) ->
  exists r, apply_tuple f ts a b = Ok r /\ elementwise P ts a b r.
Proof.
  induction ts as [|T ts IH]; intros [|x a] [|y b] La Lb H; try discriminate.
  - exists []. split; [reflexivity|]. split; auto. intros [|i] ? ? ? E; discriminate.
  - destruct (H 0%nat T x y eq_refl eq_refl eq_refl) as (z & E & Pz).
    destruct (IH a b) as (r & Er & L & Pr); [cbn in *; lia..| |]. { intros i U x' y' E1 E2 E3. apply (H (S i)); auto. }
    exists (z :: r). cbn [apply_tuple]. rewrite E. cbn [bind]. rewrite Er. split; [reflexivity|]. split; [cbn; lia|].
    intros [|i] U x' y' E1 E2 E3; cbn [nth_error] in *; [|eapply Pr; eauto].
    injection E1 as <-. injection E2 as <-. injection E3 as <-. exists z. auto.
Qed.
Lemma apply_tuple_ub f : forall ts a b, 
  (forall i T x y, nth_error ts i = Some T -> nth_error a i = Some x -> nth_error b i = Some y -> f T x y = UB \/ exists z, f T x y = Ok z) ->
  (exists i T x y, nth_error ts i = Some T /\ nth_error a i = Some x /\ nth_error b i = Some y /\ f T x y = UB) ->
  apply_tuple f ts a b = UB.
Proof.
  induction ts as [|T ts IH]; intros a b H (i & U & x & y & E1 & E2 & E3 & E4); [destruct i; discriminate|].
  destruct a as [|x0 a]; [destruct i; discriminate|]. destruct b as [|y0 b]; [destruct i; discriminate|]. cbn [apply_tuple].
  destruct (H 0%nat T x0 y0 eq_refl eq_refl eq_refl) as [-> | (z & E)]; [reflexivity|]. rewrite E. cbn [bind].
  rewrite IH; [reflexivity| |].
  - intros j V x' y' F1 F2 F3. apply (H (S j)); auto.
  - destruct i as [|i]; cbn [nth_error] in *; [congruence|]. exists i, U, x, y. auto.
Qed.
Lemma apply_value_tuple f v : forall ts a, length a = length ts -> apply_value f ts a v = apply_tuple f ts a (repeat v (length ts)).
Proof. induction ts as [|T ts IH]; intros [|x a] L; try discriminate; [reflexivity|]. cbn [apply_value apply_tuple repeat length]. rewrite IH by (cbn in L; lia). reflexivity. Qed.
Lemma apply_value2_tuple f v : forall ts b, length b = length ts -> apply_value2 f ts v b = apply_tuple f ts (repeat v (length ts)) b.
Proof. induction ts as [|T ts IH]; intros [|x a] L; try discriminate; [reflexivity|]. cbn [apply_value2 apply_tuple repeat length]. rewrite IH by (cbn in L; lia). reflexivity. Qed.
Lemma tuple_of_length ts a : tuple_of ts a -> length a = length ts.
Proof. induction 1; cbn; lia. Qed.
Lemma tuple_of_nth ts a : tuple_of ts a -> forall i T x, nth_error ts i = Some T -> nth_error a i = Some x -> std_ity T /\ fits T x.
Proof. induction 1; intros [|i] T z E1 E2; cbn in *; try discriminate; [|eauto]. injection E1 as <-. injection E2 as <-. auto. Qed.
Lemma nth_repeat_some {A} (v x : A) n i : nth_error (repeat v n) i = Some x -> x = v.
Proof. intros H. apply nth_error_In, repeat_spec in H. auto. Qed.
Lemma nth_repeat_in {A} (v : A) n i : (i < n)%nat -> nth_error (repeat v n) i = Some v.
Proof. revert i. induction n as [|n IH]; intros [|i] H; cbn; auto; try lia. apply IH. lia. Qed.

(** * The statements of the properties *)

Lemma tuple_apply_order : forall (A S : Type) (step : S -> A -> S) (new : S -> A -> A) s tp,
  exists tp', tuple_apply (fun s x => Ok (step s x, new s x)) s tp = Ok (fold_left step tp s, tp') /\ length tp' = length tp /\
    forall i x, nth_error tp i = Some x -> nth_error tp' i = Some (new (fold_left step (firstn i tp) s) x).
Proof.
  intros A S step new s tp. revert s. induction tp as [|y tp IH]; intros s; cbn [tuple_apply bind fold_left].
  - exists []. repeat split. intros [|i] x E; discriminate.
  - destruct (IH (step s y)) as (tp' & E & L & N). exists (new s y :: tp'). cbn [fst snd]. rewrite E. cbn [bind fst snd]. split; [reflexivity|]. split; [cbn; lia|].
    intros [|i] x X; cbn [nth_error firstn fold_left] in *; [congruence | auto].
Qed.

Lemma c259_held :
  forall (V R : Type) (vis : nat -> V -> res R) v i x, holds v i x ->
  visit_nt v vis = vis i x /\ visit_result v vis = vis i x /\ forall has_npos, visit has_npos v vis = vis i x.
Proof.
  intros V R vis v i x H. repeat split; [apply visit_nt_held | apply visit_result_held | intros b; apply visit_held]; auto.
Qed.

Lemma c259_empty_detected :
  forall (V R : Type) (vis : nat -> V -> res R) v, valueless v -> visit true v vis = Throw.
Proof.
  intros V R vis v H. apply (visit_none vis true v H).
Qed.

Lemma c259_valueless_refuted :
  forall (V R : Type) (vis : nat -> V -> res R) v, valueless v ->
  visit false v vis = UB /\ visit_result v vis = UB /\ visit_nt v vis = UB.
Proof.
  intros V R vis v H. split; [apply (visit_none vis false v H)|]. split; [apply visit_result_none | apply visit_nt_none]; auto.
Qed.

Lemma c260_cast :
  forall (V T : Type) (to : nat -> option (V -> T)) v i x, holds v i x ->
  (forall f, to i = Some f -> variant_cast to v = Ok (f x)) /\ (to i = None -> variant_cast to v = Throw).
Proof.
  intros V T to v i x H. unfold variant_cast. rewrite (visit_nt_held _ v i x H). split; [intros f -> | intros ->]; reflexivity.
Qed.

Lemma c260_can_extract :
  forall (V : Type) is_t (v : variant V) i x, holds v i x -> can_extract is_t v = Ok (is_t i).
Proof.
  intros V is_t v i x H. unfold can_extract. rewrite (visit_nt_held _ v i x H). destruct (is_t i); reflexivity.
Qed.

Lemma c261_get :
  forall n index, 0 <= index ->
  (index < Z.of_nat n -> tuple_get n index = Some (Z.to_nat index)) /\ (Z.of_nat n <= index -> tuple_get n index = None).
Proof.
  intros n index H. unfold tuple_get. rewrite get_impl_ok. cbn [Z.of_nat]. rewrite (proj2 (Z.leb_le 0 index) H), Z.add_0_l. split; intros L;
  [rewrite (proj2 (Z.ltb_lt _ _)) by auto | rewrite (proj2 (Z.ltb_ge _ _)) by auto]; reflexivity.
Qed.

Lemma c261_in_order :
  forall (A S : Type) (step : S -> A -> S) (new : S -> A -> A) s tp,
  exists tp', tuple_apply (fun s x => Ok (step s x, new s x)) s tp = Ok (fold_left step tp s, tp') /\ length tp' = length tp /\
    forall i x, nth_error tp i = Some x -> nth_error tp' i = Some (new (fold_left step (firstn i tp) s) x).
Proof.
  exact tuple_apply_order.
Qed.

Lemma c261_stops :
  forall (A S : Type) (f : S -> A -> res (S * A)) s tp x rest s' tp',
  tuple_apply f s tp = Ok (s', tp') -> f s' x = Throw -> tuple_apply f s (tp ++ x :: rest) = Throw.
Proof.
  intros A S f s tp x rest s' tp' E T. rewrite tuple_apply_cut, E. cbn [bind fst tuple_apply]. rewrite T. reflexivity.
Qed.

Lemma c261_apply_at :
  forall (A E : Type) (tp : list A) index (func : A -> option E), 0 <= index ->
  (forall x e, nth_error tp (Z.to_nat index) = Some x -> func x = Some e -> tuple_apply_at tp index func = [e]) /\
  (forall x, nth_error tp (Z.to_nat index) = Some x -> func x = None -> tuple_apply_at tp index func = []) /\
  (Z.of_nat (length tp) <= index -> tuple_apply_at tp index func = []).
Proof.
  intros A E tp index func H. unfold tuple_apply_at. rewrite apply_at_impl_ok. cbn [Z.of_nat]. rewrite (proj2 (Z.leb_le 0 index) H), Z.sub_0_r. repeat split.
  - intros x e -> ->. reflexivity.
  - intros x -> ->. reflexivity.
  - intros L. rewrite (proj2 (nth_error_None tp _)) by lia. reflexivity.
Qed.

Lemma c262_tuples :
  forall o ts a b, tuple_of ts a -> tuple_of ts b ->
  (forall i T x y, nth_error ts i = Some T -> nth_error a i = Some x -> nth_error b i = Some y -> ~ undefined o T x T y) ->
  exists r, tuple_op_tuple o ts a b = Ok r /\ elementwise (result_of o) ts a b r.
Proof.
  intros o ts a b Ha Hb H. apply apply_tuple_ok; [apply tuple_of_length; auto..|]. intros i T x y E1 E2 E3.
  destruct (tuple_of_nth _ _ Ha _ _ _ E1 E2) as (W & Fx). destruct (tuple_of_nth _ _ Hb _ _ _ E1 E3) as (_ & Fy). pose proof (usual_width T T). pose proof (std_pos T W).
  apply op_t_ok; [lia | apply fits_promote; auto.. | apply (H i); auto].
Qed.

Lemma c262_tuples_undefined :
  forall o ts a b, tuple_of ts a -> tuple_of ts b ->
  (exists i T x y, nth_error ts i = Some T /\ nth_error a i = Some x /\ nth_error b i = Some y /\ undefined o T x T y) ->
  tuple_op_tuple o ts a b = UB.
Proof.
  intros o ts a b Ha Hb (i & T & x & y & E1 & E2 & E3 & U). 
  assert (K : forall i T x y, nth_error ts i = Some T -> nth_error a i = Some x -> nth_error b i = Some y -> 0 < width T <= width (usual T T) /\ fits (usual T T) x /\ fits (usual T T) y).
  { intros j T' x' y' F1 F2 F3. destruct (tuple_of_nth _ _ Ha _ _ _ F1 F2) as (W & Fx). destruct (tuple_of_nth _ _ Hb _ _ _ F1 F3) as (_ & Fy).
    pose proof (usual_width T' T'). pose proof (std_pos T' W). split; [lia|]. split; apply fits_promote; auto. }
  apply apply_tuple_ub.
  - intros j T' x' y' F1 F2 F3. destruct (K _ _ _ _ F1 F2 F3) as (W & Fx & Fy). destruct (undefined_dec o T' x' T' y') as [D|D].
    + left. apply op_t_ub; auto.
    + right. destruct (op_t_ok o T' T' x' T' y' W Fx Fy D) as (r & R & _). exists r. exact R.
  - exists i, T, x, y. destruct (K _ _ _ _ E1 E2 E3) as (W & Fx & Fy). repeat split; auto. apply op_t_ub; auto.
Qed.

Lemma c262_value_right :
  forall o ts a B v, tuple_of ts a ->
  (forall i T x, nth_error ts i = Some T -> nth_error a i = Some x -> fits (usual T B) x /\ fits (usual T B) v /\ ~ undefined o T x B v) ->
  exists r, tuple_op_value o ts a B v = Ok r /\ elementwise (result_of o) ts a (repeat v (length ts)) r.
Proof.
  intros o ts a B v Ha H. unfold tuple_op_value. rewrite apply_value_tuple by (apply tuple_of_length; auto). apply apply_tuple_ok; [apply tuple_of_length; auto | apply repeat_length |].
  intros i T x y E1 E2 E3. apply nth_repeat_some in E3. subst y. destruct (tuple_of_nth _ _ Ha _ _ _ E1 E2) as (W & Fx). pose proof (usual_width T B). pose proof (std_pos T W).
  destruct (H _ _ _ E1 E2) as (F1 & F2 & U). apply op_t_ok; auto. lia.
Qed.

Lemma c262_value_left :
  forall o B v ts b, tuple_of ts b ->
  (forall i T y, nth_error ts i = Some T -> nth_error b i = Some y -> fits (usual B T) v /\ fits (usual B T) y /\ ~ undefined o B v T y) ->
  exists r, value_op_tuple o B v ts b = Ok r /\ elementwise (result_of o) ts (repeat v (length ts)) b r.
Proof.
  intros o B v ts b Hb H. unfold value_op_tuple. rewrite apply_value2_tuple by (apply tuple_of_length; auto). apply apply_tuple_ok; [apply repeat_length | apply tuple_of_length; auto |].
  intros i T x y E1 E2 E3. apply nth_repeat_some in E2. subst x. destruct (tuple_of_nth _ _ Hb _ _ _ E1 E3) as (W & Fy). pose proof (usual_width B T). pose proof (std_pos T W).
  destruct (H _ _ _ E1 E3) as (F1 & F2 & U). apply op_t_ok; auto. lia.
Qed.

Lemma c263_min_max :
  forall ts a b, tuple_of ts a -> tuple_of ts b ->
  (exists r, tuple_min ts a b = Ok r /\ elementwise (fun T x y z => z = Z.min x y) ts a b r) /\
  (exists r, tuple_max ts a b = Ok r /\ elementwise (fun T x y z => z = Z.max x y) ts a b r).
Proof.
  intros ts a b Ha Hb. split; (apply apply_tuple_ok; [apply tuple_of_length; auto..|]); intros i T x y E1 E2 E3;
  destruct (tuple_of_nth _ _ Ha _ _ _ E1 E2) as (W & Fx); destruct (tuple_of_nth _ _ Hb _ _ _ E1 E3) as (_ & Fy); pose proof (std_pos T W) as P;
  (assert (F : forall z, In z [x; y] -> fits T z) by (intros z [-> | [-> | []]]; auto)).
  - destruct (min_one_type T x [y] P F) as (m & E & I & L). unfold min_t. cbn [map] in E. rewrite E. eexists. split; [reflexivity|]. cbn [snd].
    rewrite conv_id by (auto; apply F; exact I). pose proof (L x (or_introl eq_refl)). pose proof (L y (or_intror (or_introl eq_refl))). destruct I as [I|[I|[]]]; lia.
  - destruct (max_one_type T x [y] P F) as (m & E & I & L). unfold max_t. cbn [map] in E. rewrite E. eexists. split; [reflexivity|]. cbn [snd].
    rewrite conv_id by (auto; apply F; exact I). pose proof (L x (or_introl eq_refl)). pose proof (L y (or_intror (or_introl eq_refl))). destruct I as [I|[I|[]]]; lia.
Qed.

Lemma c264_print :
  forall os t, tuple_print os t = Ok (os ++ [123] ++ listed t ++ [32; 125]).
Proof.
  exact tuple_print_ok.
Qed.
