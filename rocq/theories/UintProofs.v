(** Proofs about UintTypes.v. *)
From Verif Require Import Common CommonProofs Ints Math UintTypes SpecUint.
Open Scope Z_scope.

Lemma bits_pos t : 1 <= bits_of t <= 64.
Proof. destruct t; cbn; lia. Qed.
Lemma conv_base t z : conv (base t) z = z mod 2 ^ bits_of t.
Proof. reflexivity. Qed.
Lemma mod_mod a n m : 0 <= n <= m -> (a mod 2 ^ m) mod 2 ^ n = a mod 2 ^ n.
Proof.
  intros H. replace (2 ^ m) with (2 ^ n * 2 ^ (m - n)) by (rewrite <- Z.pow_add_r by lia; f_equal; lia).
  rewrite Z.rem_mul_r by (try apply Z.pow_nonzero; try apply Z.pow_pos_nonneg; lia).
  rewrite Z.mul_comm, Z.mod_add by (apply Z.pow_nonzero; lia). apply Z.mod_mod. apply Z.pow_nonzero; lia.
Qed.
(** [a] and [b] agree on the low [w] bits. *)
Lemma cast_low t l w x : value_of l x -> (bits_of l <=? bits_of t) || (w <=? bits_of t) = true -> 0 <= w ->
  (x mod 2 ^ bits_of t) mod 2 ^ w = x mod 2 ^ w.
Proof.
  intros V H W. apply orb_true_iff in H. rewrite !Z.leb_le in H. destruct H as [H|H].
  - rewrite (Z.mod_small x (2 ^ bits_of t)); [reflexivity|]. destruct V. split; [lia|].
    eapply Z.lt_le_trans; [eassumption|]. apply Z.pow_le_mono_r; lia.
  - apply mod_mod. lia.
Qed.
Lemma cast_same t l x : value_of l x -> bits_of l <= bits_of t -> x mod 2 ^ bits_of t = x.
Proof. intros [A C] H. apply Z.mod_small. split; [lia|]. eapply Z.lt_le_trans; [eassumption|]. apply Z.pow_le_mono_r; lia. Qed.

Definition wider (a b : uty) : bool := bits_of b <=? bits_of a.
Definition narrow (a b : uty) : bool := (bits_of a <? 32) && (bits_of b <? 32).
Definition good (r : overload) : bool :=
  let w := bits_of (ret r) in
  let lows := (wider (la r) (lhs_ty r) || (w <=? bits_of (la r))) && (wider (ra r) (rhs_ty r) || (w <=? bits_of (ra r))) in
  let sames := wider (la r) (lhs_ty r) && wider (ra r) (rhs_ty r) in
  let out := (w <=? bits_of (mid r)) in
  let cw := Z.max 32 (Z.max (bits_of (la r)) (bits_of (ra r))) in
  match oper r with
  | OpAdd | OpSub => out && (w <=? cw) && lows
  | OpMul => out && (w <=? cw) && lows && negb (narrow (la r) (ra r))
  | OpDiv => out && sames
  | OpAnd | OpOr | OpXor => out && lows
  | OpShl => out && (w <=? bits_of (la r)) && (32 <=? bits_of (la r)) && (8 <=? bits_of (ra r))
             && (bits_of (la r) =? Z.max 32 (bits_of (lhs_ty r)))
  | OpShr => out && (32 <=? bits_of (la r)) && (8 <=? bits_of (ra r)) && (bits_of (la r) =? Z.max 32 (bits_of (lhs_ty r)))
  | _ => sames && match mid r, ret r with B, B => true | _, _ => false end
  end.

Lemma usual_narrow a b : narrow a b = true -> usual (base a) (base b) = i32.
Proof. destruct a, b; try discriminate; reflexivity. Qed.
Lemma usual_wide a b : narrow a b = false ->
  usual (base a) (base b) = {| signed := false; width := Z.max 32 (Z.max (bits_of a) (bits_of b)) |}.
Proof. destruct a, b; try discriminate; reflexivity. Qed.
Lemma narrow_small t x : bits_of t <? 32 = true -> 0 <= x mod 2 ^ bits_of t < 2 ^ 16.
Proof.
  intros H. pose proof (Z.mod_pos_bound x (2 ^ bits_of t) ltac:(apply Z.pow_pos_nonneg; pose proof (bits_pos t); lia)) as K.
  split; [lia|]. eapply Z.lt_le_trans; [apply K|]. apply Z.pow_le_mono_r; [lia|]. destruct t; cbn in *; lia.
Qed.
Lemma out_low m w v : 0 <= w -> w <=? m = true -> (v mod 2 ^ m) mod 2 ^ w = v mod 2 ^ w.
Proof. intros A H. apply Z.leb_le in H. apply mod_mod. lia. Qed.

Lemma low_bits (f : Z -> Z -> Z) (g : bool -> bool -> bool) :
  (forall a b i, Z.testbit (f a b) i = g (Z.testbit a i) (Z.testbit b i)) ->
  forall w x y x' y', 0 <= w -> x' mod 2 ^ w = x mod 2 ^ w -> y' mod 2 ^ w = y mod 2 ^ w ->
  f x' y' mod 2 ^ w = f x y mod 2 ^ w.
Proof.
  intros F w x y x' y' W X Y. apply Z.bits_inj'. intros i I. destruct (Z.lt_ge_cases i w) as [L|L].
  - rewrite !Z.mod_pow2_bits_low by lia. rewrite !F.
    rewrite <- (Z.mod_pow2_bits_low x' w i), <- (Z.mod_pow2_bits_low x w i), <- (Z.mod_pow2_bits_low y' w i), <- (Z.mod_pow2_bits_low y w i) by lia.
    rewrite X, Y. reflexivity.
  - rewrite !Z.mod_pow2_bits_high by lia. reflexivity.
Qed.
Lemma calc_ring a b w v v' : 0 <= w -> w <=? Z.max 32 (Z.max (bits_of a) (bits_of b)) = true ->
  (narrow a b = true -> - 2 ^ 31 < v < 2 ^ 31) -> v mod 2 ^ w = v' mod 2 ^ w ->
  exists u, calc (usual (base a) (base b)) v = Ok u /\ u mod 2 ^ w = v' mod 2 ^ w.
Proof.
  intros W C N E. destruct (narrow a b) eqn:K.
  - rewrite usual_narrow by exact K. specialize (N eq_refl). exists v. split; [|exact E]. unfold calc. cbn [signed i32].
    replace (lowest i32) with (- 2 ^ 31) by reflexivity. replace (highest i32) with (2 ^ 31 - 1) by reflexivity.
    rewrite (proj2 (Z.leb_le _ _)), (proj2 (Z.leb_le _ _)) by lia. reflexivity.
  - rewrite usual_wide by exact K. eexists. split; [reflexivity|]. cbn [width]. unfold wrap. rewrite out_low by assumption. exact E.
Qed.

Lemma good_call r x y : good r = true -> value_of (lhs_ty r) x -> value_of (rhs_ty r) y ->
  meaningful (oper r) (bits_of (lhs_ty r)) y -> call r x y = Ok (result (oper r) (bits_of (ret r)) x y).
Proof.
  intros G X Y M. unfold call. rewrite !conv_base.
  pose proof (bits_pos (ret r)) as W. assert (0 <= bits_of (ret r)) as W0 by lia.
  unfold good, wider in G.
  assert (forall a b w v v', 0 <= w -> w <=? bits_of (mid r) = true -> w = bits_of (ret r) ->
    w <=? Z.max 32 (Z.max (bits_of a) (bits_of b)) = true ->
    (narrow a b = true -> - 2 ^ 31 < v < 2 ^ 31) -> v mod 2 ^ w = v' mod 2 ^ w ->
    (v <- calc (usual (base a) (base b)) v ;; Ok (conv (base (ret r)) (conv (base (mid r)) v))) = Ok (v' mod 2 ^ w)) as K.
  { intros a b w v v' A C D F N E. destruct (calc_ring a b w v v' A F N E) as (u & -> & U). cbn [bind]. rewrite !conv_base.
    subst w. rewrite out_low by assumption. rewrite U. reflexivity. }
  destruct (oper r) eqn:O; cbn [builtin result meaningful] in *.
  - repeat (apply andb_true_iff in G; destruct G as [G ?G]). apply andb_true_iff in G0. destruct G0.
    apply K; auto.
    + unfold narrow. intros N. apply andb_true_iff in N. destruct N as [N1 N2].
      pose proof (narrow_small _ x N1). pose proof (narrow_small _ y N2). lia.
    + rewrite Zplus_mod, (cast_low _ (lhs_ty r)), (cast_low _ (rhs_ty r)), <- Zplus_mod by assumption. reflexivity.
  - repeat (apply andb_true_iff in G; destruct G as [G ?G]). apply andb_true_iff in G0. destruct G0.
    apply K; auto.
    + unfold narrow. intros N. apply andb_true_iff in N. destruct N as [N1 N2].
      pose proof (narrow_small _ x N1). pose proof (narrow_small _ y N2). lia.
    + rewrite Zminus_mod, (cast_low _ (lhs_ty r)), (cast_low _ (rhs_ty r)), <- Zminus_mod by assumption. reflexivity.
  - repeat (apply andb_true_iff in G; destruct G as [G ?G]). apply andb_true_iff in G1. destruct G1. apply negb_true_iff in G0.
    apply K; auto.
    + rewrite G0. discriminate.
    + rewrite Zmult_mod, (cast_low _ (lhs_ty r)), (cast_low _ (rhs_ty r)), <- Zmult_mod by assumption. reflexivity.
  - apply andb_true_iff in G. destruct G as [G1 G2]. apply andb_true_iff in G2. destruct G2 as [G2 G3].
    apply Z.leb_le in G2, G3.
    rewrite (cast_same (la r) (lhs_ty r) x), (cast_same (ra r) (rhs_ty r) y) by assumption.
    destruct (Z.eqb_spec y 0) as [E|E]; [contradiction|].
    destruct X as [X0 X1], Y as [Y0 Y1].
    rewrite Z.quot_div_nonneg by lia.
    assert (0 <= x / y <= x) as Q by (split; [apply Z.div_pos; lia|apply Z.div_le_upper_bound; nia]).
    assert (calc (usual (base (la r)) (base (ra r))) (x / y) = Ok (x / y)) as ->.
    { destruct (narrow (la r) (ra r)) eqn:N.
      - rewrite usual_narrow by exact N. unfold calc. cbn [signed i32].
        replace (lowest i32) with (- 2 ^ 31) by reflexivity. replace (highest i32) with (2 ^ 31 - 1) by reflexivity.
        unfold narrow in N. apply andb_true_iff in N. destruct N as [N _].
        assert (x < 2 ^ 16) by (eapply Z.lt_le_trans; [exact X1|]; apply Z.pow_le_mono_r; [lia|]; destruct (la r), (lhs_ty r); cbn in *; lia).
        rewrite (proj2 (Z.leb_le _ _)), (proj2 (Z.leb_le _ _)) by lia. reflexivity.
      - rewrite usual_wide by exact N. unfold calc, wrap. cbn [signed width]. f_equal. apply Z.mod_small. split; [lia|].
        eapply Z.le_lt_trans; [apply Q|]. eapply Z.lt_le_trans; [exact X1|]. apply Z.pow_le_mono_r; lia. }
    cbn [bind]. rewrite !conv_base. rewrite out_low by assumption. reflexivity.
  - apply andb_true_iff in G. destruct G as [G1 G2]. apply andb_true_iff in G2. destruct G2 as [G2 G3]. cbn [bind].
    rewrite !conv_base. rewrite out_low by assumption. f_equal. apply (low_bits Z.land andb); [apply Z.land_spec|lia| |]; eapply cast_low; eassumption.
  - apply andb_true_iff in G. destruct G as [G1 G2]. apply andb_true_iff in G2. destruct G2 as [G2 G3]. cbn [bind].
    rewrite !conv_base. rewrite out_low by assumption. f_equal. apply (low_bits Z.lor orb); [apply Z.lor_spec|lia| |]; eapply cast_low; eassumption.
  - apply andb_true_iff in G. destruct G as [G1 G2]. apply andb_true_iff in G2. destruct G2 as [G2 G3]. cbn [bind].
    rewrite !conv_base. rewrite out_low by assumption. f_equal. apply (low_bits Z.lxor xorb); [apply Z.lxor_spec|lia| |]; eapply cast_low; eassumption.
  - repeat (apply andb_true_iff in G; destruct G as [G ?G]). rewrite ?Z.leb_le, ?Z.eqb_eq in *.
    assert (y mod 2 ^ bits_of (ra r) = y) as ->.
    { apply Z.mod_small. destruct Y as [Y0 _]. split; [lia|]. pose proof (bits_pos (lhs_ty r)).
      assert (2 ^ 8 <= 2 ^ bits_of (ra r)) by (apply Z.pow_le_mono_r; lia). lia. }
    assert (promote (base (la r)) = base (la r)) as -> by (unfold promote; cbn [width base]; destruct (Z.ltb_spec (bits_of (la r)) 32); [lia|reflexivity]).
    cbn [width base]. destruct (Z.ltb_spec y (bits_of (la r))); [|lia].
    unfold calc. cbn [signed bind width base]. unfold wrap. rewrite !conv_base. rewrite out_low by (try apply Z.leb_le; lia).
    rewrite mod_mod by lia. f_equal. rewrite Zmult_mod, (cast_low _ (lhs_ty r)), <- Zmult_mod; [reflexivity|assumption| |lia].
    apply orb_true_iff. left. apply Z.leb_le. lia.
  - repeat (apply andb_true_iff in G; destruct G as [G ?G]). rewrite ?Z.leb_le, ?Z.eqb_eq in *.
    assert (y mod 2 ^ bits_of (ra r) = y) as ->.
    { apply Z.mod_small. destruct Y as [Y0 _]. split; [lia|]. pose proof (bits_pos (lhs_ty r)).
      assert (2 ^ 8 <= 2 ^ bits_of (ra r)) by (apply Z.pow_le_mono_r; lia). lia. }
    assert (promote (base (la r)) = base (la r)) as -> by (unfold promote; cbn [width base]; destruct (Z.ltb_spec (bits_of (la r)) 32); [lia|reflexivity]).
    cbn [width base]. destruct (Z.ltb_spec y (bits_of (la r))); [|lia]. cbn [bind]. rewrite !conv_base.
    rewrite out_low by (try apply Z.leb_le; lia). rewrite (cast_same (la r) (lhs_ty r) x) by (try assumption; lia). reflexivity.
  - apply andb_true_iff in G; destruct G as [G1 G2]; apply andb_true_iff in G1; destruct G1 as [G1 G3];
    apply Z.leb_le in G1, G3; rewrite (cast_same (la r) (lhs_ty r) x), (cast_same (ra r) (rhs_ty r) y) by assumption; cbn [bind];
    destruct (mid r); try discriminate G2; destruct (ret r); try discriminate G2; rewrite !conv_base; cbn [bits_of]; f_equal;
    rewrite ?Z.gtb_ltb, ?Z.geb_leb; match goal with |- context [of_bool ?b] => destruct b; reflexivity end.
  - apply andb_true_iff in G; destruct G as [G1 G2]; apply andb_true_iff in G1; destruct G1 as [G1 G3];
    apply Z.leb_le in G1, G3; rewrite (cast_same (la r) (lhs_ty r) x), (cast_same (ra r) (rhs_ty r) y) by assumption; cbn [bind];
    destruct (mid r); try discriminate G2; destruct (ret r); try discriminate G2; rewrite !conv_base; cbn [bits_of]; f_equal;
    rewrite ?Z.gtb_ltb, ?Z.geb_leb; match goal with |- context [of_bool ?b] => destruct b; reflexivity end.
  - apply andb_true_iff in G; destruct G as [G1 G2]; apply andb_true_iff in G1; destruct G1 as [G1 G3];
    apply Z.leb_le in G1, G3; rewrite (cast_same (la r) (lhs_ty r) x), (cast_same (ra r) (rhs_ty r) y) by assumption; cbn [bind];
    destruct (mid r); try discriminate G2; destruct (ret r); try discriminate G2; rewrite !conv_base; cbn [bits_of]; f_equal;
    rewrite ?Z.gtb_ltb, ?Z.geb_leb; match goal with |- context [of_bool ?b] => destruct b; reflexivity end.
  - apply andb_true_iff in G; destruct G as [G1 G2]; apply andb_true_iff in G1; destruct G1 as [G1 G3];
    apply Z.leb_le in G1, G3; rewrite (cast_same (la r) (lhs_ty r) x), (cast_same (ra r) (rhs_ty r) y) by assumption; cbn [bind];
    destruct (mid r); try discriminate G2; destruct (ret r); try discriminate G2; rewrite !conv_base; cbn [bits_of]; f_equal;
    rewrite ?Z.gtb_ltb, ?Z.geb_leb; match goal with |- context [of_bool ?b] => destruct b; reflexivity end.
  - apply andb_true_iff in G; destruct G as [G1 G2]; apply andb_true_iff in G1; destruct G1 as [G1 G3];
    apply Z.leb_le in G1, G3; rewrite (cast_same (la r) (lhs_ty r) x), (cast_same (ra r) (rhs_ty r) y) by assumption; cbn [bind];
    destruct (mid r); try discriminate G2; destruct (ret r); try discriminate G2; rewrite !conv_base; cbn [bits_of]; f_equal;
    rewrite ?Z.gtb_ltb, ?Z.geb_leb; match goal with |- context [of_bool ?b] => destruct b; reflexivity end.
  - apply andb_true_iff in G; destruct G as [G1 G2]; apply andb_true_iff in G1; destruct G1 as [G1 G3];
    apply Z.leb_le in G1, G3; rewrite (cast_same (la r) (lhs_ty r) x), (cast_same (ra r) (rhs_ty r) y) by assumption; cbn [bind];
    destruct (mid r); try discriminate G2; destruct (ret r); try discriminate G2; rewrite !conv_base; cbn [bits_of]; f_equal;
    rewrite ?Z.gtb_ltb, ?Z.geb_leb; match goal with |- context [of_bool ?b] => destruct b; reflexivity end.
Qed.

Lemma good_all : forallb (fun r => (line r =? 2597) || good r) overloads = true.
Proof. vm_compute. reflexivity. Qed.
Lemma values r x y : In r overloads -> line r <> 2597 -> value_of (lhs_ty r) x -> value_of (rhs_ty r) y ->
  meaningful (oper r) (bits_of (lhs_ty r)) y -> call r x y = Ok (result (oper r) (bits_of (ret r)) x y).
Proof.
  intros I N. pose proof good_all as G. rewrite forallb_forall in G. specialize (G r I). apply orb_true_iff in G.
  destruct G as [G|G]; [apply Z.eqb_eq in G; contradiction|]. apply good_call. exact G.
Qed.

(** * Undefined results, result types *)
Lemma div_zero r x : In r overloads -> oper r = OpDiv -> call r x 0 = UB.
Proof. intros _ O. unfold call. rewrite O. cbn [builtin]. rewrite !conv_base. rewrite Z.mod_0_l by (apply Z.pow_nonzero; pose proof (bits_pos (ra r)); lia). reflexivity. Qed.
Definition shift_ok (r : overload) : bool :=
  negb (is_shift (oper r)) || ((bits_of (la r) =? Z.max 32 (bits_of (lhs_ty r))) && (bits_of (rhs_ty r) <=? bits_of (ra r))).
Lemma shift_all : forallb shift_ok overloads = true.
Proof. vm_compute. reflexivity. Qed.
Lemma shift_far r x y : In r overloads -> is_shift (oper r) = true -> value_of (rhs_ty r) y ->
  Z.max 32 (bits_of (lhs_ty r)) <= y -> call r x y = UB.
Proof.
  intros I S Y L. pose proof shift_all as G. rewrite forallb_forall in G. specialize (G r I). unfold shift_ok in G.
  rewrite S in G. cbn [negb orb] in G. apply andb_true_iff in G. destruct G as [G1 G2]. apply Z.eqb_eq in G1. apply Z.leb_le in G2.
  unfold call. rewrite !conv_base. rewrite (cast_same (ra r) (rhs_ty r) y) by assumption.
  assert (width (promote (base (la r))) <= y) as K.
  { unfold promote. cbn [width base]. destruct (Z.ltb_spec (bits_of (la r)) 32); [cbn; lia|cbn [width base]; lia]. }
  destruct (oper r); try discriminate S; cbn [builtin]; destruct (Z.ltb_spec y (width (promote (base (la r))))); try lia; reflexivity.
Qed.
Definition uty_eqb (a b : uty) : bool :=
  match a, b with U64, U64 | U32, U32 | U16, U16 | U8, U8 | E64, E64 | E32, E32 | E16, E16 | E8, E8 | B, B => true | _, _ => false end.
Lemma uty_eqb_eq a b : uty_eqb a b = true -> a = b.
Proof. destruct a, b; intros H; try discriminate H; reflexivity. Qed.
Definition type_ok (r : overload) : bool :=
  if is_comparison (oper r) then negb (assigns r) && uty_eqb (ret r) B
  else if assigns r then uty_eqb (ret r) (lhs_ty r)
  else if is_shift (oper r) then bits_of (ret r) =? bits_of (lhs_ty r)
  else enum_of (ret r) && if existsb (Z.eqb (line r)) [2559; 2564; 2592; 2597] then true
    else bits_of (ret r) =? Z.max (bits_of (lhs_ty r)) (bits_of (rhs_ty r)).
Lemma types_all : forallb type_ok overloads = true.
Proof. vm_compute. reflexivity. Qed.
Lemma types r : In r overloads ->
  (is_comparison (oper r) = true -> assigns r = false /\ ret r = B) /\
  (assigns r = true -> ret r = lhs_ty r) /\
  (is_comparison (oper r) = false -> assigns r = false ->
    (is_shift (oper r) = true -> bits_of (ret r) = bits_of (lhs_ty r)) /\
    (is_shift (oper r) = false -> enum_of (ret r) = true /\
       (~ In (line r) [2559; 2564; 2592; 2597] -> bits_of (ret r) = Z.max (bits_of (lhs_ty r)) (bits_of (rhs_ty r))))).
Proof.
  intros I. pose proof types_all as G. rewrite forallb_forall in G. specialize (G r I). unfold type_ok in G.
  destruct (is_comparison (oper r)) eqn:C.
  - apply andb_true_iff in G. destruct G as [G1 G2]. apply negb_true_iff in G1. apply uty_eqb_eq in G2. repeat split; auto; try congruence.
  - split; [discriminate|]. destruct (assigns r) eqn:A.
    + apply uty_eqb_eq in G. split; [auto|discriminate].
    + split; [discriminate|]. intros _ _.
      destruct (is_shift (oper r)) eqn:S.
      * split; [intros _; apply Z.eqb_eq; exact G|discriminate].
      * apply andb_true_iff in G. destruct G as [G1 G2]. split; [discriminate|]. intros _. split; [exact G1|]. intros N. destruct (existsb (Z.eqb (line r)) [2559; 2564; 2592; 2597]) eqn:E.
        -- exfalso. apply N. apply existsb_exists in E. destruct E as (l & L & E). apply Z.eqb_eq in E. subst l. exact L.
        -- apply Z.eqb_eq. exact G2.
Qed.
Lemma row_2597 x y : value_of U8 x -> value_of E64 y -> forall r, In r overloads -> line r = 2597 ->
  oper r = OpDiv /\ assigns r = false /\ lhs_ty r = U8 /\ rhs_ty r = E64 /\
  call r x y = (if y mod 2 ^ 32 =? 0 then UB else Ok (x / (y mod 2 ^ 32))).
Proof.
  intros X Y r I L.
  assert (r = Row 2597 OpDiv false U8 E64 U32 U32 U8 E8) as ->.
  { assert (forallb (fun r => negb (line r =? 2597) || (match oper r with OpDiv => true | _ => false end && negb (assigns r)
      && uty_eqb (lhs_ty r) U8 && uty_eqb (rhs_ty r) E64 && uty_eqb (la r) U32 && uty_eqb (ra r) U32 && uty_eqb (mid r) U8 && uty_eqb (ret r) E8)) overloads = true) as G by (vm_compute; reflexivity).
    rewrite forallb_forall in G. specialize (G r I). rewrite L in G. cbn [negb orb Z.eqb Pos.eqb] in G.
    repeat (apply andb_true_iff in G; destruct G as [G ?G]).
    repeat match goal with H : uty_eqb _ _ = true |- _ => apply uty_eqb_eq in H end.
    destruct r as [l o s a b c d e f]; cbn [line oper assigns lhs_ty rhs_ty la ra mid ret] in *. subst.
    destruct o; try discriminate G. destruct s; [discriminate|]. reflexivity. }
  cbn [oper assigns lhs_ty rhs_ty]. repeat (split; [reflexivity|]).
  unfold call. cbn [oper la ra mid ret builtin]. rewrite !conv_base. cbn [bits_of].
  rewrite (Z.mod_small x) by (destruct X; cbn [bits_of] in *; lia).
  destruct (Z.eqb_spec (y mod 2 ^ 32) 0) as [E|E]; [reflexivity|].
  assert (0 <= y mod 2 ^ 32) by (apply Z.mod_pos_bound; lia). destruct X as [X0 X1]. cbn [bits_of] in X1.
  rewrite Z.quot_div_nonneg by lia. unfold calc. cbn [usual base bits_of promote signed width]. change (usual (base U32) (base U32)) with u32.
  cbn [signed u32 width]. unfold wrap. cbn [bind]. rewrite !conv_base. cbn [bits_of].
  assert (0 <= x / (y mod 2 ^ 32) <= x) by (split; [apply Z.div_pos; lia|apply Z.div_le_upper_bound; nia]).
  f_equal. rewrite (Z.mod_small _ (2 ^ 32)) by lia. rewrite Z.mod_mod by lia. apply Z.mod_small. lia.
Qed.

(** * Unary operators *)
Lemma wide_width w : uint_bits w -> width (wide w) = Z.max 32 w.
Proof. intros [-> | [-> | [-> | ->]]]; reflexivity. Qed.
Lemma wide_calc w v : uint_bits w -> calc (wide w) v = Ok (v mod 2 ^ Z.max 32 w).
Proof. intros [-> | [-> | [-> | ->]]]; reflexivity. Qed.
Lemma wide_conv w v : uint_bits w -> conv (wide w) v = v mod 2 ^ Z.max 32 w.
Proof. intros [-> | [-> | [-> | ->]]]; reflexivity. Qed.
Lemma bits_range w : uint_bits w -> 8 <= w <= 64.
Proof. intros [-> | [-> | [-> | ->]]]; lia. Qed.
Lemma wide_small w v : uint_bits w -> 0 <= v < 2 ^ w -> v mod 2 ^ Z.max 32 w = v.
Proof.
  intros W V. pose proof (bits_range w W). apply Z.mod_small. split; [lia|].
  eapply Z.lt_le_trans; [apply V|]. apply Z.pow_le_mono_r; lia.
Qed.
Lemma unary_not w v : uint_bits w -> 0 <= v < 2 ^ w -> u_not w v = (v =? 0).
Proof. intros W V. unfold u_not. rewrite wide_conv, wide_small by assumption. reflexivity. Qed.
Lemma unary_inc w v : uint_bits w -> 0 <= v < 2 ^ w ->
  u_inc w v = Ok ((v + 1) mod 2 ^ w) /\ u_dec w v = Ok ((v - 1) mod 2 ^ w) /\
  u_inc_post w v = Ok (v, (v + 1) mod 2 ^ w) /\ u_dec_post w v = Ok (v, (v - 1) mod 2 ^ w).
Proof.
  intros W V. pose proof (bits_range w W).
  assert (u_inc w v = Ok ((v + 1) mod 2 ^ w)) as A.
  { unfold u_inc. rewrite wide_conv, wide_small, wide_calc by assumption. cbn [bind]. unfold conv, uw, wrap. cbn [signed width].
    f_equal. apply mod_mod. lia. }
  assert (u_dec w v = Ok ((v - 1) mod 2 ^ w)) as C.
  { unfold u_dec. rewrite wide_conv, wide_small, wide_calc by assumption. cbn [bind]. unfold conv, uw, wrap. cbn [signed width].
    f_equal. apply mod_mod. lia. }
  unfold u_inc_post, u_dec_post. rewrite A, C. auto.
Qed.
Lemma unary_com w v : uint_bits w -> 0 <= v < 2 ^ w -> u_com w v = 2 ^ w - 1 - v.
Proof.
  intros W V. pose proof (bits_range w W). unfold u_com. rewrite !wide_conv, (wide_small w v) by assumption.
  unfold conv, uw, wrap. cbn [signed width]. rewrite mod_mod by lia. unfold Z.lnot.
  symmetry. apply Zmod_unique with (-1); lia.
Qed.
Lemma unary_neg w v : uint_bits w -> 0 <= v < 2 ^ w ->
  u_neg w v = (if (32 <=? w) && (v =? 2 ^ (w - 1)) then UB else Ok ((- v) mod 2 ^ w)).
Proof.
  intros W V. unfold u_neg.
  assert (exists s, conv (iw w) v = s /\ - 2 ^ (w - 1) <= s < 2 ^ (w - 1) /\ (s = v \/ s = v - 2 ^ w) /\ (s = - 2 ^ (w - 1) <-> v = 2 ^ (w - 1))) as (s & -> & S1 & S2 & S3).
  { eexists. split; [reflexivity|]. unfold conv, iw, swrap, wrap. cbn [signed width].
    assert (2 ^ w = 2 * 2 ^ (w - 1)) as E by (rewrite <- Z.pow_succ_r by (pose proof (bits_range w W); lia); f_equal; lia).
    rewrite Z.mod_small by lia. destruct (Z.ltb_spec v (2 ^ (w - 1))); lia. }
  assert (forall T, calc (promote (iw w)) (- s) = Ok (- s) -> (n <- calc (promote (iw w)) (- s) ;; Ok (conv (uw w) (conv (wide w) n))) = Ok (T mod 2 ^ w) \/ T mod 2 ^ w <> (- v) mod 2 ^ w) as K.
  { intros T ->. cbn [bind]. destruct (Z.eq_dec (T mod 2 ^ w) ((- v) mod 2 ^ w)) as [E|E]; [left|right; exact E].
    rewrite wide_conv by exact W. unfold conv, uw, wrap. cbn [signed width]. rewrite mod_mod by (pose proof (bits_range w W); lia). f_equal. rewrite E.
    destruct S2 as [-> | ->]; [reflexivity|]. replace (- (v - 2 ^ w)) with (- v + 1 * 2 ^ w) by lia. rewrite Z.mod_add; [reflexivity|].
    apply Z.pow_nonzero; pose proof (bits_range w W); lia. }
  specialize (K (- v)).
  destruct ((32 <=? w) && (v =? 2 ^ (w - 1))) eqn:E.
  - apply andb_true_iff in E. destruct E as [E1 E2]. apply Z.leb_le in E1. apply Z.eqb_eq in E2. rewrite (proj2 S3 E2).
    destruct W as [-> | [-> | [-> | ->]]]; try lia; reflexivity.
  - destruct K as [K|K]; [|exact K|contradiction K; reflexivity].
    assert (s = - 2 ^ (w - 1) -> w < 32) as N.
    { intros Q. apply andb_false_iff in E. destruct E as [E|E]; [apply Z.leb_gt in E; exact E|]. apply Z.eqb_neq in E. contradict E. apply S3. exact Q. }
    unfold calc.
    destruct W as [-> | [-> | [-> | ->]]]; cbn [promote iw width signed]; cbn -[Z.pow Z.leb];
      unfold lowest, highest; cbn [signed width Z.sub]; cbn in S1, N |- *;
      rewrite (proj2 (Z.leb_le _ _)), (proj2 (Z.leb_le _ _)) by lia; reflexivity.
Qed.

Lemma bytes_bound l : Forall (fun b => 0 <= b < 256) l -> 0 <= bytes_value l < 2 ^ (8 * Z.of_nat (length l)).
Proof.
  induction 1 as [|b l Hb _ IH]; [cbn; lia|]. cbn [bytes_value length].
  replace (8 * Z.of_nat (S (length l))) with (8 + 8 * Z.of_nat (length l)) by lia. rewrite Z.pow_add_r by lia. change (2 ^ 8) with 256. lia.
Qed.
Lemma lor_high a c k : 0 <= a < 2 ^ k -> 0 <= k -> Z.lor a (c * 2 ^ k) = a + c * 2 ^ k.
Proof.
  intros A K. enough (Z.land a (c * 2 ^ k) = 0) as E by (rewrite Z.add_nocarry_lxor, Z.lxor_lor by exact E; reflexivity).
  apply Z.bits_inj'. intros i I. rewrite Z.land_spec, Z.bits_0. destruct (Z.lt_ge_cases i k).
  - rewrite Z.mul_pow2_bits_low by lia. apply andb_false_r.
  - rewrite <- (Z.mod_small a (2 ^ k)) by lia. rewrite Z.mod_pow2_bits_high by lia. reflexivity.
Qed.
Lemma bytes_top l c : Forall (fun b => 0 <= b < 256) l ->
  Z.lor (bytes_value l) (c * 2 ^ (8 * Z.of_nat (length l))) = bytes_value (l ++ [c]).
Proof.
  intros F. rewrite lor_high by (try apply bytes_bound; try exact F; lia).
  clear F. induction l as [|b l IH]; [cbn; lia|]. cbn [bytes_value length app].
  rewrite <- IH. replace (8 * Z.of_nat (S (length l))) with (8 + 8 * Z.of_nat (length l)) by lia. rewrite Z.pow_add_r by lia. change (2 ^ 8) with 256. ring.
Qed.
Lemma firstn_S_nth {A} (l : list A) n c : nth_error l n = Some c -> firstn (S n) l = firstn n l ++ [c].
Proof. revert n. induction l as [|a l IH]; intros [|n] H; try discriminate H; cbn [nth_error] in H. - injection H as ->. reflexivity. - cbn [firstn app]. rewrite <- (IH n H). reflexivity. Qed.

(** * Rotations *)
Lemma wide_promote w : uint_bits w -> promote (wide w) = wide w.
Proof. intros [-> | [-> | [-> | ->]]]; reflexivity. Qed.
Lemma wide_shl w v k : uint_bits w -> builtin OpShl (wide w) u32 v k = (if k <? Z.max 32 w then Ok (v * 2 ^ k mod 2 ^ Z.max 32 w) else UB).
Proof. intros W. cbn [builtin]. rewrite wide_promote, wide_width, wide_calc by exact W. reflexivity. Qed.
Lemma wide_shr w v k : uint_bits w -> builtin OpShr (wide w) u32 v k = (if k <? Z.max 32 w then Ok (v / 2 ^ k) else UB).
Proof. intros W. cbn [builtin]. rewrite wide_promote, wide_width by exact W. reflexivity. Qed.
Lemma uw_conv w v : conv (uw w) v = v mod 2 ^ w.
Proof. reflexivity. Qed.
Lemma high_zero w v i : 0 <= v < 2 ^ w -> 0 <= w <= i -> Z.testbit v i = false.
Proof. intros V I. rewrite <- (Z.mod_small v (2 ^ w)) by lia. apply Z.mod_pow2_bits_high. lia. Qed.
Lemma ror_mask a b w i : 0 <= i < w -> Z.testbit (Z.lor (a mod 2 ^ Z.max 32 w) b mod 2 ^ w) i = Z.testbit a i || Z.testbit b i.
Proof. intros H. rewrite Z.mod_pow2_bits_low, Z.lor_spec, Z.mod_pow2_bits_low by lia. reflexivity. Qed.
Lemma mod_below w i k : 0 < w -> 0 <= i < w -> 0 <= k <= w -> (i - k) mod w = if k <=? i then i - k else i - k + w.
Proof.
  intros W I K. destruct (Z.leb_spec k i).
  - apply Z.mod_small. lia.
  - symmetry. apply Zmod_unique with (-1); lia.
Qed.
Lemma mod_above w i k : 0 < w -> 0 <= i < w -> 0 <= k <= w -> (i + k) mod w = if i + k <? w then i + k else i + k - w.
Proof.
  intros W I K. destruct (Z.ltb_spec (i + k) w).
  - apply Z.mod_small. lia.
  - symmetry. apply Zmod_unique with 1; lia.
Qed.
Lemma turnable_spec w bits : uint_bits w -> turnable w bits ->
  0 <= bits <= w /\ bits < Z.max 32 w /\ sub32 w bits = w - bits /\ w - bits < Z.max 32 w.
Proof.
  intros W T. pose proof (bits_range w W). unfold turnable in T. unfold sub32, wrap. rewrite Z.mod_small by lia. lia.
Qed.
Lemma rotl w v bits : uint_bits w -> 0 <= v < 2 ^ w -> turnable w bits ->
  exists r, rotate_left w v bits = Ok r /\ 0 <= r < 2 ^ w /\
    forall i, 0 <= i < w -> Z.testbit r i = Z.testbit v ((i - bits) mod w).
Proof.
  intros W V T. pose proof (bits_range w W) as BR. destruct (turnable_spec w bits W T) as (T1 & T2 & T3 & T4).
  unfold rotate_left. rewrite wide_shl, wide_shr, T3 by exact W.
  destruct (Z.ltb_spec bits (Z.max 32 w)); [|lia]. destruct (Z.ltb_spec (w - bits) (Z.max 32 w)); [|lia]. cbn [bind]. rewrite uw_conv.
  eexists. split; [reflexivity|]. split; [apply Z.mod_pos_bound; apply Z.pow_pos_nonneg; lia|].
  intros i I. rewrite ror_mask by exact I. rewrite <- Z.shiftl_mul_pow2, <- Z.shiftr_div_pow2 by lia.
  rewrite Z.shiftl_spec, Z.shiftr_spec by lia. rewrite mod_below by lia.
  destruct (Z.leb_spec bits i).
  - rewrite (high_zero w v (i + (w - bits))) by lia. apply orb_false_r.
  - rewrite (Z.testbit_neg_r v (i - bits)) by lia. cbn [orb]. f_equal. lia.
Qed.
Lemma rotr w v bits : uint_bits w -> 0 <= v < 2 ^ w -> turnable w bits ->
  exists r, rotate_right w v bits = Ok r /\ 0 <= r < 2 ^ w /\
    forall i, 0 <= i < w -> Z.testbit r i = Z.testbit v ((i + bits) mod w).
Proof.
  intros W V T. pose proof (bits_range w W) as BR. destruct (turnable_spec w bits W T) as (T1 & T2 & T3 & T4).
  unfold rotate_right. rewrite wide_shl, wide_shr, T3 by exact W.
  destruct (Z.ltb_spec bits (Z.max 32 w)); [|lia]. destruct (Z.ltb_spec (w - bits) (Z.max 32 w)); [|lia]. cbn [bind]. rewrite uw_conv.
  eexists. split; [reflexivity|]. split; [apply Z.mod_pos_bound; apply Z.pow_pos_nonneg; lia|].
  intros i I. rewrite Z.lor_comm, ror_mask by exact I. rewrite <- Z.shiftl_mul_pow2, <- Z.shiftr_div_pow2 by lia.
  rewrite Z.shiftl_spec, Z.shiftr_spec by lia. rewrite mod_above by lia.
  destruct (Z.ltb_spec (i + bits) w).
  - rewrite (Z.testbit_neg_r v (i - (w - bits))) by lia. reflexivity.
  - rewrite (high_zero w v (i + bits)) by lia. rewrite orb_false_r. f_equal. lia.
Qed.
Lemma rot_ub w v bits : uint_bits w -> 0 <= bits < 2 ^ 32 -> ~ turnable w bits ->
  rotate_left w v bits = UB /\ rotate_right w v bits = UB.
Proof.
  intros W K T. pose proof (bits_range w W) as BR. unfold turnable in T.
  unfold rotate_left, rotate_right. rewrite !wide_shl, !wide_shr by exact W.
  destruct (Z.ltb_spec bits (Z.max 32 w)); [|auto]. cbn [bind].
  destruct (Z.ltb_spec (sub32 w bits) (Z.max 32 w)) as [L|L]; [|auto]. exfalso. apply T.
  unfold sub32, wrap in L. destruct (Z.le_gt_cases bits w).
  - rewrite Z.mod_small in L by lia. lia.
  - replace ((w - bits) mod 2 ^ 32) with (w - bits + 2 ^ 32) in L by (apply Zmod_unique with (-1); lia). lia.
Qed.

(** * Single bits and masks *)
Lemma u32_shl v n : builtin OpShl u32 u32 v n = (if n <? 32 then Ok (v * 2 ^ n mod 2 ^ 32) else UB).
Proof. reflexivity. Qed.
Lemma testbit_one n i : 0 <= n -> Z.testbit (2 ^ n) i = (i =? n).
Proof. intros N. rewrite Z.pow2_bits_eqb by lia. apply Z.eqb_sym. Qed.
Lemma not_one w n i : uint_bits w -> 0 <= n < 32 -> 0 <= i ->
  Z.testbit (conv (uw w) (conv u32 (Z.lnot (1 * 2 ^ n mod 2 ^ 32)))) i = (i <? w) && (i <? 32) && negb (i =? n).
Proof.
  intros W N I. pose proof (bits_range w W). rewrite uw_conv. change (conv u32 ?z) with (z mod 2 ^ 32).
  rewrite Z.mul_1_l. rewrite (Z.mod_small (2 ^ n)) by (split; [lia|apply Z.pow_lt_mono_r; lia]).
  destruct (Z.ltb_spec i w); [|apply Z.mod_pow2_bits_high; lia].
  rewrite Z.mod_pow2_bits_low by lia. destruct (Z.ltb_spec i 32); [|apply Z.mod_pow2_bits_high; lia].
  rewrite Z.mod_pow2_bits_low, Z.lnot_spec, testbit_one by lia. reflexivity.
Qed.
Lemma bit_state w n s i : uint_bits w -> 0 <= n < 32 -> 0 <= i ->
  Z.testbit (conv (uw w) (of_bool s * 2 ^ n mod 2 ^ Z.max 32 w)) i = (i <? w) && (i =? n) && s.
Proof.
  intros W N I. pose proof (bits_range w W). rewrite uw_conv. rewrite mod_mod by lia.
  destruct (Z.ltb_spec i w); [|apply Z.mod_pow2_bits_high; lia].
  rewrite Z.mod_pow2_bits_low by lia. destruct s; cbn [of_bool].
  - rewrite Z.mul_1_l, testbit_one by lia. rewrite andb_true_r. reflexivity.
  - rewrite Z.mul_0_l, Z.bits_0, andb_false_r. reflexivity.
Qed.
Lemma below w r : 0 <= w -> 0 <= r -> (forall i, w <= i -> Z.testbit r i = false) -> r < 2 ^ w.
Proof.
  intros W R H. destruct (Z.lt_ge_cases r (2 ^ w)) as [L|L]; [exact L|exfalso].
  assert (0 < 2 ^ w) by (apply Z.pow_pos_nonneg; lia).
  specialize (H (Z.log2 r)). rewrite Z.bit_log2 in H by lia. assert (w <= Z.log2 r) by (apply Z.log2_le_pow2; lia). discriminate (H H1).
Qed.
Lemma setb w n v s : uint_bits w -> 0 <= n < 32 -> 0 <= v < 2 ^ w ->
  exists r, set_bit w n v s = Ok r /\ 0 <= r < 2 ^ w /\
    forall i, 0 <= i < w -> Z.testbit r i = if i =? n then s else (i <? 32) && Z.testbit v i.
Proof.
  intros W N V. pose proof (bits_range w W) as BR. unfold set_bit. rewrite u32_shl, wide_shl by exact W.
  destruct (Z.ltb_spec n 32); [|lia]. destruct (Z.ltb_spec n (Z.max 32 w)); [|lia]. cbn [bind].
  eexists. split; [reflexivity|].
  match goal with |- 0 <= ?r < _ /\ _ => set (res := r) end.
  assert (forall i, 0 <= i -> Z.testbit res i = (Z.testbit v i && ((i <? w) && (i <? 32) && negb (i =? n))) || ((i <? w) && (i =? n) && s)) as K.
  { intros i I. unfold res. rewrite Z.lor_spec, Z.land_spec, not_one, bit_state by assumption. reflexivity. }
  assert (0 <= res) as P.
  { unfold res. apply Z.lor_nonneg. split; [apply Z.land_nonneg; left; lia|]. rewrite uw_conv. apply Z.mod_pos_bound. apply Z.pow_pos_nonneg; lia. }
  split; [split; [exact P|]|].
  - apply below; [lia|exact P|]. intros i I. rewrite K by lia. destruct (Z.ltb_spec i w); [lia|]. rewrite andb_false_r. reflexivity.
  - intros i I. rewrite K by lia. destruct (Z.ltb_spec i w); [|lia]. cbn [andb].
    destruct (Z.eqb_spec i n); cbn [negb]; rewrite ?andb_false_r, ?andb_true_r, ?orb_false_r; cbn [orb andb]; [reflexivity|apply andb_comm].
Qed.
Lemma setb_ub w n v s : 32 <= n -> set_bit w n v s = UB.
Proof. intros N. unfold set_bit. rewrite u32_shl. destruct (Z.ltb_spec n 32); [lia|reflexivity]. Qed.
Lemma getb w n v : uint_bits w -> 0 <= v < 2 ^ w -> 0 <= n ->
  get_bit w n v = (if n <? Z.max 32 w then Ok (of_bool (Z.testbit v n)) else UB).
Proof.
  intros W V N. unfold get_bit. rewrite wide_shr by exact W. destruct (Z.ltb_spec n (Z.max 32 w)); [|reflexivity]. cbn [bind]. f_equal.
  rewrite <- Z.shiftr_div_pow2 by lia. change 1 with (Z.ones 1). rewrite Z.land_ones by lia.
  change (2 ^ 1) with 2. rewrite <- (Z.bit0_mod (Z.shiftr v n)). rewrite Z.shiftr_spec by lia. rewrite Z.add_0_l. unfold of_bool, Z.b2z. reflexivity.
Qed.
Lemma mask w n : uint_bits w -> 0 <= n <= w -> mask_from_lsb w n = Ok (2 ^ n - 1).
Proof.
  intros W N. pose proof (bits_range w W) as BR. unfold mask_from_lsb. destruct (Z.eqb_spec n 0) as [->|K]; [reflexivity|].
  assert (2 ^ 8 <= 2 ^ w) by (apply Z.pow_le_mono_r; lia).
  rewrite wide_shl by exact W. destruct (Z.ltb_spec (n - 1) (Z.max 32 w)); [|lia]. cbn [bind]. f_equal. rewrite uw_conv, mod_mod by lia.
  rewrite (unary_com w 1) by (try exact W; lia).
  assert (2 ^ w = 2 ^ n * 2 ^ (w - n)) as E by (rewrite <- Z.pow_add_r by lia; f_equal; lia).
  assert (2 ^ n = 2 * 2 ^ (n - 1)) as F by (rewrite <- Z.pow_succ_r by lia; f_equal; lia).
  assert (0 < 2 ^ (w - n)) by (apply Z.pow_pos_nonneg; lia). assert (0 < 2 ^ (n - 1)) by (apply Z.pow_pos_nonneg; lia).
  assert ((2 ^ w - 1 - 1) * 2 ^ (n - 1) mod 2 ^ w = 2 ^ w - 2 ^ n) as ->.
  { symmetry. apply Zmod_unique with (2 ^ (n - 1) - 1); [split; [nia|lia]|]. rewrite F. ring. }
  rewrite unary_com; [lia|exact W|]. split; [nia|lia].
Qed.

(** * Bytes, literals, limits *)
Lemma wide_rd w n ptr acc : uint_bits w -> (8 * Z.of_nat n <= w) -> (n <= length ptr)%nat -> 0 <= acc ->
  exists m, read_bytes (wide w) n ptr acc = Ok m /\ m = Z.lor acc (bytes_value (map byte (firstn n ptr))).
Proof.
  intros W. revert acc. induction n as [|n IH]; intros acc N L A; cbn [read_bytes].
  - exists acc. split; [reflexivity|]. cbn. symmetry. apply Z.lor_0_r.
  - destruct (nth_error ptr n) as [c|] eqn:E; [|apply nth_error_None in E; lia].
    rewrite (rd_some _ _ _ E). cbn [bind]. rewrite wide_shl by exact W. pose proof (bits_range w W) as BR.
    destruct (Z.ltb_spec (8 * Z.of_nat n) (Z.max 32 w)); [|lia]. cbn [bind].
    change (conv u8 c) with (byte c).
    assert (0 <= byte c < 256) as C by (apply Z.mod_pos_bound; lia).
    assert (byte c * 2 ^ (8 * Z.of_nat n) < 2 ^ w) as D.
    { apply Z.lt_le_trans with (2 ^ (8 * Z.of_nat (S n))); [|apply Z.pow_le_mono_r; lia].
      replace (8 * Z.of_nat (S n)) with (8 + 8 * Z.of_nat n) by lia. rewrite Z.pow_add_r by lia. change (2 ^ 8) with 256.
      apply Z.mul_lt_mono_pos_r; [apply Z.pow_pos_nonneg; lia|lia]. }
    assert (0 <= byte c * 2 ^ (8 * Z.of_nat n)) as D0 by (apply Z.mul_nonneg_nonneg; [lia|apply Z.pow_nonneg; lia]).
    rewrite wide_conv, (wide_small w (byte c)) by (first [exact W | split; [lia|]; eapply Z.lt_le_trans; [apply C|]; change 256 with (2 ^ 8); apply Z.pow_le_mono_r; lia]).
    rewrite (wide_small w (byte c * _)) by (try exact W; lia).
    destruct (IH (Z.lor acc (byte c * 2 ^ (8 * Z.of_nat n)))) as (m & M & Q); [lia|lia|apply Z.lor_nonneg; lia|].
    exists m. split; [exact M|]. rewrite Q. rewrite <- Z.lor_assoc. f_equal.
    (* the new byte is above the others *)
    clear - C E L. rewrite (firstn_S_nth ptr n c E), map_app. cbn [map].
    assert (length (map byte (firstn n ptr)) = n) as LN by (rewrite map_length, firstn_length; lia).
    assert (Forall (fun b => 0 <= b < 256) (map byte (firstn n ptr))) as FA.
    { apply Forall_forall. intros b I. apply in_map_iff in I. destruct I as (a & <- & _). apply Z.mod_pos_bound. lia. }
    rewrite <- LN at 1. generalize dependent (map byte (firstn n ptr)). intros l _ FA. rewrite Z.lor_comm. apply bytes_top; assumption.
Qed.

Lemma buffer w ptr : (w = 64 \/ w = 32 \/ w = 16) -> (Z.to_nat (w / 8) <= length ptr)%nat ->
  to_uint_buffer w ptr = Ok (bytes_value (map byte (firstn (Z.to_nat (w / 8)) ptr))).
Proof.
  intros W L. assert (uint_bits w) as W' by (unfold uint_bits; tauto).
  assert (8 * Z.of_nat (Z.to_nat (w / 8)) = w) as E by (destruct W as [-> | [-> | ->]]; reflexivity).
  unfold to_uint_buffer. destruct (wide_rd w (Z.to_nat (w / 8)) ptr 0 W' ltac:(lia) L ltac:(lia)) as (m & -> & ->).
  cbn [bind]. rewrite Z.lor_0_l. f_equal. rewrite uw_conv. apply Z.mod_small.
  rewrite <- E at 3. replace (Z.to_nat (w / 8)) with (length (map byte (firstn (Z.to_nat (w / 8)) ptr))) at 3 by (rewrite map_length, firstn_length; lia).
  apply bytes_bound. apply Forall_forall. intros b I. apply in_map_iff in I. destruct I as (a & <- & _). apply Z.mod_pos_bound. lia.
Qed.
Lemma buffer_short w ptr : (w = 64 \/ w = 32 \/ w = 16) -> (length ptr < Z.to_nat (w / 8))%nat -> to_uint_buffer w ptr = UB.
Proof.
  intros W L. unfold to_uint_buffer.
  assert (forall n acc, (length ptr < n)%nat -> read_bytes (wide w) n ptr acc = UB) as K.
  { intros [|n] acc H; [lia|]. cbn [read_bytes]. unfold rd. destruct (nth_error ptr n) eqn:E; [|reflexivity].
    apply nth_error_some_lt in E. lia. }
  rewrite K by exact L. reflexivity.
Qed.
Lemma literals w dbg value : uint_bits w -> 0 <= value < 2 ^ 64 ->
  literal dbg w value =
    (if dbg && ((w =? 32) && (2 ^ 32 <=? value) || ((w =? 16) || (w =? 8)) && (2 ^ w - 1 <=? value)) then Throw else Ok (value mod 2 ^ w)).
Proof.
  intros W V. unfold literal.
  destruct W as [-> | [-> | [-> | ->]]]; cbn [Z.eqb Pos.eqb orb andb negb]; rewrite ?uw_conv; destruct dbg; cbn [andb]; try reflexivity.
  - change (highest (uw 32)) with (2 ^ 32 - 1). destruct (Z.leb_spec value (2 ^ 32 - 1)), (Z.leb_spec (2 ^ 32) value); try lia; reflexivity.
  - change (highest (uw 16)) with (2 ^ 16 - 1). destruct (Z.ltb_spec value (2 ^ 16 - 1)), (Z.leb_spec (2 ^ 16 - 1) value); try lia; reflexivity.
  - change (highest (uw 8)) with (2 ^ 8 - 1). destruct (Z.ltb_spec value (2 ^ 8 - 1)), (Z.leb_spec (2 ^ 8 - 1) value); try lia; reflexivity.
Qed.
Lemma limits w : uint_bits w ->
  nl_min w = 0 /\ nl_max w = 2 ^ w - 1 /\ nl_digits w = w /\
  10 ^ nl_digits10 w - 1 <= nl_max w < 10 ^ (nl_digits10 w + 1) - 1.
Proof. intros [-> | [-> | [-> | ->]]]; vm_compute; repeat split; discriminate. Qed.

Definition bop_eqb (o o' : bop) : bool :=
  match o, o' with
  | OpAdd, OpAdd | OpSub, OpSub | OpMul, OpMul | OpDiv, OpDiv | OpAnd, OpAnd | OpOr, OpOr | OpXor, OpXor | OpShl, OpShl
  | OpShr, OpShr | OpEq, OpEq | OpNe, OpNe | OpLt, OpLt | OpLe, OpLe | OpGt, OpGt | OpGe, OpGe => true | _, _ => false end.
Definition has (o : bop) (s : bool) (a b : uty) : bool :=
  existsb (fun r => bop_eqb (oper r) o && Bool.eqb (assigns r) s && uty_eqb (lhs_ty r) a && uty_eqb (rhs_ty r) b) overloads.
Lemma has_provided o s a b : has o s a b = true -> provided o s a b.
Proof.
  intros H. apply existsb_exists in H. destruct H as (r & I & H). repeat (apply andb_true_iff in H; destruct H as [H ?H]).
  exists r. split; [exact I|]. apply uty_eqb_eq in H0, H1. apply Bool.eqb_prop in H2. split; [|auto].
  destruct (oper r), o; try discriminate H; reflexivity.
Qed.
Definition enums : list uty := [E64; E32; E16; E8].
Definition ops : list bop := [OpAdd; OpSub; OpMul; OpDiv; OpAnd; OpOr; OpXor; OpShl; OpShr; OpEq; OpNe; OpLt; OpLe; OpGt; OpGe].
Lemma provided_all : forallb (fun o => forallb (fun a => forallb (fun b =>
  (negb (arithmetic o || bitwise o && negb (uty_eqb a E8 && uty_eqb b E16)) || has o false a b) &&
  (negb (negb (is_comparison o) && (bits_of b <=? bits_of a)) || has o true a b)) enums) enums) ops = true.
Proof. vm_compute. reflexivity. Qed.
Lemma provided_spec o a b : enum_of a = true -> enum_of b = true ->
  (arithmetic o = true -> provided o false a b) /\
  (bitwise o = true -> ~ (a = E8 /\ b = E16) -> provided o false a b) /\
  (is_comparison o = false -> bits_of b <= bits_of a -> provided o true a b).
Proof.
  intros A C. pose proof provided_all as G. rewrite forallb_forall in G.
  specialize (G o ltac:(unfold ops; destruct o; repeat (try (left; reflexivity); right))). rewrite forallb_forall in G.
  specialize (G a ltac:(unfold enums; destruct a; try discriminate A; repeat (try (left; reflexivity); right))). rewrite forallb_forall in G.
  specialize (G b ltac:(unfold enums; destruct b; try discriminate C; repeat (try (left; reflexivity); right))).
  apply andb_true_iff in G. destruct G as [G1 G2]. apply orb_true_iff in G1, G2. split; [|split].
  - intros O. rewrite O in G1. destruct G1 as [G1|G1]; [discriminate G1|]. apply has_provided. exact G1.
  - intros O N. rewrite O in G1. destruct G1 as [G1|G1]; [|apply has_provided; exact G1]. apply negb_true_iff, orb_false_iff in G1. destruct G1 as [_ G1].
    cbn [andb] in G1. apply negb_false_iff, andb_true_iff in G1. destruct G1 as [X Y]. apply uty_eqb_eq in X, Y. contradict N. auto.
  - intros O N. rewrite O in G2. rewrite (proj2 (Z.leb_le _ _) N) in G2. destruct G2 as [G2|G2]; [discriminate G2|]. apply has_provided. exact G2.
Qed.

Lemma c196_ranges_l :
  (forall x, value_of B x <-> x = 0 \/ x = 1) /\
  (forall x, value_of U8 x <-> 0 <= x <= 255) /\ (forall x, value_of E8 x <-> 0 <= x <= 255) /\
  (forall x, value_of U16 x <-> 0 <= x <= 65535) /\ (forall x, value_of E16 x <-> 0 <= x <= 65535) /\
  (forall x, value_of U32 x <-> 0 <= x <= 4294967295) /\ (forall x, value_of E32 x <-> 0 <= x <= 4294967295) /\
  (forall x, value_of U64 x <-> 0 <= x <= 18446744073709551615) /\
  (forall x, value_of E64 x <-> 0 <= x <= 18446744073709551615).
Proof.
  unfold value_of, bits_of.
  change (2 ^ 1) with 2. change (2 ^ 8) with 256. change (2 ^ 16) with 65536.
  change (2 ^ 32) with 4294967296. change (2 ^ 64) with 18446744073709551616.
  repeat split; lia.
Qed.
