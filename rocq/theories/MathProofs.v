(** Proofs about daw_math.h, min/max and natural_t. *)
From Coq Require Import Zpow_facts ZifyBool.
From Verif Require Import Common Ints Math SpecBits SpecMath BitsProofs.
Open Scope Z_scope.
Local Arguments Z.mul : simpl never.
Local Arguments Z.add : simpl never.
Local Arguments Z.sub : simpl never.
Local Arguments Z.pow : simpl never.
Local Arguments Z.of_nat : simpl never.

Lemma std_pos w : std_width w -> 0 < w.
Proof. unfold std_width. lia. Qed.

(** * Arithmetic in a type *)
Lemma calc_fits P z : 0 < width P -> fits P z -> calc P z = Ok z.
Proof.
  unfold calc, fits. intros W F. destruct (signed P) eqn:E.
  - replace (_ && _) with true by lia. reflexivity.
  - unfold lowest, highest in F. rewrite E in F. rewrite wrap_id; auto; lia.
Qed.

Lemma promote_pos T : 0 < width (promote T).
Proof. pose proof (promote_width T). lia. Qed.

Lemma assign_fits T z : 0 < width T -> fits T z -> assign_op T z = Ok z.
Proof.
  intros W F. unfold assign_op.
  rewrite calc_fits; [|apply promote_pos|apply fits_promote; auto]. cbn [bind].
  rewrite conv_id; auto.
Qed.

Lemma assign_ok_fits T z r : 0 < width T -> assign_op T z = Ok r -> fits T r.
Proof.
  intros W. unfold assign_op. destruct (calc (promote T) z); cbn [bind]; try discriminate.
  intros E; injection E as <-. apply conv_fits; auto.
Qed.

(** For an unsigned type not narrower than int the result is the product modulo
    the width. *)
Lemma assign_unsigned T z : signed T = false -> 32 <= width T ->
  assign_op T z = Ok (wrap (width T) z).
Proof.
  intros Hs W. unfold assign_op, promote. destruct (Z.ltb_spec (width T) 32); [lia|].
  unfold calc. rewrite Hs. cbn [bind]. f_equal. rewrite conv_wrap_arg by lia.
  unfold conv. rewrite Hs. reflexivity.
Qed.

(** A signed type not narrower than int: the exact result or nothing. *)
Lemma assign_signed T z : signed T = true -> 32 <= width T -> ~ fits T z -> assign_op T z = UB.
Proof.
  intros Hs W N. unfold assign_op, promote. destruct (Z.ltb_spec (width T) 32); [lia|].
  unfold calc. rewrite Hs. unfold fits in N.
  replace ((lowest T <=? z) && (z <=? highest T)) with false by lia. reflexivity.
Qed.

(** * pow2 *)
Lemma conv_wrap64 T z : std_width (width T) -> conv T (sz z) = conv T z.
Proof.
  intros W. rewrite <- (conv_wrap_arg T (sz z)), <- (conv_wrap_arg T z) by (apply std_pos; auto).
  f_equal. unfold sz, wrap.
  assert (0 < width T <= 64) by (unfold std_width in W; lia).
  replace 64 with (width T + (64 - width T)) by lia.
  rewrite Z.pow_add_r by lia.
  symmetry. rewrite (Z.mod_eq z (2 ^ width T * _)).
  2: { pose proof (pow_pos (width T)). pose proof (pow_pos (64 - width T)). nia. }
  replace (z - 2 ^ width T * 2 ^ (64 - width T) * (z / (2 ^ width T * 2 ^ (64 - width T))))
    with (z + - (2 ^ (64 - width T) * (z / (2 ^ width T * 2 ^ (64 - width T)))) * 2 ^ width T) by ring.
  rewrite Z.mod_add; auto. pose proof (pow_pos (width T)). lia.
Qed.

Lemma conv_mul T a b : std_width (width T) -> conv T (conv T a * b) = conv T (a * b).
Proof.
  intros W. pose proof (std_pos _ W).
  rewrite <- (conv_wrap_arg T (conv T a * b)), <- (conv_wrap_arg T (a * b)) by auto.
  f_equal. unfold wrap. rewrite Z.mul_mod by (pose proof (pow_pos (width T)); lia).
  pose proof (conv_wrap T a H) as E. unfold wrap in E. rewrite E.
  rewrite <- Z.mul_mod; auto. pose proof (pow_pos (width T)); lia.
Qed.

Lemma pow2_loop_ok T n r : std_width (width T) ->
  pow2_loop T n (conv T r) = conv T (r * 2 ^ Z.of_nat n).
Proof.
  intros W. revert r. induction n as [|n IH]; intros r; cbn [pow2_loop].
  - f_equal. change (2 ^ Z.of_nat 0) with 1. lia.
  - rewrite conv_wrap64 by auto.
    assert (conv T (conv u64 (conv T r) * 2) = conv T (r * 2)) as ->.
    { rewrite <- (conv_wrap64 T (conv u64 (conv T r) * 2)) by auto.
      assert (sz (conv u64 (conv T r) * 2) = sz (conv T r * 2)) as ->.
      { unfold sz, conv; cbn. unfold wrap. rewrite Zmult_mod_idemp_l. reflexivity. }
      rewrite conv_wrap64 by auto. rewrite conv_mul by auto. reflexivity. }
    rewrite IH. f_equal. rewrite Nat2Z.inj_succ, Z.pow_succ_r by lia. lia.
Qed.

Lemma one_fits T : std_width (width T) -> fits T 1.
Proof.
  intros W. unfold fits, lowest, highest.
  assert (2 <= 2 ^ (width T - 1)).
  { change 2 with (2 ^ 1) at 1. apply Z.pow_le_mono_r; unfold std_width in W; lia. }
  assert (2 <= 2 ^ width T).
  { change 2 with (2 ^ 1) at 1. apply Z.pow_le_mono_r; unfold std_width in W; lia. }
  destruct (signed T); lia.
Qed.

Lemma pow2_ok T n : std_width (width T) -> 0 <= n -> pow2 T n = conv T (2 ^ n).
Proof.
  intros W N. unfold pow2.
  rewrite <- (conv_id T 1) by (auto using std_pos, one_fits).
  rewrite pow2_loop_ok by auto. f_equal. rewrite Z2Nat.id by auto. lia.
Qed.

Lemma pow2_exact T n : std_width (width T) -> 0 <= n -> fits T (2 ^ n) -> pow2 T n = 2 ^ n.
Proof. intros. rewrite pow2_ok by auto. apply conv_id; auto using std_pos. Qed.

(** * abs *)
Lemma abs_ok T v : std_width (width T) -> signed T = true -> fits T v ->
  (v <> lowest T \/ width T = 64) -> abs u64 T v = Ok (Z.abs v).
Proof.
  intros W Hs F C. pose proof (std_pos _ W) as P. unfold abs.
  destruct (Z.eqb_spec v (lowest i64)) as [E|NE].
  - f_equal. rewrite pow2_exact; [| |lia|]; [|unfold std_width; cbn; lia|].
    + rewrite E. reflexivity.
    + unfold fits; cbn. lia.
  - assert (U : forall z, 0 <= z < 2 ^ 64 -> conv u64 z = z).
    { intros. apply conv_id; [reflexivity|]. unfold fits, lowest, highest; cbn [signed width u64]. lia. }
    assert (B : 2 ^ (width T - 1) <= 2 ^ 63).
    { apply Z.pow_le_mono_r; unfold std_width in W; lia. }
    assert (B2 : 2 ^ 63 < 2 ^ 64) by reflexivity.
    unfold fits, lowest, highest in F. rewrite Hs in F.
    destruct (Z.ltb_spec v 0).
    + assert (v <> lowest T) as N.
      { destruct C as [C|C]; auto. intros ->. apply NE. unfold lowest. rewrite Hs, C. reflexivity. }
      unfold lowest in N. rewrite Hs in N.
      rewrite assign_fits; auto.
      * cbn [bind]. rewrite U by lia. f_equal. lia.
      * unfold fits, lowest, highest. rewrite Hs. lia.
    + rewrite U by lia. f_equal. lia.
Qed.

Lemma abs_i32_min : abs u64 i32 (lowest i32) = UB.
Proof. vm_compute. reflexivity. Qed.
Lemma abs_i16_min : abs u64 i16 (lowest i16) = Ok (2 ^ 64 - 2 ^ 15).
Proof. vm_compute. reflexivity. Qed.
Lemma abs_i8_min : abs u64 i8 (lowest i8) = Ok (2 ^ 64 - 2 ^ 7).
Proof. vm_compute. reflexivity. Qed.

(** * factorial *)
Lemma factorial_loop_ok n r : factorial_loop n (sz r) = sz (r * fact n).
Proof.
  revert r. induction n as [|n IH]; intros r; cbn [factorial_loop fact].
  - f_equal. lia.
  - assert (sz (sz r * Z.of_nat (S n)) = sz (r * Z.of_nat (S n))) as ->.
    { unfold sz. apply Zmult_mod_idemp_l. }
    rewrite IH. f_equal. ring.
Qed.

Lemma factorial_ok T t : std_width (width T) -> signed T = true -> fits T t ->
  (t <> lowest T \/ width T = 64) ->
  factorial T t = Ok (wrap 64 (fact (Z.to_nat (Z.abs t)))).
Proof.
  intros. unfold factorial. rewrite abs_ok by auto. cbn [bind]. f_equal.
  change 1 with (sz 1) at 1. rewrite factorial_loop_ok. unfold sz, wrap. f_equal. lia.
Qed.

(** * pow *)
Lemma pow_impl_unsigned T b e : signed T = false -> 32 <= width T ->
  pow_impl T (wrap (width T) b) e = Ok (wrap (width T) (b ^ (2 ^ Z.of_nat e))).
Proof.
  intros Hs W. revert b. induction e as [|e IH]; intros b; cbn [pow_impl].
  - do 2 f_equal. change (2 ^ Z.of_nat 0) with 1. lia.
  - rewrite assign_unsigned by auto. cbn [bind].
    assert (wrap (width T) (wrap (width T) b * wrap (width T) b) = wrap (width T) (b * b)) as ->.
    { unfold wrap. rewrite <- Z.mul_mod; auto. pose proof (pow_pos (width T)). lia. }
    rewrite IH. do 2 f_equal. rewrite Nat2Z.inj_succ, Z.pow_succ_r by lia.
    rewrite Z.pow_mul_r by lia. f_equal. lia.
Qed.

Lemma pow_actual T b e : signed T = false -> 32 <= width T -> fits T b -> b <> 0 -> (0 < e)%nat ->
  pow T b e = Ok (wrap (width T) (b ^ (2 ^ Z.of_nat e))).
Proof.
  intros Hs W F N E. unfold pow. destruct (Z.eqb_spec b 0); [lia|].
  destruct (Nat.ltb_spec 0 e); [|lia].
  rewrite <- (wrap_id (width T) b) at 1.
  - apply pow_impl_unsigned; auto.
  - unfold fits, lowest, highest in F. rewrite Hs in F. lia.
Qed.

Lemma pow_impl_one T e : std_width (width T) -> pow_impl T 1 e = Ok 1.
Proof.
  intros W. induction e as [|e IH]; cbn [pow_impl]; auto.
  rewrite assign_fits; [| |apply one_fits]; auto using std_pos.
Qed.

Lemma pow_one T e : std_width (width T) -> pow T 1 e = Ok 1.
Proof.
  intros W. unfold pow. destruct (Z.eqb_spec 1 0); [lia|].
  destruct (0 <? e)%nat; auto. apply pow_impl_one; auto.
Qed.

Lemma pow_two T b : std_width (width T) -> b <> 0 -> fits T b -> fits T (b * b) ->
  pow T b 1 = Ok (b * b).
Proof.
  intros W N F F2. unfold pow. destruct (Z.eqb_spec b 0); [lia|]. cbn.
  rewrite assign_fits; auto using std_pos.
Qed.

(** * min and max *)
Definition wt (x : tval) : Prop := 0 < width (fst x) /\ fits (fst x) (snd x).

(** Values for which the built-in comparison is exact: one signedness, or no
    negative value. *)
Definition compat (x y : tval) : Prop :=
  signed (fst x) = signed (fst y) \/ 0 <= snd x /\ 0 <= snd y.

Lemma usual_nonneg T U t u : 0 < width T -> 0 < width U -> fits T t -> fits U u ->
  0 <= t -> 0 <= u -> 0 < width (usual T U) /\ fits (usual T U) t /\ fits (usual T U) u.
Proof.
  intros HT HU Ft Fu Pt Pu.
  pose proof (promote_width T) as WT. pose proof (promote_width U) as WU.
  pose proof (fits_promote T t HT Ft) as PT. pose proof (fits_promote U u HU Fu) as PU.
  unfold usual. cbv zeta. set (T' := promote T) in *. set (U' := promote U) in *.
  clearbody T' U'.
  destruct (Bool.eqb (signed T') (signed U')) eqn:E.
  - apply Bool.eqb_prop in E. cbn [width].
    rewrite <- (ity_eta T') in PT. rewrite <- (ity_eta U') in PU.
    split; [lia|]. split.
    + eapply fits_wider; [|exact PT]. lia.
    + rewrite E. eapply fits_wider; [|exact PU]. lia.
  - apply Bool.eqb_false_iff in E.
    rewrite <- (ity_eta T') in PT |- *. rewrite <- (ity_eta U') in PU |- *.
    destruct (signed T') eqn:ST, (signed U') eqn:SU; try congruence; cbn [width signed].
    + destruct (Z.leb_spec (width T') (width U')); cbn [width].
      * split; [lia|]. split; auto. eapply fits_nonneg_unsigned; [| |exact PT]; lia.
      * split; [lia|]. split; auto. eapply fits_unsigned_to_signed; [|exact PU]; lia.
    + destruct (Z.leb_spec (width U') (width T')); cbn [width].
      * split; [lia|]. split; auto. eapply fits_nonneg_unsigned; [| |exact PU]; lia.
      * split; [lia|]. split; auto. eapply fits_unsigned_to_signed; [|exact PT]; lia.
Qed.

Lemma usual_compat x y : wt x -> wt y -> compat x y ->
  0 < width (usual (fst x) (fst y)) /\
  fits (usual (fst x) (fst y)) (snd x) /\ fits (usual (fst x) (fst y)) (snd y).
Proof.
  intros [W1 F1] [W2 F2] [E | [P1 P2]].
  - apply usual_ok; auto.
  - apply usual_nonneg; auto.
Qed.

Lemma less_ok x y : wt x -> wt y -> compat x y -> less x y = (snd x <? snd y).
Proof.
  intros X Y C. destruct (usual_compat x y X Y C) as (W & F1 & F2).
  unfold less. rewrite !conv_id; auto.
Qed.

Lemma common_ok x y : wt x -> wt y -> compat x y ->
  0 < width (common (fst x) (fst y)) /\
  fits (common (fst x) (fst y)) (snd x) /\ fits (common (fst x) (fst y)) (snd y).
Proof.
  intros X Y C. unfold common, ity_eqb.
  destruct (Bool.eqb _ _ && _) eqn:E.
  - apply andb_true_iff in E as [E1 E2]. apply Bool.eqb_prop in E1. apply Z.eqb_eq in E2.
    destruct X as [X1 X2], Y as [Y1 Y2]. split; [|split]; auto.
    unfold fits, lowest, highest in *. rewrite E1, E2. exact Y2.
  - apply usual_compat; auto.
Qed.

(** Two types of one signedness have a common type of that signedness, unless
    both are unsigned and narrower than int. *)
Lemma usual_signed T U : signed T = true -> signed U = true -> signed (usual T U) = true.
Proof.
  intros H1 H2. unfold usual, promote.
  destruct (width T <? 32), (width U <? 32); cbn; rewrite ?H1, ?H2; cbn; auto.
Qed.

(** Either every value is of a signed type, or no value is negative. *)
Definition comparable (l : list tval) : Prop :=
  (forall x, In x l -> signed (fst x) = true) \/ (forall x, In x l -> 0 <= snd x).

Lemma vmax_ok l : forall x, (forall y, In y (x :: l) -> wt y) -> comparable (x :: l) ->
  wt (vmax x l) /\ greatest (snd (vmax x l)) (map snd (x :: l)) /\
  ((forall y, In y (x :: l) -> signed (fst y) = true) -> signed (fst (vmax x l)) = true) /\
  (forall T, (forall y, In y (x :: l) -> fst y = T) -> fst (vmax x l) = T).
Proof.
  induction l as [|v l IH]; intros x W C.
  - cbn [vmax map]. split; [apply W; left; auto|]. split; [|split].
    + split; [left; auto|]. intros y [<- | []]. lia.
    + intros H. apply H. left; auto.
    + intros T H. apply H. left; auto.
  - assert (CV : comparable (v :: l)).
    { destruct C as [C|C]; [left|right]; intros y Hy; apply C; right; auto. }
    assert (WV : forall y, In y (v :: l) -> wt y) by (intros y Hy; apply W; right; auto).
    destruct (IH v WV CV) as (WT & [GI GM] & SG & TY).
    assert (X : wt x) by (apply W; left; auto).
    assert (CX : compat x (vmax v l)).
    { destruct C as [C|C].
      - left. rewrite (C x (or_introl eq_refl)), SG; auto. intros y Hy; apply C; right; auto.
      - right. split; [apply C; left; auto|].
        apply in_map_iff in GI as (y & E & Hy). rewrite <- E. apply C; right; auto. }
    destruct (common_ok x (vmax v l) X WT CX) as (P & F1 & F2).
    assert (L : less (vmax v l) x = (snd (vmax v l) <? snd x)).
    { apply less_ok; auto. destruct CX as [E|[]]; [left|right]; auto. }
    assert (SGC : (forall y, In y (x :: v :: l) -> signed (fst y) = true) ->
                  signed (common (fst x) (fst (vmax v l))) = true).
    { intros H. unfold common. destruct (ity_eqb _ _).
      - apply H; left; auto.
      - apply usual_signed; [apply H; left; auto|]. apply SG. intros y Hy; apply H; right; auto. }
    assert (TYC : forall T, (forall y, In y (x :: v :: l) -> fst y = T) ->
                  common (fst x) (fst (vmax v l)) = T).
    { intros T H. rewrite (TY T) by (intros y Hy; apply H; right; auto).
      rewrite (H x) by (left; auto). unfold common, ity_eqb.
      rewrite Bool.eqb_reflx, Z.eqb_refl. reflexivity. }
    cbn [vmax]. cbv zeta. rewrite L.
    destruct (Z.ltb_spec (snd (vmax v l)) (snd x)) as [LT|GE]; unfold cast; cbn [fst snd].
    + rewrite conv_id by auto. split; [split; auto|]. split; [|split]; auto.
      split; [left; auto|].
      intros y [<- | Hy]; [lia|]. specialize (GM y Hy). lia.
    + rewrite conv_id by auto. split; [split; auto|]. split; [|split]; auto.
      split; [right; auto|].
      intros y [<- | Hy]; [lia|]. exact (GM y Hy).
Qed.

Lemma vmin_ok l : forall x, (forall y, In y (x :: l) -> wt y) -> comparable (x :: l) ->
  wt (vmin x l) /\ least (snd (vmin x l)) (map snd (x :: l)) /\
  ((forall y, In y (x :: l) -> signed (fst y) = true) -> signed (fst (vmin x l)) = true) /\
  (forall T, (forall y, In y (x :: l) -> fst y = T) -> fst (vmin x l) = T).
Proof.
  induction l as [|v l IH]; intros x W C.
  - cbn [vmin map]. split; [apply W; left; auto|]. split; [|split].
    + split; [left; auto|]. intros y [<- | []]. lia.
    + intros H. apply H. left; auto.
    + intros T H. apply H. left; auto.
  - assert (CV : comparable (v :: l)).
    { destruct C as [C|C]; [left|right]; intros y Hy; apply C; right; auto. }
    assert (WV : forall y, In y (v :: l) -> wt y) by (intros y Hy; apply W; right; auto).
    destruct (IH v WV CV) as (WT & [GI GM] & SG & TY).
    assert (X : wt x) by (apply W; left; auto).
    assert (CX : compat x (vmin v l)).
    { destruct C as [C|C].
      - left. rewrite (C x (or_introl eq_refl)), SG; auto. intros y Hy; apply C; right; auto.
      - right. split; [apply C; left; auto|].
        apply in_map_iff in GI as (y & E & Hy). rewrite <- E. apply C; right; auto. }
    destruct (common_ok x (vmin v l) X WT CX) as (P & F1 & F2).
    assert (L : less (vmin v l) x = (snd (vmin v l) <? snd x)).
    { apply less_ok; auto. destruct CX as [E|[]]; [left|right]; auto. }
    assert (SGC : (forall y, In y (x :: v :: l) -> signed (fst y) = true) ->
                  signed (common (fst x) (fst (vmin v l))) = true).
    { intros H. unfold common. destruct (ity_eqb _ _).
      - apply H; left; auto.
      - apply usual_signed; [apply H; left; auto|]. apply SG. intros y Hy; apply H; right; auto. }
    assert (TYC : forall T, (forall y, In y (x :: v :: l) -> fst y = T) ->
                  common (fst x) (fst (vmin v l)) = T).
    { intros T H. rewrite (TY T) by (intros y Hy; apply H; right; auto).
      rewrite (H x) by (left; auto). unfold common, ity_eqb.
      rewrite Bool.eqb_reflx, Z.eqb_refl. reflexivity. }
    cbn [vmin]. cbv zeta. rewrite L.
    destruct (Z.ltb_spec (snd (vmin v l)) (snd x)) as [LT|GE]; unfold cast; cbn [fst snd negb].
    + rewrite conv_id by auto. split; [split; auto|]. split; [|split]; auto.
      split; [right; auto|].
      intros y [<- | Hy]; [lia|]. exact (GM y Hy).
    + rewrite conv_id by auto. split; [split; auto|]. split; [|split]; auto.
      split; [left; auto|].
      intros y [<- | Hy]; [lia|]. specialize (GM y Hy). lia.
Qed.

(** One type: no condition on the values. *)
Lemma same_type_comparable T (l : list tval) :
  (forall y, In y l -> fst y = T) -> (forall y, In y l -> wt y) -> comparable l.
Proof.
  intros H W. destruct (signed T) eqn:E.
  - left. intros x Hx. rewrite (H x Hx). exact E.
  - right. intros x Hx. destruct (W x Hx) as [_ F]. rewrite (H x Hx) in F.
    unfold fits, lowest in F. rewrite E in F. lia.
Qed.

(** * natural_t *)
Definition call_of (c : natop) : natcall :=
  match c with
  | SAssign v => NAssign v
  | SAdd b => NAdd b
  | SSub b => NSub b
  | SMul b => NMul b
  | SInc => NInc
  | SDec => NDec
  end.

Lemma validate_ok z : 1 <= z -> nat_validate z = Ok z.
Proof. intros. unfold nat_validate. replace (z >=? 1) with true by lia. reflexivity. Qed.
Lemma validate_throws z : z < 1 -> nat_validate z = Throw.
Proof. intros. unfold nat_validate. replace (z >=? 1) with false by lia. reflexivity. Qed.

(** A step whose exact result is representable. *)
Lemma nat_step_exact T a c : std_width (width T) -> fits T a -> 1 <= a ->
  1 <= exact a c -> fits T (exact a c) ->
  nat_step T a (call_of c) = Ok (exact a c).
Proof.
  intros W F A E FE. pose proof (std_pos _ W) as P.
  destruct c; cbn [call_of nat_step exact] in *; unfold nat_make, nat_add, nat_sub, nat_mul, nat_inc, nat_dec.
  - rewrite validate_ok by auto. cbn [bind]. rewrite conv_id; auto.
  - apply assign_fits; auto.
  - rewrite calc_fits; auto using promote_pos, fits_promote. cbn [bind].
    rewrite validate_ok by auto. cbn [bind]. rewrite conv_id; auto.
  - apply assign_fits; auto.
  - apply assign_fits; auto.
  - rewrite calc_fits; auto using promote_pos, fits_promote. cbn [bind].
    rewrite validate_ok by auto. cbn [bind]. rewrite conv_id; auto.
Qed.

(** A step that would lead below one, in a signed type. *)
Lemma nat_step_below T a c : std_width (width T) -> (signed T = true \/ (exists v, c = SAssign v) \/ c = SDec) ->
  fits T a -> 1 <= a ->
  (forall b, c = SAdd b \/ c = SSub b \/ c = SMul b -> 1 <= b /\ fits T b) ->
  exact a c < 1 -> nat_step T a (call_of c) = Throw.
Proof.
  intros W S F A OP E. pose proof (std_pos _ W) as P.
  destruct c; cbn [call_of nat_step exact] in *; unfold nat_make, nat_sub, nat_dec.
  - rewrite validate_throws by auto. reflexivity.
  - destruct (OP b); auto; lia.
  - destruct (OP b) as [B FB]; auto.
    destruct S as [S | [[v S] | S]]; try discriminate.
    rewrite calc_fits; auto using promote_pos.
    + cbn [bind]. rewrite validate_throws by auto. reflexivity.
    + apply fits_promote; auto. unfold fits, lowest, highest in *. rewrite S in *. lia.
  - destruct (OP b); auto; nia.
  - lia.
  - rewrite calc_fits; auto using promote_pos.
    + cbn [bind]. rewrite validate_throws by auto. reflexivity.
    + apply fits_promote; auto. unfold fits, lowest, highest in *.
      pose proof (pow_pos (width T - 1)). destruct (signed T); lia.
Qed.

(** Histories. *)
Lemma nat_history T cs : forall a, std_width (width T) ->
  (signed T = true \/ forall b, ~ In (SSub b) cs) ->
  (forall b, In (SAdd b) cs \/ In (SSub b) cs \/ In (SMul b) cs -> 1 <= b /\ fits T b) ->
  1 <= a -> fits T a ->
  match expect T a cs with
  | Value z => nat_run T a (map call_of cs) = Ok z /\ 1 <= z
  | Rejected => nat_run T a (map call_of cs) = Throw
  | Overflowed => True
  end.
Proof.
  induction cs as [|c cs IH]; intros a W S OP A F; cbn [expect map nat_run].
  - auto.
  - assert (OPc : forall b, c = SAdd b \/ c = SSub b \/ c = SMul b -> 1 <= b /\ fits T b).
    { intros b [-> | [-> | ->]]; apply OP; cbn; auto. }
    assert (Sc : signed T = true \/ forall b, c <> SSub b).
    { destruct S as [S|S]; [left; auto|right]. intros b ->. apply (S b). left; auto. }
    destruct (Z.ltb_spec (exact a c) 1) as [LT|GE].
    + rewrite nat_step_below; auto.
      destruct Sc as [Sc|Sc]; auto. right.
      destruct c; cbn [exact] in LT; eauto.
      * destruct (OPc b); auto; lia.
      * exfalso; apply (Sc b); auto.
      * destruct (OPc b); auto; nia.
      * lia.
    + destruct (Z.leb_spec (exact a c) (highest T)) as [LE|GT]; [|exact I].
      assert (FE : fits T (exact a c)).
      { unfold fits in *. split; [|auto]. unfold lowest. pose proof (pow_pos (width T - 1)) as PP.
        pose proof (std_pos _ W). destruct (signed T); lia. }
      rewrite nat_step_exact by auto. cbn [bind].
      apply IH; auto.
      * destruct S as [S|S]; [left; auto|right]. intros b Hb. apply (S b). right; auto.
      * intros b Hb. apply OP. cbn. tauto.
Qed.

(** Wrong results. *)
Lemma nat_sub_wraps T a b : signed T = false -> 32 <= width T -> 1 <= a < b -> b <= highest T ->
  nat_step T a (NSub b) = Ok (2 ^ width T + a - b) /\ 1 <= 2 ^ width T + a - b.
Proof.
  intros Hs W AB HB. unfold highest in HB. rewrite Hs in HB.
  assert (E : wrap (width T) (a - b) = 2 ^ width T + a - b).
  { unfold wrap. replace (a - b) with (2 ^ width T + a - b + -1 * 2 ^ width T) by ring.
    rewrite Z.mod_add by lia. apply Z.mod_small. lia. }
  cbn [nat_step]. unfold nat_sub, promote. destruct (Z.ltb_spec (width T) 32); [lia|].
  unfold calc. rewrite Hs. cbn [bind]. rewrite E, validate_ok by lia. cbn [bind].
  rewrite conv_id; [split; [reflexivity|lia]|lia|].
  unfold fits, lowest, highest. rewrite Hs. lia.
Qed.

Lemma nat_div_zero T a b : std_width (width T) -> fits T a -> fits T b -> 1 <= a < b ->
  nat_step T a (NDiv b) = Ok 0 /\ nat_step T b (NMod b) = Ok 0.
Proof.
  intros W Fa Fb AB. pose proof (std_pos _ W).
  assert (F0 : fits T 0).
  { unfold fits, lowest, highest in *. destruct (signed T); lia. }
  cbn [nat_step]. unfold nat_div, nat_mod. destruct (Z.eqb_spec b 0); [lia|].
  rewrite Z.quot_small by lia. rewrite Z.rem_same by lia. rewrite !assign_fits by auto. auto.
Qed.

Lemma nat_narrow T : std_width (width T) -> nat_make T (2 ^ width T) = Ok 0.
Proof.
  intros W. unfold nat_make. rewrite validate_ok by (pose proof (pow_pos (width T)); pose proof (std_pos _ W); lia).
  cbn [bind]. f_equal. rewrite <- conv_wrap_arg by (auto using std_pos).
  unfold wrap. rewrite Z.mod_same by (pose proof (pow_pos (width T)); pose proof (std_pos _ W); lia).
  apply conv_id; [auto using std_pos|]. unfold fits, lowest, highest.
  pose proof (std_pos _ W). pose proof (pow_pos (width T)). pose proof (pow_pos (width T - 1)).
  destruct (signed T); lia.
Qed.

Lemma nat_sub_bad T a b : T = u32 \/ T = u64 -> 1 <= a < b -> b <= highest T ->
  nat_step T a (NSub b) = Ok (2 ^ width T + a - b).
Proof. intros [-> | ->] AB HB; apply nat_sub_wraps; auto; cbn; lia. Qed.

Lemma pow_right T b e : std_width (width T) -> fits T b ->
  (b = 0 /\ e <> 0%nat) \/ b = 1 \/ (b <> 0 /\ e = 0%nat) -> pow T b e = Ok (b ^ Z.of_nat e).
Proof.
  intros W F [[-> NE] | [-> | [NB ->]]].
  - unfold pow. cbn. rewrite Z.pow_0_l by lia. reflexivity.
  - rewrite pow_one by auto. rewrite Z.pow_1_l by lia. reflexivity.
  - unfold pow. destruct (Z.eqb_spec b 0); [lia|]. reflexivity.
Qed.

Lemma one_type_list T v vs : 0 < width T -> (forall x, In x (v :: vs) -> fits T x) ->
  (forall y, In y ((T, v) :: map (pair T) vs) -> fst y = T) /\
  (forall y, In y ((T, v) :: map (pair T) vs) -> wt y).
Proof.
  intros W F. assert (H : forall y, In y ((T, v) :: map (pair T) vs) -> fst y = T /\ In (snd y) (v :: vs)).
  { intros y [<- | Hy]; [split; [reflexivity|left; reflexivity]|].
    apply in_map_iff in Hy as (x & <- & Hx). split; [reflexivity|right; exact Hx]. }
  split; intros y Hy; destruct (H y Hy) as [E I]; auto.
  split; rewrite E; auto.
Qed.

Lemma snd_pairs (T : ity) (l : list Z) : map snd (map (pair T) l) = l.
Proof. induction l as [|x l IH]; cbn; [auto|]. f_equal. exact IH. Qed.

Lemma max_one_type T v vs : 0 < width T -> (forall x, In x (v :: vs) -> fits T x) ->
  exists m, vmax (T, v) (map (pair T) vs) = (T, m) /\ greatest m (v :: vs).
Proof.
  intros W F. destruct (one_type_list T v vs W F) as [H1 H2].
  destruct (vmax_ok _ _ H2 (same_type_comparable T _ H1 H2)) as (_ & G & _ & TY).
  specialize (TY T H1). exists (snd (vmax (T, v) (map (pair T) vs))). split.
  - rewrite <- TY at 3. apply surjective_pairing.
  - cbn [map] in G. rewrite snd_pairs in G. exact G.
Qed.

Lemma min_one_type T v vs : 0 < width T -> (forall x, In x (v :: vs) -> fits T x) ->
  exists m, vmin (T, v) (map (pair T) vs) = (T, m) /\ least m (v :: vs).
Proof.
  intros W F. destruct (one_type_list T v vs W F) as [H1 H2].
  destruct (vmin_ok _ _ H2 (same_type_comparable T _ H1 H2)) as (_ & G & _ & TY).
  specialize (TY T H1). exists (snd (vmin (T, v) (map (pair T) vs))). split.
  - rewrite <- TY at 3. apply surjective_pairing.
  - cbn [map] in G. rewrite snd_pairs in G. exact G.
Qed.

Lemma comp_ok {A} (comp : A -> A -> bool) x y : strict_weak comp ->
  (min_comp comp x y = x \/ min_comp comp x y = y) /\
  comp x (min_comp comp x y) = false /\ comp y (min_comp comp x y) = false /\
  (max_comp comp x y = x \/ max_comp comp x y = y) /\
  comp (max_comp comp x y) x = false /\ comp (max_comp comp x y) y = false.
Proof.
  intros SW. unfold min_comp, max_comp.
  assert (AS : forall a b, comp a b = true -> comp b a = false).
  { intros a b H. destruct (comp b a) eqn:E; auto.
    pose proof (swo_trans _ SW a b a H E) as C. rewrite (swo_irrefl _ SW) in C. discriminate. }
  destruct (comp x y) eqn:E1, (comp y x) eqn:E2; repeat split; auto using (swo_irrefl _ SW).
  rewrite (AS _ _ E1) in E2. discriminate.
Qed.

Lemma value_or_min_ok v m : value_or_min v m = Z.max v m.
Proof. unfold value_or_min. destruct (Z.gtb_spec m v); lia. Qed.
