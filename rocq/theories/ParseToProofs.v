(** Proofs about ParseTo.v. *)
From Verif Require Import Common Ints Math SpecBits BitsModel BitsProofs MathProofs StringView StringPop SpecString StringViewProofs
  StringPopProofs SpecParse ParseTo.
From Coq Require Import Lia ZifyBool.
Open Scope Z_scope.
Local Arguments Z.mul : simpl never.
Local Arguments Z.add : simpl never.
Local Arguments Z.sub : simpl never.
Local Arguments Z.pow : simpl never.
Local Arguments Z.of_nat : simpl never.

(** ** Characters *)
Lemma is_number_digit c : is_number c = true <-> digit c.
Proof. unfold is_number, in_range, digit. lia. Qed.

Lemma unicode_white c : is_unicode_whitespace c = true <-> uni_white (wrap 32 c).
Proof.
  unfold is_unicode_whitespace, uni_white. rewrite existsb_exists. split.
  - intros (x & I & E). apply Z.eqb_eq in E. rewrite E. exact I.
  - intros I. exists (wrap 32 c). split; [exact I | apply Z.eqb_refl].
Qed.

Lemma uni_white_char c : -128 <= c <= 127 -> (uni_white (wrap 32 c) <-> white c).
Proof.
  intros R. unfold uni_white, white, wrap. cbn [In].
  assert (E : c mod 2 ^ 32 = if c <? 0 then c + 2 ^ 32 else c).
  { destruct (Z.ltb_spec c 0).
    - symmetry. apply (Z.mod_unique_pos _ _ (-1)); [change (2 ^ 32) with 4294967296|]; lia.
    - apply Z.mod_small. change (2 ^ 32) with 4294967296. lia. }
  rewrite E. change (2 ^ 32) with 4294967296. destruct (c <? 0) eqn:L; lia.
Qed.

(** ** The number loop on lists *)
Fixpoint lloop (T : ity) (count : nat) (s : list Z) (r : Z) : res (Z * list Z) :=
  match count with
  | O => Ok (r, s)
  | S n =>
      match s with
      | [] => Ok (r, s)
      | c :: t =>
          if is_number c then
            r <- assign_op T (r * conv T 10) ;;
            r <- assign_op T (r + conv T (c - 48)) ;;
            lloop T n t r
          else Ok (r, s)
      end
  end.

Definition lint (T : ity) (neg : bool) (s : list Z) : res Z :=
  ' (r, s) <- lloop T (Z.to_nat (digits2 T)) s 0 ;;
  match s with
  | [] => if neg then assign_op T (r * conv T (-1)) else Ok r
  | _ => Throw
  end.

Definition lparse (T : ity) (s : list Z) : res Z :=
  match s with
  | [] => Throw
  | c :: t => if c =? 45 then if signed T then lint T true t else Throw else lint T false s
  end.

Lemma front_cons dbg v c t : valid v -> chars v = c :: t -> sv_front dbg v = Ok c.
Proof.
  intros V E. unfold sv_front, chk. rewrite (vempty_spec v V), E. cbn. rewrite andb_false_r. cbn.
  apply (vget_ok v 0 c V). rewrite E. reflexivity.
Qed.

Lemma loop_list dbg T count : forall v r, valid v ->
  match lloop T count (chars v) r with
  | Ok (x, s) => exists v', parse_int_loop dbg T count v r = Ok (x, v') /\ valid v' /\ chars v' = s
  | UB => parse_int_loop dbg T count v r = UB
  | Throw => parse_int_loop dbg T count v r = Throw
  | OutOfFuel => parse_int_loop dbg T count v r = OutOfFuel
  end.
Proof.
  induction count as [|n IH]; intros v r V; cbn [lloop parse_int_loop].
  - exists v. auto.
  - rewrite (vempty_spec v V). destruct (chars v) as [|c t] eqn:E.
    + exists v. auto.
    + rewrite (front_cons dbg v c t V E). cbn [bind]. destruct (is_number c).
      2:{ exists v. auto. }
      destruct (assign_op T (r * conv T 10)) as [r1| | |]; cbn [bind]; auto.
      destruct (assign_op T (r1 + conv T (c - 48))) as [r2| | |]; cbn [bind]; auto.
      destruct (remove_prefix_ok v 1 V ltac:(lia)) as (v' & P & V' & C & _).
      rewrite P. cbn [bind]. specialize (IH v' r2 V'). rewrite C, E in IH. exact IH.
Qed.

Lemma int_list dbg T v neg : valid v ->
  ' (result, str) <- parse_int_loop dbg T (Z.to_nat (digits2 T)) v 0 ;;
  (if vempty str then if (neg : bool) then assign_op T (result * conv T (-1)) else Ok result else Throw) =
  lint T neg (chars v).
Proof.
  intros V. unfold lint. pose proof (loop_list dbg T (Z.to_nat (digits2 T)) v 0 V) as H.
  destruct (lloop T (Z.to_nat (digits2 T)) (chars v) 0) as [[x s]| | |]; try (rewrite H; reflexivity).
  destruct H as (v' & P & V' & C). rewrite P. cbn [bind]. rewrite (vempty_spec v' V'), C. destruct s; reflexivity.
Qed.

Lemma parse_int_list dbg T v c t : valid v -> chars v = c :: t ->
  parse_int dbg T v = lparse T (chars v).
Proof.
  intros V E. unfold parse_int. cbv zeta. rewrite (front_cons dbg v c t V E). cbn [bind].
  unfold lparse. rewrite E. destruct (c =? 45) eqn:M; cbn [bind].
  - destruct (signed T); cbn [bind]; [|reflexivity].
    destruct (remove_prefix_ok v 1 V ltac:(lia)) as (v' & P & V' & C & _).
    rewrite P. cbn [bind]. rewrite (int_list dbg T v' true V'), C, E. reflexivity.
  - rewrite (int_list dbg T v false V), E. reflexivity.
Qed.

Lemma parse_list dbg T v : valid v -> parse_to_value dbg T v = lparse T (chars v).
Proof.
  intros V. unfold parse_to_value. rewrite (vempty_spec v V). destruct (chars v) as [|c t] eqn:E; [reflexivity|].
  destruct (signed T) eqn:SG.
  - rewrite (parse_int_list dbg T v c t V E), E. reflexivity.
  - unfold parse_unsigned_int. rewrite (front_cons dbg v c t V E). cbn [bind].
    destruct (c =? 45) eqn:M.
    + unfold lparse. rewrite M, SG. reflexivity.
    + rewrite (parse_int_list dbg T v c t V E), E. reflexivity.
Qed.

(** ** Values of digit strings *)
Definition dec_from (r : Z) (ds : list Z) : Z := fold_left (fun a c => 10 * a + (c - 48)) ds r.

Lemma dec_mono ds : forall r, Forall digit ds -> 0 <= r -> r <= dec_from r ds.
Proof.
  induction ds as [|c ds IH]; intros r F R; cbn [dec_from fold_left]; [lia|].
  inversion F; subst. unfold digit in *. specialize (IH (10 * r + (c - 48)) H2 ltac:(lia)).
  unfold dec_from in IH. lia.
Qed.

Lemma decimal_nonneg ds : Forall digit ds -> 0 <= decimal ds.
Proof. intros F. apply (dec_mono ds 0 F). lia. Qed.

Lemma dec_app a b r : dec_from r (a ++ b) = dec_from (dec_from r a) b.
Proof. apply fold_left_app. Qed.

Ltac widths H := destruct H as [W | [W | [W | W]]].

Lemma highest_lowest T : std_width (width T) -> lowest T <= 0 /\ 100 <= highest T.
Proof.
  intros H. unfold lowest, highest. destruct (signed T); widths H; rewrite W; split; vm_compute; discriminate.
Qed.

Lemma conv_small T d : std_width (width T) -> 0 <= d <= 10 -> conv T d = d.
Proof.
  intros H R. apply conv_id; [apply std_pos; auto|].
  pose proof (highest_lowest T H). unfold fits. lia.
Qed.

(** Types whose arithmetic wraps when the result does not fit. *)

Lemma assign_wraps T z : std_width (width T) -> wraps T -> - 2 ^ 31 <= z < 2 ^ 31 \/ 32 <= width T ->
  assign_op T z = Ok (conv T z).
Proof.
  intros H WR R. destruct (Z_lt_le_dec (width T) 32) as [L | L].
  - unfold assign_op, promote. destruct (Z.ltb_spec (width T) 32); [|lia].
    rewrite calc_fits; [reflexivity | cbn; lia |].
    unfold fits, lowest, highest. cbn [signed width i32]. change (32 - 1) with 31. lia.
  - destruct WR as [U | U]; [|lia]. rewrite assign_unsigned by auto. unfold conv. rewrite U. reflexivity.
Qed.

Lemma conv_add T a b : 0 < width T -> conv T (conv T a + b) = conv T (a + b).
Proof.
  intros H. rewrite <- (conv_wrap_arg T (conv T a + b)), <- (conv_wrap_arg T (a + b)) by auto.
  f_equal. unfold wrap. rewrite <- Zplus_mod_idemp_l. change (conv T a mod 2 ^ width T) with (wrap (width T) (conv T a)).
  rewrite conv_wrap by auto. unfold wrap. rewrite Zplus_mod_idemp_l. reflexivity.
Qed.

Lemma fits_narrow T z : std_width (width T) -> width T < 32 -> fits T z -> -32768 <= z <= 65535.
Proof.
  intros H L. unfold fits, lowest, highest. destruct (signed T); widths H; rewrite W; lia.
Qed.

Lemma narrow_range T r k d : std_width (width T) -> fits T r -> 0 <= k <= 10 -> -1 <= d <= 10 ->
  - 2 ^ 31 <= r * k + d < 2 ^ 31 \/ 32 <= width T.
Proof.
  intros H F K D. destruct (Z_lt_le_dec (width T) 32) as [L | L]; [|auto]. left.
  pose proof (fits_narrow T r H L F). change (2 ^ 31) with 2147483648. nia.
Qed.

Lemma dec_conv T ds : std_width (width T) -> forall r, conv T (dec_from (conv T r) ds) = conv T (dec_from r ds).
Proof.
  intros H. pose proof (std_pos _ H) as P. induction ds as [|c ds IH]; intros r; cbn [dec_from fold_left].
  - apply conv_id; [auto | apply conv_fits; auto].
  - change (conv T (dec_from (10 * conv T r + (c - 48)) ds) = conv T (dec_from (10 * r + (c - 48)) ds)).
    rewrite <- (IH (10 * conv T r + (c - 48))), <- (IH (10 * r + (c - 48))). do 2 f_equal.
    rewrite (Z.mul_comm 10 (conv T r)), <- conv_add by auto. rewrite conv_mul by auto. rewrite conv_add by auto.
    f_equal. lia.
Qed.

(** Wrapping types: the digits, modulo the width. *)
Lemma lloop_wraps T ds : std_width (width T) -> wraps T -> forall count r, Forall digit ds -> fits T r ->
  (length ds <= count)%nat -> lloop T count ds r = Ok (conv T (dec_from r ds), []).
Proof.
  intros H WR. pose proof (std_pos _ H) as P.
  induction ds as [|c ds IH]; intros count r F R L.
  - cbn [dec_from fold_left]. rewrite conv_id by auto. destruct count; reflexivity.
  - destruct count as [|count]; [cbn in L; lia|]. inversion F as [|? ? D F']; subst. cbn [lloop].
    rewrite (proj2 (is_number_digit c) D). unfold digit in D.
    rewrite (conv_small T 10) by (auto; lia). rewrite (conv_small T (c - 48)) by (auto; lia).
    rewrite (assign_wraps T (r * 10)) by (auto; pose proof (narrow_range T r 10 0 H R); lia). cbn [bind].
    rewrite (assign_wraps T (conv T (r * 10) + (c - 48))).
    2, 3: auto.
    2:{ pose proof (narrow_range T (conv T (r * 10)) 1 (c - 48) H (conv_fits T _ P)). lia. }
    cbn [bind]. rewrite conv_add by auto. rewrite IH; auto; [|apply conv_fits; auto | cbn in L; lia].
    f_equal. f_equal. rewrite dec_conv by auto. unfold dec_from. cbn [fold_left]. do 2 f_equal. lia.
Qed.

(** The value fits at the end: exact. *)
Lemma lloop_exact T ds : std_width (width T) -> forall count r, Forall digit ds -> 0 <= r ->
  dec_from r ds <= highest T -> (length ds <= count)%nat -> lloop T count ds r = Ok (dec_from r ds, []).
Proof.
  intros H. pose proof (std_pos _ H) as P. pose proof (highest_lowest T H) as [LO HI].
  induction ds as [|c ds IH]; intros count r F R B L.
  - destruct count; reflexivity.
  - destruct count as [|count]; [cbn in L; lia|]. inversion F as [|? ? D F']; subst. cbn [lloop].
    rewrite (proj2 (is_number_digit c) D). unfold digit in D.
    rewrite (conv_small T 10) by (auto; lia). rewrite (conv_small T (c - 48)) by (auto; lia).
    change (dec_from (10 * r + (c - 48)) ds <= highest T) in B.
    change (dec_from r (c :: ds)) with (dec_from (10 * r + (c - 48)) ds).
    pose proof (dec_mono ds (10 * r + (c - 48)) F' ltac:(lia)).
    rewrite (assign_fits T (r * 10)) by (auto; unfold fits; lia). cbn [bind].
    rewrite (assign_fits T (r * 10 + (c - 48))) by (auto; unfold fits; lia). cbn [bind].
    rewrite (Z.mul_comm r 10). apply IH; auto; [lia | cbn in L; lia].
Qed.

(** Signed types not narrower than int: overflow is undefined. *)
Lemma lloop_overflow T ds : std_width (width T) -> ~ wraps T -> forall rest count r, Forall digit ds -> 0 <= r ->
  r <= highest T -> highest T < dec_from r ds -> (length ds <= count)%nat -> lloop T count (ds ++ rest) r = UB.
Proof.
  intros H NW rest. unfold wraps in NW. assert (SG : signed T = true) by (destruct (signed T); auto; tauto).
  assert (W : 32 <= width T) by lia.
  pose proof (std_pos _ H) as P. pose proof (highest_lowest T H) as [LO HI].
  induction ds as [|c ds IH]; intros count r F R HR B L.
  - cbn [dec_from fold_left] in B. lia.
  - destruct count as [|count]; [cbn in L; lia|]. inversion F as [|? ? D F']; subst. cbn [lloop app].
    rewrite (proj2 (is_number_digit c) D). unfold digit in D.
    rewrite (conv_small T 10) by (auto; lia). rewrite (conv_small T (c - 48)) by (auto; lia).
    change (highest T < dec_from (10 * r + (c - 48)) ds) in B.
    destruct (Z_le_gt_dec (r * 10) (highest T)).
    2:{ rewrite (assign_signed T (r * 10)) by (auto; unfold fits; lia). reflexivity. }
    rewrite (assign_fits T (r * 10)) by (auto; unfold fits; lia). cbn [bind].
    destruct (Z_le_gt_dec (r * 10 + (c - 48)) (highest T)).
    2:{ rewrite (assign_signed T (r * 10 + (c - 48))) by (auto; unfold fits; lia). reflexivity. }
    rewrite (assign_fits T (r * 10 + (c - 48))) by (auto; unfold fits; lia). cbn [bind].
    apply IH; auto; try lia; [|cbn in L; lia]. replace (r * 10) with (10 * r) by lia. exact B.
Qed.

(** What the loop consumed. *)
Lemma lloop_consumed T : forall count s r x s', lloop T count s r = Ok (x, s') ->
  exists ds, s = ds ++ s' /\ Forall digit ds /\ (length ds <= count)%nat.
Proof.
  induction count as [|n IH]; intros s r x s' E; cbn [lloop] in E.
  - injection E as _ <-. exists []. cbn. auto.
  - destruct s as [|c t].
    + injection E as _ <-. exists []. cbn. auto with arith.
    + destruct (is_number c) eqn:D.
      2:{ injection E as _ <-. exists []. cbn. auto with arith. }
      destruct (assign_op T (r * conv T 10)) as [r1| | |]; cbn [bind] in E; try discriminate.
      destruct (assign_op T (r1 + conv T (c - 48))) as [r2| | |]; cbn [bind] in E; try discriminate.
      destruct (IH _ _ _ _ E) as (ds & -> & F & L). exists (c :: ds).
      split; [reflexivity | split; [constructor; auto; apply is_number_digit; auto | cbn; lia]].
Qed.

(** Longer than the limit: the rest remains. *)
Lemma lloop_prefix T count rest : forall ds r, Forall digit ds -> length ds = count ->
  match lloop T count ds r with
  | Ok (x, _) => lloop T count (ds ++ rest) r = Ok (x, rest)
  | UB => lloop T count (ds ++ rest) r = UB
  | _ => True
  end.
Proof.
  induction count as [|n IH]; intros ds r F L; destruct ds as [|c ds]; try discriminate L; cbn [lloop app].
  - reflexivity.
  - inversion F as [|? ? D F']; subst. rewrite (proj2 (is_number_digit c) D).
    destruct (assign_op T (r * conv T 10)) as [r1| | |]; cbn [bind]; auto.
    destruct (assign_op T (r1 + conv T (c - 48))) as [r2| | |]; cbn [bind]; auto.
    all: apply IH; auto.
Qed.

(** ** parse_to_value on whole texts *)
Lemma digits2_pos T : std_width (width T) -> 7 <= digits2 T.
Proof. intros H. unfold digits2. destruct (signed T); widths H; lia. Qed.

Lemma digit_not_minus c : digit c -> (c =? 45) = false.
Proof. unfold digit. lia. Qed.

Lemma lparse_digits T c ds : digit c -> lparse T (c :: ds) = lint T false (c :: ds).
Proof. intros D. unfold lparse. rewrite (digit_not_minus c D). reflexivity. Qed.

Lemma minus_one T : std_width (width T) -> signed T = true -> conv T (-1) = -1.
Proof.
  intros H SG. apply conv_id; [apply std_pos; auto|]. unfold fits, lowest, highest. rewrite SG.
  widths H; rewrite W; split; vm_compute; discriminate.
Qed.

Lemma parse_representable dbg T v x : std_width (width T) -> valid v -> number_text (chars v) x -> fits T x ->
  (signed T = false -> forall t, chars v <> 45 :: t) ->
  (Z.of_nat (length (chars v)) <= digits2 T \/ exists t, chars v = 45 :: t /\ Z.of_nat (length t) <= digits2 T) ->
  (width T < 32 \/ signed T = false \/ x <> lowest T) ->
  parse_to_value dbg T v = Ok x.
Proof.
  intros H V (ds & N & F & C) FX U L MIN. rewrite parse_list by auto.
  pose proof (std_pos _ H) as P. pose proof (digits2_pos T H) as D7.
  destruct ds as [|d0 ds]; [congruence|]. inversion F as [|? ? D0 F']; subst.
  destruct C as [(E & ->) | (E & ->)].
  - rewrite E. rewrite lparse_digits by auto. unfold lint.
    rewrite (lloop_exact T (d0 :: ds) H); auto; [lia | unfold fits in FX; apply FX |].
    rewrite E in L. destruct L as [L | (t & EQ & L)]; [lia|]. injection EQ as -> _. unfold digit in D0. lia.
  - rewrite E in *. unfold lparse. cbn [Z.eqb Pos.eqb].
    assert (SG : signed T = true). { destruct (signed T); auto. exfalso. apply (U eq_refl (d0 :: ds)). reflexivity. }
    rewrite SG. unfold lint.
    assert (LD : (length (d0 :: ds) <= Z.to_nat (digits2 T))%nat).
    { destruct L as [L | (t & EQ & L)]; [cbn [length] in *; lia|]. injection EQ as <-. lia. }
    pose proof (decimal_nonneg _ F) as NN.
    destruct (Z_le_gt_dec (decimal (d0 :: ds)) (highest T)) as [B | B].
    + rewrite (lloop_exact T (d0 :: ds) H); auto; [|lia]. cbn [bind]. fold (decimal (d0 :: ds)).
      rewrite minus_one by auto. change (dec_from 0 (d0 :: ds)) with (decimal (d0 :: ds)).
      replace (decimal (d0 :: ds) * -1) with (- decimal (d0 :: ds)) by lia. apply assign_fits; auto.
    + assert (EQ : - decimal (d0 :: ds) = lowest T).
      { unfold fits, lowest, highest in *. rewrite SG in *. lia. }
      assert (W : width T < 32) by (destruct MIN as [M | [M | M]]; congruence || lia).
      rewrite (lloop_wraps T (d0 :: ds) H (or_intror W)); auto.
      2:{ pose proof (highest_lowest T H). unfold fits. lia. }
      cbn [bind]. rewrite minus_one by auto. change (dec_from 0 (d0 :: ds)) with (decimal (d0 :: ds)).
      rewrite (assign_wraps T) ; auto.
      2:{ right. auto. }
      2:{ pose proof (fits_narrow T (conv T (decimal (d0 :: ds))) H W (conv_fits T _ P)).
          left. change (2 ^ 31) with 2147483648. lia. }
      rewrite conv_mul by auto. f_equal. replace (decimal (d0 :: ds) * -1) with (- decimal (d0 :: ds)) by lia.
      apply conv_id; auto.
Qed.

Lemma parse_wraps dbg T v : std_width (width T) -> wraps T -> valid v -> Forall digit (chars v) -> chars v <> [] ->
  Z.of_nat (length (chars v)) <= digits2 T -> parse_to_value dbg T v = Ok (conv T (decimal (chars v))).
Proof.
  intros H WR V F N L. rewrite parse_list by auto. destruct (chars v) as [|c t]; [congruence|].
  inversion F as [|? ? D F']; subst. rewrite lparse_digits by auto. unfold lint.
  rewrite (lloop_wraps T (c :: t) H WR _ 0 F); [reflexivity | | lia].
  pose proof (highest_lowest T H). unfold fits. lia.
Qed.

Lemma parse_undefined dbg T v ds : std_width (width T) -> ~ wraps T -> valid v -> Forall digit ds ->
  chars v = ds \/ chars v = 45 :: ds ->
  Z.of_nat (length ds) <= digits2 T -> highest T < decimal ds ->
  parse_to_value dbg T v = UB.
Proof.
  intros H NW V F C L B. rewrite parse_list by auto.
  assert (SG : signed T = true) by (unfold wraps in NW; destruct (signed T); auto; tauto).
  pose proof (highest_lowest T H) as [LO HI].
  assert (G : forall neg, lint T neg ds = UB).
  { intros neg. unfold lint. rewrite <- (app_nil_r ds). rewrite (lloop_overflow T ds H NW); auto; lia. }
  destruct C as [-> | ->].
  - destruct ds as [|c t]; [unfold decimal in B; cbn in B; lia|]. inversion F; subst. rewrite lparse_digits by auto. apply G.
  - unfold lparse. cbn [Z.eqb Pos.eqb]. rewrite SG. apply G.
Qed.

Lemma parse_too_long dbg T v : std_width (width T) -> valid v -> Forall digit (chars v) ->
  digits2 T < Z.of_nat (length (chars v)) ->
  (wraps T \/ decimal (firstn (Z.to_nat (digits2 T)) (chars v)) <= highest T) ->
  parse_to_value dbg T v = Throw.
Proof.
  intros H V F L C. rewrite parse_list by auto.
  assert (G : lint T false (chars v) = Throw).
  { unfold lint. set (n := Z.to_nat (digits2 T)) in *.
    pose proof (digits2_pos T H) as D7.
    assert (LN : length (firstn n (chars v)) = n) by (rewrite firstn_length; lia).
    assert (FN : Forall digit (firstn n (chars v))).
    { apply Forall_forall. intros x I. rewrite Forall_forall in F. apply F.
      rewrite <- (firstn_skipn n (chars v)). apply in_or_app. auto. }
    pose proof (lloop_prefix T n (skipn n (chars v)) (firstn n (chars v)) 0 FN LN) as E.
    rewrite firstn_skipn in E.
    assert (R : exists x, lloop T n (firstn n (chars v)) 0 = Ok (x, [])).
    { destruct C as [C | C].
      - eexists. apply lloop_wraps; auto; [|lia]. pose proof (highest_lowest T H). unfold fits. lia.
      - eexists. apply lloop_exact; auto; lia. }
    destruct R as (x & R). rewrite R in E. rewrite E. cbn [bind].
    destruct (skipn n (chars v)) eqn:S; [|reflexivity].
    pose proof (skipn_length n (chars v)) as SL. rewrite S in SL. cbn in SL. lia. }
  destruct (chars v) as [|c t]; [reflexivity|]. inversion F; subst. rewrite lparse_digits by auto. exact G.
Qed.

Lemma lint_ok T neg s x : lint T neg s = Ok x -> Forall digit s.
Proof.
  unfold lint. destruct (lloop T _ s 0) as [[r s']| | |] eqn:E; cbn [bind]; try discriminate.
  destruct (lloop_consumed _ _ _ _ _ _ E) as (ds & -> & F & _). destruct s'; [|discriminate].
  intros _. rewrite app_nil_r. auto.
Qed.

Lemma parse_accepts dbg T v x : valid v -> parse_to_value dbg T v = Ok x ->
  exists ds, Forall digit ds /\ ((chars v = ds /\ ds <> []) \/ (signed T = true /\ chars v = 45 :: ds)).
Proof.
  intros V. rewrite parse_list by auto. unfold lparse. destruct (chars v) as [|c t]; [discriminate|].
  destruct (c =? 45) eqn:M.
  - apply Z.eqb_eq in M. subst c. destruct (signed T) eqn:SG; [|discriminate].
    intros E. exists t. split; [exact (lint_ok _ _ _ _ E) | auto].
  - intros E. exists (c :: t). split; [exact (lint_ok _ _ _ _ E) | left; split; [auto | discriminate]].
Qed.

Lemma parse_minus dbg T v : std_width (width T) -> valid v -> chars v = [45] -> signed T = true -> parse_to_value dbg T v = Ok 0.
Proof.
  intros H V E SG. rewrite parse_list, E by auto. unfold lparse. cbn [Z.eqb Pos.eqb]. rewrite SG. unfold lint.
  assert (G : lloop T (Z.to_nat (digits2 T)) [] 0 = Ok (0, [])) by (destruct (Z.to_nat (digits2 T)); reflexivity).
  rewrite G. cbn [bind]. change (0 * conv T (-1)) with 0.
  apply assign_fits; [apply std_pos; auto|]. pose proof (highest_lowest T H). unfold fits. lia.
Qed.

Lemma parse_empty dbg T v : valid v -> chars v = [] -> parse_to_value dbg T v = Throw.
Proof. intros V E. rewrite parse_list, E by auto. reflexivity. Qed.

Lemma parse_unsigned_minus dbg T v t : valid v -> chars v = 45 :: t -> signed T = false -> parse_to_value dbg T v = Throw.
Proof. intros V E SG. rewrite parse_list, E by auto. unfold lparse. cbn [Z.eqb Pos.eqb]. rewrite SG. reflexivity. Qed.
