From Coq Require Import Lia ZArith Bool.
From Verif Require Import Common Wrappers SpecWrappers CommonProofs.
Open Scope Z_scope.

Section OptionalProofs.
  Context {V : Type} (cmp : V -> V -> comparison) (ops : cmp_ops V).
  Ltac pick H x y := let P := fresh in pose proof (H x y) as P; destruct P as (?&?&?&?&?&?).
  Lemma opt_ok : compares cmp ops -> forall x y,
    opt_eq ops x y = Ok (is_eq (opt_cmp cmp x y)) /\ opt_ne ops x y = Ok (negb (is_eq (opt_cmp cmp x y))) /\
    opt_lt ops x y = Ok (is_lt (opt_cmp cmp x y)) /\ opt_le ops x y = Ok (negb (is_gt (opt_cmp cmp x y))) /\
    opt_gt ops x y = Ok (is_gt (opt_cmp cmp x y)) /\ opt_ge ops x y = Ok (negb (is_lt (opt_cmp cmp x y))).
  Proof.
    intros (H & _) [x|] [y|]; cbn; try (repeat split; reflexivity). pick H x y. repeat split; congruence.
  Qed.
  Lemma poly_ok : compares cmp ops -> forall x y,
    poly_eq ops x y = Ok (is_eq (opt_cmp cmp x y)) /\ poly_ne ops x y = Ok (negb (is_eq (opt_cmp cmp x y))) /\
    poly_le ops x y = Ok (negb (is_gt (opt_cmp cmp x y))) /\ poly_gt ops x y = Ok (is_gt (opt_cmp cmp x y)) /\
    (x <> None \/ y <> None -> poly_lt ops x y = Ok (is_lt (opt_cmp cmp x y)) /\
       poly_ge ops x y = Ok (negb (is_lt (opt_cmp cmp x y)))).
  Proof.
    intros (H & _) [x|] [y|]; cbn; try (repeat split; reflexivity).
    - pick H x y. repeat split; congruence.
    - repeat split; try reflexivity; destruct H0; congruence.
  Qed.
  Lemma poly_bad : poly_lt ops None None = Ok true /\ poly_ge ops None None = Ok false.
  Proof. split; reflexivity. Qed.
  Lemma null_ok : forall x y : option V, y = None ->
    null_eq x = is_eq (opt_cmp cmp x y) /\ null_ne x = negb (is_eq (opt_cmp cmp x y)) /\
    null_lt x = is_lt (opt_cmp cmp x y) /\ null_le x = negb (is_gt (opt_cmp cmp x y)) /\
    null_gt x = is_gt (opt_cmp cmp x y) /\ null_ge x = negb (is_lt (opt_cmp cmp x y)) /\
    null_eq_r x = is_eq (opt_cmp cmp y x) /\ null_ne_r x = negb (is_eq (opt_cmp cmp y x)) /\
    null_lt_r x = is_lt (opt_cmp cmp y x) /\ null_le_r x = negb (is_gt (opt_cmp cmp y x)) /\
    null_gt_r x = is_gt (opt_cmp cmp y x).
  Proof. intros [x|] y ->; repeat split. Qed.
  Lemma null_bad : forall x : option V, null_ge_r x = is_lt (opt_cmp cmp None x).
  Proof. intros [x|]; reflexivity. Qed.
  Lemma val_ok : compares cmp ops -> agrees (fun x v => opt_cmp cmp x (Some v)) (val_eq ops) (val_ne ops) (val_lt ops) (val_le ops) (val_gt ops) (val_ge ops).
  Proof. intros (H & _) [x|] y; cbn; [pick H x y; auto 10|repeat split]. Qed.
  Lemma val_r_ok : compares cmp ops -> forall v x,
    val_eq_r ops v x = is_eq (opt_cmp cmp (Some v) x) /\ val_ne_r ops v x = negb (is_eq (opt_cmp cmp (Some v) x)) /\
    val_lt_r ops v x = is_lt (opt_cmp cmp (Some v) x) /\ val_le_r ops v x = negb (is_gt (opt_cmp cmp (Some v) x)) /\
    val_gt_r ops v x = is_gt (opt_cmp cmp (Some v) x).
  Proof. intros (H & _) v [x|]; cbn; [pick H v x; auto 10|repeat split]. Qed.
  Lemma val_ge_bad : compares cmp ops -> forall v x, val_ge_r ops v (Some x) = is_lt (cmp v x).
  Proof. intros (H & A) v x. cbn. pick H x v. rewrite H4, A. destruct (cmp v x); reflexivity. Qed.
End OptionalProofs.

Section ExpectedProofs.
  Context {V E : Type}.
  Lemma ex_history (os : list (xop V E)) x : fold_left ex_step os x = last (map (last_state x) os) x.
  Proof.
    revert x. induction os as [|o os IH]; intros x; [reflexivity|]. cbn [fold_left map]. rewrite IH.
    assert (S1 : ex_step x o = last_state x o) by (destruct o as [v|p| |[v|e]]; reflexivity). rewrite S1.
    assert (M : map (last_state (last_state x o)) os = map (last_state x) os).
    { apply map_ext. intros p. destruct p as [| | |[|]]; reflexivity. }
    rewrite M. destruct os as [|o' os]; [reflexivity|]. cbn [map]. generalize (last_state x o').
    generalize (map (last_state x) os). clear. intros l a. revert a.
    induction l as [|b l IH]; intros a; [reflexivity|]. cbn [last] in *. exact (IH b).
  Qed.
  Lemma ex_one (x : expected V E) : x <> Valueless ->
    (ex_empty x = true /\ ex_has_value x = false /\ ex_has_exception x = false) \/
    (ex_empty x = false /\ ex_has_value x = true /\ ex_has_exception x = false) \/
    (ex_empty x = false /\ ex_has_value x = false /\ ex_has_exception x = true).
  Proof. destruct x; cbn; tauto. Qed.
  Lemma ex_get_spec (x : expected V E) :
    ex_get x = match x with
               | Empty => Terminates
               | Value v => Gives v
               | Exception (Some e) => Raises e
               | Exception None => Undefined
               | Valueless => Undefined
               end.
  Proof. destruct x as [|[e|]|v|]; reflexivity. Qed.
  Lemma ex_reachable (os : list (xop V E)) : fold_left ex_step os ex_default <> Valueless.
  Proof.
    rewrite ex_history. intros K. assert (L : forall l : list (expected V E), Forall (fun x => x <> Valueless) l -> last l (ex_default) <> Valueless).
    { induction l as [|a l IH]; intros F; [discriminate|]. inversion F; subst. destruct l; [assumption|]. apply IH. assumption. }
    apply (L (map (last_state ex_default) os)); [|exact K]. apply Forall_map, Forall_forall. intros o _. destruct o as [| | |[|]]; discriminate.
  Qed.
  Lemma ex_code (f : outcome V E) : ex_get (ex_from_code f) = match f with Returns v => Gives v | Throws e => Raises e end.
  Proof. destruct f; reflexivity. Qed.
  Lemma ex_code_as (f : outcome V E) : ex_get (ex_expected_from_code_as f) = Terminates.
  Proof. reflexivity. Qed.
  Lemma ex_throwing (x : expected V E) : ex_has_value x = false ->
    ex_set_value_throws true x = x /\ ex_set_value_throws false x = Valueless /\ ex_get (ex_set_value_throws false x) = Undefined.
  Proof. destruct x; try discriminate; intros _; repeat split. Qed.
  Lemma ex_eq_spec eqv eqe : (forall v w, eqv v w = true <-> v = w) -> (forall e f, eqe e f = true <-> e = f) ->
    forall x y : expected V E, ex_eq eqv eqe x y = true <-> x = y.
  Proof.
    intros Hv He [|[e|]|v|] [|[f|]|w|]; cbn; try (split; congruence).
    - rewrite He. split; congruence.
    - rewrite Hv. split; congruence.
  Qed.
End ExpectedProofs.

Section CheckedProofs.
  Context {V E : Type} (listed : E -> bool).
  Lemma ck_code nl (f : outcome V E) :
    match f with
    | Returns v => exists x, ck_from_code listed nl f = Ok x /\ ck_get x = Gives v
    | Throws e => if nl || listed e then exists x, ck_from_code listed nl f = Ok x /\ ck_get x = Raises e
                  else ck_from_code listed nl f = Throw
    end.
  Proof.
    destruct f as [v|e].
    - eexists. split; reflexivity.
    - unfold ck_from_code, ck_of_exception, ck_is_expected. destruct nl; cbn [orb].
      + eexists. split; reflexivity.
      + destruct (listed e); [eexists; split; reflexivity|reflexivity].
  Qed.
  Lemma ck_set (x : checked V E) v e : ck_get (ck_set_value x v) = Gives v /\ ck_get (ck_set_exception x (Some e)) = Raises e.
  Proof. split; reflexivity. Qed.
  Lemma ck_states (x : checked V E) : ck_empty x = true <-> m_value x = None /\ m_exception x = None.
  Proof. destruct x as [[v|] [e|]]; cbn; split; intuition congruence. Qed.
  Lemma cv_assign_bad (x rhs : checked unit E) e : m_exception x = Some e -> m_exception rhs = None ->
    cv_get rhs = Gives tt /\ cv_get (cv_copy_assign x rhs) = Raises e.
  Proof. intros H1 H2. unfold cv_get, cv_copy_assign. cbn. rewrite H1, H2. split; reflexivity. Qed.
  Lemma cv_assign_ok (x rhs : checked unit E) : m_exception x = None \/ m_exception rhs <> None -> cv_copy_assign x rhs = rhs.
  Proof.
    destruct x as [v e], rhs as [w f]. unfold cv_copy_assign. cbn. destruct f; [reflexivity|]. intros [->|H]; [reflexivity|congruence].
  Qed.
End CheckedProofs.

Section SafePointerProofs.
  Context {V : Type} (mem : list V).
  Notation size := (Z.of_nat (length mem)).
  Lemma sp_step_spec p o : size < 2 ^ 63 -> 0 <= at_index p <= size -> destroyed p = false -> small o ->
    sp_step mem p o = if (0 <=? target (at_index p) o) && (target (at_index p) o <=? size)
                      then Ok (SPtr (target (at_index p) o) false) else Throw.
  Proof.
    intros S (A & B) D M. destruct p as [i d]. cbn [at_index destroyed] in *. subst d.
    assert (Mo : (size - i) mod 2 ^ 64 = size - i) by (apply Z.mod_small; lia).
    destruct o as [| |n|n]; cbn [sp_step target].
    - unfold sp_inc, sp_bool, sp_to. cbn [destroyed negb ensure bind at_index].
      destruct (Z.ltb_spec i size), (Z.leb_spec 0 (i + 1)), (Z.leb_spec (i + 1) size); try lia; reflexivity.
    - unfold sp_dec, sp_bool, sp_to. cbn [destroyed negb ensure bind at_index].
      destruct (Z.ltb_spec 0 i), (Z.leb_spec 0 (i - 1)), (Z.leb_spec (i - 1) size); try lia; reflexivity.
    - unfold sp_add, sp_can_add, sp_can_sub, sp_to. cbn [at_index destroyed]. rewrite Mo. cbn [small] in M.
      destruct (Z.ltb_spec n 0) as [L|L].
      + destruct (Z.ltb_spec (- n) 0); [lia|].
        replace (i - - n) with (i + n) by lia.
        destruct (Z.leb_spec (- n) i); cbn [ensure bind].
        * destruct (Z.leb_spec 0 (i + n)), (Z.leb_spec (i + n) size); try lia; reflexivity.
        * destruct (Z.leb_spec 0 (i + n)); [lia|reflexivity].
      + destruct (Z.leb_spec n (size - i)); cbn [ensure bind].
        * destruct (Z.leb_spec 0 (i + n)), (Z.leb_spec (i + n) size); try lia; reflexivity.
        * destruct (Z.leb_spec 0 (i + n)), (Z.leb_spec (i + n) size); try lia; reflexivity.
    - unfold sp_sub, sp_can_add, sp_can_sub, sp_to. cbn [at_index destroyed]. rewrite Mo. cbn [small] in M.
      destruct (Z.ltb_spec n 0) as [L|L].
      + destruct (Z.ltb_spec (- n) 0); [lia|].
        replace (i + - n) with (i - n) by lia.
        destruct (Z.leb_spec (- n) (size - i)); cbn [ensure bind].
        * destruct (Z.leb_spec 0 (i - n)), (Z.leb_spec (i - n) size); try lia; reflexivity.
        * destruct (Z.leb_spec 0 (i - n)), (Z.leb_spec (i - n) size); try lia; reflexivity.
      + destruct (Z.leb_spec n i); cbn [ensure bind].
        * destruct (Z.leb_spec 0 (i - n)), (Z.leb_spec (i - n) size); try lia; reflexivity.
        * destruct (Z.leb_spec 0 (i - n)), (Z.leb_spec (i - n) size); try lia; reflexivity.
  Qed.
  Lemma sp_history os : size < 2 ^ 63 -> Forall small os -> forall p, 0 <= at_index p <= size -> destroyed p = false ->
    sp_run mem p os = match walk size (at_index p) os with Some j => Ok (SPtr j false) | None => Throw end.
  Proof.
    intros S F. induction F as [|o os M F IH]; intros p B D.
    - cbn. destruct p as [i d]. cbn in *. subst d. reflexivity.
    - cbn [sp_run walk]. rewrite sp_step_spec by assumption.
      destruct (Z.leb_spec 0 (target (at_index p) o)), (Z.leb_spec (target (at_index p) o) size); cbn [andb bind]; try reflexivity.
      rewrite IH; [reflexivity|cbn; lia|reflexivity].
  Qed.
  Lemma sp_arrow_spec i v : nth_error mem (Z.to_nat i) = Some v -> sp_arrow mem (SPtr i false) = Ok v.
  Proof. intros H. unfold sp_arrow, rd. cbn. rewrite H. reflexivity. Qed.
  Lemma sp_deref_first p v : destroyed p = false -> nth_error mem 0 = Some v -> sp_deref mem p = Ok v.
  Proof. intros D H. unfold sp_deref, sp_bool, rd. rewrite D. cbn [negb ensure bind]. rewrite H. reflexivity. Qed.
  Lemma sp_dead p o : destroyed p = true -> sp_deref mem p = Throw /\ sp_arrow mem p = Throw /\
    (o = SInc \/ o = SDec -> sp_step mem p o = Throw).
  Proof.
    intros D. unfold sp_deref, sp_arrow, sp_bool. rewrite D. repeat split. intros [-> | ->]; cbn; unfold sp_inc, sp_dec, sp_bool; rewrite D; reflexivity.
  Qed.
  Lemma sp_dead_add p n : size < 2 ^ 63 -> destroyed p = true -> 0 <= at_index p -> 0 <= n -> at_index p + n <= size ->
    sp_step mem p (SAdd n) = Ok (SPtr (at_index p + n) true).
  Proof.
    intros S D A N B. destruct p as [i d]. cbn in *. subst d. unfold sp_add, sp_can_add, sp_to. cbn [at_index destroyed].
    rewrite Z.mod_small by lia. destruct (Z.ltb_spec n 0); [lia|]. destruct (Z.leb_spec n (size - i)); [|lia]. cbn [ensure bind].
    destruct (Z.leb_spec 0 (i + n)), (Z.leb_spec (i + n) size); try lia; reflexivity.
  Qed.
  Lemma sp_distance_spec p q : 0 <= at_index q <= size ->
    sp_distance mem p q = if at_index q =? size then Throw else Ok (at_index p - at_index q).
  Proof.
    intros B. unfold sp_distance, sp_in_range. destruct (Z.leb_spec 0 (at_index q)); [|lia].
    destruct (Z.ltb_spec (at_index q) size), (Z.eqb_spec (at_index q) size); try lia; reflexivity.
  Qed.
End SafePointerProofs.

Lemma trv_never {V} (mem : list V) first last : first <> last -> (first < length mem)%nat ->
  forall fuel result, to_reference_vector fuel first last mem result = OutOfFuel.
Proof.
  intros N L. destruct (nth_error_ex mem first L) as (v & Ev). induction fuel as [|fuel IH]; intros result; [reflexivity|].
  cbn [to_reference_vector]. apply Nat.eqb_neq in N. rewrite N. unfold rd. rewrite Ev. cbn [bind]. apply IH.
Qed.
Lemma sp_index_first {V} (mem : list V) p n v : Z.of_nat (length mem) < 2 ^ 63 -> destroyed p = false ->
  0 <= at_index p <= Z.of_nat (length mem) -> - 2 ^ 63 < n < 2 ^ 63 ->
  0 <= at_index p + n < Z.of_nat (length mem) -> nth_error mem 0 = Some v -> sp_index mem p n = Ok v.
Proof.
  intros S D B M R H. unfold sp_index. pose proof (sp_step_spec mem p (SAdd n) S B D M) as K. cbn [sp_step target] in K. rewrite K.
  destruct (Z.leb_spec 0 (at_index p + n)), (Z.leb_spec (at_index p + n) (Z.of_nat (length mem))); try lia. cbn [andb bind].
  apply sp_deref_first; [reflexivity|exact H].
Qed.
Lemma op_slices {V} (slice : V -> V) v : op_copy slice (op_make v) = Some (slice v) /\ op_assign slice v = Some (slice v).
Proof. split; reflexivity. Qed.
Lemma op_copies {V} (slice : V -> V) x : (forall v, x = Some v -> slice v = v) -> op_copy slice x = x.
Proof. destruct x as [v|]; [|reflexivity]. intros H. cbn. rewrite (H v eq_refl). reflexivity. Qed.

Lemma c192_made_l :
  forall (V E : Type) (v : V) (e : E) (f : outcome V E),
  ex_get (ex_of_value v : expected V E) = Gives v /\ ex_get (ex_of_exception (Some e) : expected V E) = Raises e /\
  ex_get (ex_expected_from_code f) = match f with Returns v => Gives v | Throws e => Raises e end.
Proof.
  intros V E v e f. destruct f; repeat split.
Qed.

Lemma c192_bool_l :
  forall (V E : Type) (x : expected V E), x <> Valueless ->
  (ex_bool x = true <-> ex_has_value x = true \/ ex_has_exception x = true).
Proof.
  intros V E x N. destruct x; cbn; split; try congruence; auto; intros [H|H]; discriminate.
Qed.

Lemma c193_void_l :
  forall (E : Type) (x : checked unit E),
  cv_get (cv_set_value x) = Gives tt /\ ck_empty (ck_default : checked unit E) = true /\ cv_copy x = x /\
  fst (cv_move x) = x /\ ck_empty (snd (cv_move x)) = true.
Proof.
  intros E x. destruct x. repeat split.
Qed.

Lemma c194_from_start_l :
  forall (V : Type) (mem : list V) os, Z.of_nat (length mem) < 2 ^ 63 -> Forall small os ->
  sp_run mem sp_start os = match walk (Z.of_nat (length mem)) 0 os with Some j => Ok (SPtr j false) | None => Throw end.
Proof.
  intros V mem os L F. apply (sp_history mem os L F sp_start); cbn [at_index sp_start destroyed]; [lia|reflexivity].
Qed.

Lemma c194_destroy_l :
  forall (V : Type) (mem : list V) p, at_index (sp_destroy p) = at_index p /\
  sp_deref mem (sp_destroy p) = Throw /\ sp_arrow mem (sp_destroy p) = Throw.
Proof.
  intros V mem p. split; [reflexivity|]. split; apply (sp_dead mem (sp_destroy p) SInc); reflexivity.
Qed.

Lemma c190_access_l :
  forall (V : Type) (v : V), opt_value (Some v) = Ok v /\ opt_deref (Some v) = Ok v /\
  opt_value (@None V) = Throw /\ opt_deref (@None V) = UB.
Proof.
  intros V v. repeat split.
Qed.

Lemma c192_exception_ptr_l :
  forall (V E : Type) (x : expected V E) p,
  (ex_get_exception_ptr x = Ok p <-> x = Exception p) /\ (ex_has_exception x = false <-> ex_get_exception_ptr x = UB).
Proof.
  intros V E x p. destruct x; cbn; split; split; intros H; try discriminate; try reflexivity; congruence.
Qed.
