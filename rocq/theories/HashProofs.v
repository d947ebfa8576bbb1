(** Proofs about the byte-wise hashes (FNV-1a and generic_hash). *)
From Coq Require Import ZifyBool.
From Verif Require Import Common Ints SpecBits BitsProofs CommonProofs CxMathProofs SpecHash Hash.
Open Scope Z_scope.
Local Arguments Z.mul : simpl never.
Local Arguments Z.add : simpl never.
Local Arguments Z.sub : simpl never.
Local Arguments Z.pow : simpl never.
Local Arguments Z.of_nat : simpl never.
Local Arguments Z.modulo : simpl never.
Local Arguments Z.div : simpl never.

Lemma le_bytes_map n : forall v,
  le_bytes n v = map (fun i => (v / 256 ^ Z.of_nat i) mod 256) (seq 0 n).
Proof.
  induction n as [|n IH]; intros v; [reflexivity|].
  cbn [le_bytes seq map]. f_equal.
  - change (256 ^ Z.of_nat 0) with 1. rewrite Z.div_1_r. reflexivity.
  - rewrite IH, <- seq_shift, map_map. apply map_ext. intros i.
    rewrite Nat2Z.inj_succ, Z.pow_succ_r by lia.
    rewrite Z.div_div by lia. reflexivity.
Qed.

Lemma pow256 i : 0 <= i -> 256 ^ i = 2 ^ (8 * i).
Proof. intros. change 256 with (2 ^ 8). rewrite <- Z.pow_mul_r by lia. reflexivity. Qed.

Lemma byte_of_wrap w v i : 0 <= i -> 8 * i + 8 <= w ->
  wrap 8 (Z.shiftr (wrap w v) (8 * i)) = (v / 256 ^ i) mod 256.
Proof.
  intros H1 H2. rewrite pow256 by lia. rewrite <- Z.shiftr_div_pow2 by lia.
  change 256 with (2 ^ 8).
  apply (bits_eq 8); try lia.
  - apply wrap_range. lia.
  - apply Z.mod_pos_bound. lia.
  - intros j Hj. rewrite wrap_bit by lia. rewrite Z.mod_pow2_bits_low by lia.
    rewrite !Z.shiftr_spec by lia. apply wrap_bit. lia.
Qed.

Lemma object_bytes_ok T v : std_width (width T) ->
  object_bytes T v = le_bytes (Z.to_nat (width T / 8)) v.
Proof.
  intros W. unfold object_bytes. rewrite le_bytes_map. apply map_ext_in.
  intros i Hi. apply in_seq in Hi. apply byte_of_wrap; [lia|].
  assert (W8 : width T = 8 * (width T / 8))
    by (destruct W as [E | [E | [E | E]]]; rewrite E; reflexivity).
  lia.
Qed.

Lemma le_bytes_one v : le_bytes 1 v = [v mod 256].
Proof. reflexivity. Qed.

Lemma le_bytes_Forall n : forall v, Forall is_byte (le_bytes n v).
Proof.
  induction n as [|n IH]; intros v; constructor; auto.
  unfold is_byte. apply Z.mod_pos_bound. lia.
Qed.


Lemma fnv_ref_eq w l : fnv_width w ->
  fnv_ref w l = fold_left (fnv1a_step w (fnv_prime w)) l (fnv_offset w).
Proof. intros [-> | ->]; reflexivity. Qed.

Lemma fnv_mix_step w h c : fnv_mix w h c = fnv1a_step w (fnv_prime w) h c.
Proof. reflexivity. Qed.

Lemma fold_ext {A B} (f g : A -> B -> A) l : forall a,
  (forall a b, In b l -> f a b = g a b) -> fold_left f l a = fold_left g l a.
Proof.
  induction l as [|b l IH]; intros a H; cbn [fold_left]; auto.
  rewrite H by (left; reflexivity). apply IH. intros; apply H; right; assumption.
Qed.

Lemma fnv_append_ok w T h v : std_width (width T) ->
  fnv_append w T h v =
  fold_left (fnv1a_step w (fnv_prime w)) (le_bytes (Z.to_nat (width T / 8)) v) h.
Proof. intros W. unfold fnv_append. rewrite object_bytes_ok by auto. reflexivity. Qed.

Lemma fold_concat {A B C} (f : A -> C -> A) (g : B -> list C) l : forall a,
  fold_left (fun a b => fold_left f (g b) a) l a = fold_left f (concat (map g l)) a.
Proof.
  induction l as [|b l IH]; intros a; cbn [fold_left map concat]; auto.
  rewrite fold_left_app. apply IH.
Qed.

Lemma fnv_append_fold w T l h : std_width (width T) ->
  fold_left (fnv_append w T) l h =
  fold_left (fnv1a_step w (fnv_prime w)) (concat (map (le_bytes (Z.to_nat (width T / 8))) l)) h.
Proof.
  intros W. rewrite <- fold_concat. apply fold_ext. intros. apply fnv_append_ok. auto.
Qed.

Lemma fnv_range_ok w T l : fnv_width w -> std_width (width T) ->
  fnv_range w T l = fnv_ref w (concat (map (le_bytes (Z.to_nat (width T / 8))) l)).
Proof.
  intros Hw W. unfold fnv_range. rewrite fnv_append_fold, fnv_ref_eq by auto. reflexivity.
Qed.

Lemma fnv_integer_ok w T v : fnv_width w -> std_width (width T) ->
  fnv_integer w T v = fnv_ref w (le_bytes (Z.to_nat (width T / 8)) v).
Proof.
  intros Hw W. unfold fnv_integer. rewrite fnv_append_ok, fnv_ref_eq by auto. reflexivity.
Qed.

Lemma fnv_ptr_loop_ok w T mem : forall len h, (len <= length mem)%nat ->
  fnv_ptr_loop w T mem len h = Ok (fold_left (fnv_append w T) (firstn len mem) h).
Proof.
  induction mem as [|c mem IH]; intros [|len] h H; cbn [length] in H; try lia; try reflexivity.
  cbn [fnv_ptr_loop firstn fold_left]. apply IH. lia.
Qed.

Lemma fnv_ptr_ok w T mem len : fnv_width w -> std_width (width T) -> (len <= length mem)%nat ->
  fnv_ptr w T mem len =
  Ok (fnv_ref w (concat (map (le_bytes (Z.to_nat (width T / 8))) (firstn len mem)))).
Proof.
  intros Hw W L. unfold fnv_ptr. rewrite fnv_ptr_loop_ok by auto.
  rewrite fnv_append_fold, fnv_ref_eq by auto. reflexivity.
Qed.

Lemma fnv_ptr_past w T mem len : (length mem < len)%nat -> fnv_ptr w T mem len = UB.
Proof.
  intros H. unfold fnv_ptr. generalize (fnv_offset w).
  revert len H. induction mem as [|c mem IH]; intros [|len] H h; cbn [length] in H; try lia; try reflexivity.
  cbn [fnv_ptr_loop]. apply IH. lia.
Qed.

Lemma char_of_mod sgn b : is_byte b -> char_of sgn b mod 256 = b.
Proof.
  unfold is_byte, char_of, char_t. intros H.
  change 256 with (2 ^ 8).
  destruct sgn; cbn; unfold conv; cbn [signed width i8 u8].
  - change (wrap 8 (swrap 8 b) = b). rewrite swrap_wrap by lia. apply wrap_id. lia.
  - change (wrap 8 (wrap 8 b) = b). rewrite (wrap_id 8 b) by lia. apply wrap_id. lia.
Qed.

Lemma char_of_zero sgn b : is_byte b -> (char_of sgn b =? 0) = (b =? 0).
Proof.
  intros H. pose proof (char_of_mod sgn b H) as M.
  destruct (Z.eqb_spec (char_of sgn b) 0) as [E | E]; destruct (Z.eqb_spec b 0) as [F | F]; auto.
  - rewrite E in M. change (0 mod 256) with 0 in M. congruence.
  - exfalso. apply E. unfold char_of. rewrite F. destruct sgn; reflexivity.
Qed.

Lemma char_append w sgn h b : is_byte b ->
  fnv_append w (char_t sgn) h (char_of sgn b) = fnv1a_step w (fnv_prime w) h b.
Proof.
  intros H.
  assert (W : width (char_t sgn) = 8) by (destruct sgn; reflexivity).
  rewrite fnv_append_ok by (left; auto). rewrite W.
  change (Z.to_nat (8 / 8)) with 1%nat. rewrite le_bytes_one. cbn [fold_left].
  rewrite char_of_mod by auto. reflexivity.
Qed.

(** The bytes before the terminating zero. *)
Lemma fnv_cstr_loop_ok w sgn s rest : forall h,
  Forall is_byte s -> ~ In 0 s ->
  fnv_cstr_loop w sgn (s ++ 0 :: rest) h = Ok (fold_left (fnv1a_step w (fnv_prime w)) s h).
Proof.
  induction s as [|b s IH]; intros h F N; cbn [fnv_cstr_loop app].
  - rewrite char_of_zero by (unfold is_byte; lia). reflexivity.
  - apply Forall_cons_iff in F. destruct F as [Hb F].
    rewrite char_of_zero by auto.
    destruct (Z.eqb_spec b 0) as [E | E]; [exfalso; apply N; left; auto|].
    rewrite char_append by auto. cbn [fold_left]. apply IH; auto.
    intros I. apply N. right. auto.
Qed.

Lemma fnv_cstr_ok w sgn s rest : fnv_width w -> Forall is_byte s -> ~ In 0 s ->
  fnv_cstr w sgn (s ++ 0 :: rest) = Ok (fnv_ref w s).
Proof.
  intros. unfold fnv_cstr. rewrite fnv_cstr_loop_ok, fnv_ref_eq by auto. reflexivity.
Qed.


Lemma char_of_plain sgn b : is_byte b -> plain sgn b -> char_of sgn b = b.
Proof.
  unfold is_byte, plain, char_of, char_t. intros H P. destruct sgn.
  - apply conv_id; [reflexivity|]. specialize (P eq_refl). unfold fits. cbn. lia.
  - apply conv_id; [reflexivity|]. unfold fits. cbn. lia.
Qed.

Lemma fnv_functor_loop_ok w sgn s rest : fnv_width w -> forall h,
  Forall is_byte s -> Forall (plain sgn) s -> ~ In 0 s ->
  fnv_functor_loop w sgn (s ++ 0 :: rest) h = Ok (fold_left (fnv1a_step w (fnv_prime w)) s h).
Proof.
  intros Hw. induction s as [|b s IH]; intros h F P N; cbn [fnv_functor_loop app].
  - rewrite char_of_zero by (unfold is_byte; lia). reflexivity.
  - apply Forall_cons_iff in F. destruct F as [Hb F].
    apply Forall_cons_iff in P. destruct P as [Pb P].
    rewrite char_of_zero by auto.
    destruct (Z.eqb_spec b 0) as [E | E]; [exfalso; apply N; left; auto|].
    rewrite char_of_plain by auto. rewrite wrap_id.
    2:{ destruct Hw as [-> | ->]; unfold is_byte in Hb; lia. }
    cbn [fold_left]. apply IH; auto. intros I. apply N. right. auto.
Qed.

Lemma fnv_functor_ok w sgn s rest : fnv_width w -> Forall is_byte s -> Forall (plain sgn) s ->
  ~ In 0 s -> fnv_functor_cstr w sgn (s ++ 0 :: rest) = Ok (fnv_ref w s).
Proof.
  intros. unfold fnv_functor_cstr. rewrite fnv_functor_loop_ok, fnv_ref_eq by auto. reflexivity.
Qed.

Lemma fnv_object_ok w bytes : fnv_width w -> Forall is_byte bytes ->
  fnv_object w bytes = fnv_ref w bytes.
Proof.
  intros Hw F. unfold fnv_object. rewrite fnv_ref_eq by auto. apply fold_ext.
  intros a b I. rewrite Forall_forall in F. specialize (F b I). unfold is_byte in F.
  rewrite wrap_id; [reflexivity|]. destruct Hw as [-> | ->]; lia.
Qed.

(** *** The step is injective in the hash and in the byte. *)
Definition fnv_inv (w : Z) : Z := if w =? 64 then 14886173955864302971 else 899433627.

Lemma fnv_inv_ok w : fnv_width w -> (fnv_prime w * fnv_inv w) mod 2 ^ w = 1.
Proof. intros [-> | ->]; reflexivity. Qed.

Lemma mul_inv w x : fnv_width w -> 0 <= x < 2 ^ w ->
  ((x * fnv_prime w) mod 2 ^ w * fnv_inv w) mod 2 ^ w = x.
Proof.
  intros Hw H. rewrite Z.mul_mod_idemp_l by (destruct Hw as [-> | ->]; lia).
  rewrite <- Z.mul_assoc, <- Z.mul_mod_idemp_r by (destruct Hw as [-> | ->]; lia).
  rewrite fnv_inv_ok, Z.mul_1_r by auto. apply Z.mod_small. auto.
Qed.

Lemma lxor_range w a b : 0 <= w -> 0 <= a < 2 ^ w -> 0 <= b < 2 ^ w -> 0 <= Z.lxor a b < 2 ^ w.
Proof.
  intros W A B.
  assert (N : 0 <= Z.lxor a b) by (apply Z.lxor_nonneg; lia).
  split; auto. apply range_of_bits; auto.
  intros i Hi. rewrite Z.lxor_spec, !(high_bit w) by lia. reflexivity.
Qed.

Lemma step_range w h b : fnv_width w -> 0 <= fnv1a_step w (fnv_prime w) h b < 2 ^ w.
Proof. intros [-> | ->]; apply Z.mod_pos_bound; lia. Qed.

Lemma step_inj w h h' b b' : fnv_width w -> 0 <= h < 2 ^ w -> 0 <= h' < 2 ^ w ->
  0 <= b < 2 ^ w -> 0 <= b' < 2 ^ w ->
  fnv1a_step w (fnv_prime w) h b = fnv1a_step w (fnv_prime w) h' b' ->
  Z.lxor h b = Z.lxor h' b'.
Proof.
  intros Hw H H' B B' E.
  assert (W : 0 <= w) by (destruct Hw; lia).
  rewrite <- (mul_inv w (Z.lxor h b)) by (auto using lxor_range).
  rewrite <- (mul_inv w (Z.lxor h' b')) by (auto using lxor_range).
  unfold fnv1a_step in E. rewrite E. reflexivity.
Qed.

Lemma lxor_cancel_r a b c : Z.lxor a c = Z.lxor b c -> a = b.
Proof.
  intros E. apply (f_equal (fun z => Z.lxor z c)) in E.
  rewrite !Z.lxor_assoc, Z.lxor_nilpotent, !Z.lxor_0_r in E. auto.
Qed.

Lemma lxor_cancel_l a b c : Z.lxor c a = Z.lxor c b -> a = b.
Proof. rewrite !(Z.lxor_comm c). apply lxor_cancel_r. Qed.

Lemma byte_wide w b : fnv_width w -> is_byte b -> 0 <= b < 2 ^ w.
Proof. unfold is_byte. intros [-> | ->]; lia. Qed.

Lemma fold_inj w l : fnv_width w -> Forall is_byte l -> forall h h',
  0 <= h < 2 ^ w -> 0 <= h' < 2 ^ w ->
  fold_left (fnv1a_step w (fnv_prime w)) l h = fold_left (fnv1a_step w (fnv_prime w)) l h' -> h = h'.
Proof.
  intros Hw. induction l as [|b l IH]; intros F h h' H H' E; auto.
  apply Forall_cons_iff in F. destruct F as [Hb F]. cbn [fold_left] in E.
  apply IH in E; auto using step_range.
  apply step_inj in E; auto using byte_wide. apply lxor_cancel_r in E. auto.
Qed.

Lemma fold_range w l : fnv_width w -> forall h, 0 <= h < 2 ^ w ->
  0 <= fold_left (fnv1a_step w (fnv_prime w)) l h < 2 ^ w.
Proof.
  intros Hw. induction l as [|b l IH]; intros h H; auto. cbn [fold_left].
  apply IH. apply step_range. auto.
Qed.

Lemma offset_range w : fnv_width w -> 0 <= fnv_offset w < 2 ^ w.
Proof. intros [-> | ->]; split; reflexivity || (cbv; discriminate). Qed.

(** Two inputs that differ in one byte. *)
Lemma fnv_one_byte w a c b b' : fnv_width w -> Forall is_byte (a ++ b :: c) -> is_byte b' -> b <> b' ->
  fnv_ref w (a ++ b :: c) <> fnv_ref w (a ++ b' :: c).
Proof.
  intros Hw F Hb' N E. apply N.
  apply Forall_app in F. destruct F as [Fa F]. apply Forall_cons_iff in F. destruct F as [Hb Fc].
  rewrite !fnv_ref_eq, !fold_left_app in E by auto. cbn [fold_left] in E.
  set (h := fold_left _ a _) in E.
  assert (H : 0 <= h < 2 ^ w) by (apply fold_range; auto using offset_range).
  apply fold_inj in E; auto using step_range.
  apply step_inj in E; auto using byte_wide. apply lxor_cancel_l in E. auto.
Qed.

(** Sign extension always changes the hash when exactly one byte is affected. *)
Lemma fnv_functor_wrong w a b c rest : fnv_width w ->
  Forall is_byte (a ++ b :: c) -> ~ In 0 (a ++ b :: c) ->
  Forall (fun x => x < 128) a -> Forall (fun x => x < 128) c -> 128 <= b ->
  exists r, fnv_functor_cstr w true ((a ++ b :: c) ++ 0 :: rest) = Ok r /\ r <> fnv_ref w (a ++ b :: c).
Proof.
  intros Hw F N A C B.
  apply Forall_app in F. destruct F as [Fa F]. apply Forall_cons_iff in F. destruct F as [Hb Fc].
  assert (Na : ~ In 0 a) by (intros I; apply N, in_or_app; auto).
  assert (Nc : ~ In 0 c) by (intros I; apply N, in_or_app; right; right; auto).
  assert (PL : forall l, Forall (fun x => x < 128) l -> Forall (plain true) l)
    by (intros l; apply Forall_impl; intros x Hx _; exact Hx).
  assert (Loop : forall h s, Forall is_byte s -> Forall (plain true) s -> ~ In 0 s -> forall t,
            fnv_functor_loop w true (s ++ t) h =
            fnv_functor_loop w true t (fold_left (fnv1a_step w (fnv_prime w)) s h)).
  { intros h s. revert h. induction s as [|x s IH]; intros h Fs Ps Ns t; auto.
    apply Forall_cons_iff in Fs. destruct Fs as [Hx Fs].
    apply Forall_cons_iff in Ps. destruct Ps as [Px Ps].
    cbn [app fnv_functor_loop]. rewrite char_of_zero by auto.
    destruct (Z.eqb_spec x 0) as [E | E]; [exfalso; apply Ns; left; auto|].
    rewrite char_of_plain by auto. rewrite (wrap_id w x) by (apply byte_wide; auto).
    cbn [fold_left]. rewrite IH; auto. intros I. apply Ns. right. auto. }
  set (b' := wrap w (char_of true b)).
  exists (fold_left (fnv1a_step w (fnv_prime w)) c
            (fnv1a_step w (fnv_prime w) (fold_left (fnv1a_step w (fnv_prime w)) a (fnv_offset w)) b')).
  split.
  - unfold fnv_functor_cstr. rewrite <- app_assoc, Loop by auto. cbn [app fnv_functor_loop].
    rewrite char_of_zero by auto.
    destruct (Z.eqb_spec b 0) as [E | E]; [lia|].
    rewrite Loop by auto. cbn [fnv_functor_loop]. rewrite char_of_zero by (unfold is_byte; lia).
    reflexivity.
  - rewrite fnv_ref_eq, fold_left_app by auto. cbn [fold_left]. intros E.
    apply fold_inj in E; auto using step_range.
    set (h := fold_left _ a _) in E.
    assert (H : 0 <= h < 2 ^ w) by (apply fold_range; auto using offset_range).
    assert (Rb : 0 <= b' < 2 ^ w) by (apply wrap_range; destruct Hw; lia).
    apply step_inj in E; auto using byte_wide. apply lxor_cancel_l in E.
    unfold is_byte in Hb.
    assert (Cb : char_of true b = b - 256).
    { unfold char_of, conv, char_t. cbn [signed width i8]. unfold swrap.
      rewrite Z.mod_small by lia. change (2 ^ (8 - 1)) with 128. change (2 ^ 8) with 256.
      destruct (Z.ltb_spec b 128); lia. }
    unfold b' in E. rewrite Cb in E. unfold wrap in E.
    replace (b - 256) with (2 ^ w + (b - 256) + (-1) * 2 ^ w) in E by lia.
    rewrite Z.mod_add in E by (destruct Hw as [-> | ->]; lia).
    rewrite Z.mod_small in E by (destruct Hw as [-> | ->]; lia).
    destruct Hw as [-> | ->]; lia.
Qed.

(** *** generic_hash *)
Lemma gen_byte_ok w v n : fnv_width w -> (n < 8)%nat ->
  gen_byte w v n = (v / 256 ^ Z.of_nat n) mod 256.
Proof.
  intros Hw Hn. unfold gen_byte. set (s := 8 * Z.of_nat n).
  rewrite <- (byte_of_wrap 64 v (Z.of_nat n)) by lia. fold s.
  assert (E : Z.shiftr (Z.land (sz v) (sz (Z.shiftl 255 s))) s = wrap 8 (Z.shiftr (wrap 64 v) s)).
  { apply Z.bits_inj'. intros j Hj. rewrite Z.shiftr_spec, Z.land_spec by lia.
    destruct (Z.ltb_spec j 8) as [L | L].
    - rewrite wrap_bit, Z.shiftr_spec by lia.
      unfold sz at 2. rewrite Z.mod_pow2_bits_low by lia.
      rewrite Z.shiftl_spec by lia. replace (j + s - s) with j by lia.
      replace (Z.testbit 255 j) with true.
      2:{ change 255 with (2 ^ 8 - 1). rewrite ones_bit by lia. lia. }
      rewrite andb_true_r. reflexivity.
    - rewrite wrap_bit_high by lia. apply andb_false_iff. right.
      destruct (Z.ltb_spec (j + s) 64) as [L2 | L2].
      + unfold sz. rewrite Z.mod_pow2_bits_low by lia.
        rewrite Z.shiftl_spec by lia. replace (j + s - s) with j by lia.
        change 255 with (2 ^ 8 - 1). rewrite ones_bit by lia. lia.
      + unfold sz. apply Z.mod_pow2_bits_high. lia. }
  rewrite E. apply wrap_id.
  pose proof (wrap_range 8 (Z.shiftr (wrap 64 v) s)).
  destruct Hw as [-> | ->]; lia.
Qed.

Lemma gen_append_ok w T h v : fnv_width w -> std_width (width T) ->
  gen_append w T h v =
  fold_left (fnv1a_step w (fnv_prime w)) (le_bytes (Z.to_nat (width T / 8)) v) h.
Proof.
  intros Hw W. unfold gen_append. rewrite le_bytes_map.
  assert (L : (Z.to_nat (width T / 8) <= 8)%nat)
    by (destruct W as [E | [E | [E | E]]]; rewrite E; vm_compute; lia).
  assert (B : forall n, In n (seq 0 (Z.to_nat (width T / 8))) -> (n < 8)%nat)
    by (intros n I; apply in_seq in I; lia).
  revert h B. generalize (seq 0 (Z.to_nat (width T / 8))) as ns.
  induction ns as [|n ns IH]; intros h B; auto.
  cbn [map fold_left]. rewrite IH by (intros m I; apply B; right; auto).
  f_equal. rewrite gen_byte_ok; auto. apply B. left. auto.
Qed.

Lemma gen_range_ok w T l : fnv_width w -> std_width (width T) ->
  gen_range w T l = fnv_ref w (concat (map (le_bytes (Z.to_nat (width T / 8))) l)).
Proof.
  intros Hw W. rewrite <- fnv_range_ok by auto. unfold gen_range, fnv_range.
  replace (gen_init w) with (fnv_offset w) by reflexivity.
  apply fold_ext. intros. rewrite gen_append_ok, fnv_append_ok by auto. reflexivity.
Qed.

Lemma gen_integer_ok w T v : fnv_width w -> std_width (width T) ->
  gen_integer w T v = fnv_ref w (le_bytes (Z.to_nat (width T / 8)) v).
Proof.
  intros Hw W. unfold gen_integer. rewrite gen_append_ok, fnv_ref_eq by auto. reflexivity.
Qed.

Lemma gen_object_actual bytes : gen_object bytes = 14695981039346656037.
Proof.
  unfold gen_object. change (gen_init 64) with 14695981039346656037.
  induction bytes; auto.
Qed.

Lemma gen2_actual vs : gen2_range vs = 0.
Proof. unfold gen2_range. induction vs; auto. Qed.

Lemma fnv_ptr_all w T mem len : fnv_width w -> std_width (width T) ->
  fnv_ptr w T mem len =
  if (len <=? length mem)%nat
  then Ok (fnv_ref w (concat (map (le_bytes (Z.to_nat (width T / 8))) (firstn len mem))))
  else UB.
Proof.
  intros W S. destruct (Nat.leb_spec len (length mem)).
  - apply fnv_ptr_ok; auto.
  - apply fnv_ptr_past; auto.
Qed.

Lemma gen_fnv_agree w T l : fnv_width w -> std_width (width T) -> gen_range w T l = fnv_range w T l.
Proof. intros W S. rewrite gen_range_ok, fnv_range_ok by auto. reflexivity. Qed.

Lemma fnv_cstr_one_byte w sgn a c b b' rest rest' : fnv_width w -> Forall is_byte (a ++ b :: c) -> is_byte b' ->
  ~ In 0 (a ++ b :: c) -> b' <> 0 -> b <> b' ->
  fnv_cstr w sgn ((a ++ b :: c) ++ 0 :: rest) <> fnv_cstr w sgn ((a ++ b' :: c) ++ 0 :: rest').
Proof.
  intros W F B' NI NZ NE.
  assert (F' : Forall is_byte (a ++ b' :: c)).
  { apply Forall_app in F. destruct F as [FA FC]. apply Forall_app. split; auto.
    inversion_clear FC. constructor; auto. }
  assert (NI' : ~ In 0 (a ++ b' :: c)).
  { intros I. apply in_app_or in I. apply NI. apply in_or_app. destruct I as [I | [I | I]]; auto.
    - contradiction.
    - right. right. auto. }
  rewrite !fnv_cstr_ok by auto. intros E. injection E as E.
  exact (fnv_one_byte w a c b b' W F B' NE E).
Qed.

Lemma fnv_integer_inj w T v v' : fnv_width w -> width T = 8 -> fits T v -> fits T v' ->
  fnv_integer w T v = fnv_integer w T v' -> v = v'.
Proof.
  intros W WT F F' E. rewrite !fnv_integer_ok in E by (auto; left; auto). rewrite WT in E.
  change (Z.to_nat (8 / 8)) with 1%nat in E. cbn [le_bytes] in E.
  destruct (Z.eq_dec (v mod 256) (v' mod 256)) as [EM | NE].
  - unfold fits, lowest, highest in F, F'. rewrite WT in F, F'.
    change (2 ^ (8 - 1)) with 128 in *. change (2 ^ 8) with 256 in *.
    destruct (signed T); Z.div_mod_to_equations; lia.
  - exfalso. apply (fnv_one_byte w [] [] (v mod 256) (v' mod 256)); auto.
    + constructor; [|constructor]. apply Z.mod_pos_bound. lia.
    + apply Z.mod_pos_bound. lia.
Qed.
