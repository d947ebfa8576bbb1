(** Proofs about the word-wise hashes (SipHash and MetroHash). *)
From Coq Require Import ZifyBool.
From Verif Require Import Common Ints SpecBits BitsProofs CommonProofs CxMathProofs SpecHash Hash HashProofs.
Open Scope Z_scope.
Local Arguments Z.mul : simpl never.
Local Arguments Z.add : simpl never.
Local Arguments Z.sub : simpl never.
Local Arguments Z.pow : simpl never.
Local Arguments Z.of_nat : simpl never.
Local Arguments Z.modulo : simpl never.
Local Arguments Z.div : simpl never.
Local Arguments Z.lor : simpl never.
Local Arguments Z.shiftl : simpl never.

Definition rng (x : Z) : Prop := 0 <= x < 2 ^ 64.

Lemma sz_rng x : rng (sz x).
Proof. apply Z.mod_pos_bound. lia. Qed.

Lemma lxor_rng a b : rng a -> rng b -> rng (Z.lxor a b).
Proof. apply lxor_range. lia. Qed.

(** [lor] of a low part and a multiple of [2^k]. *)
Lemma lor_low_high a b k : 0 <= k -> 0 <= a < 2 ^ k -> Z.lor a (b * 2 ^ k) = a + b * 2 ^ k.
Proof.
  intros K A. rewrite Z.add_nocarry_lxor.
  - apply Z.bits_inj'. intros i Hi. rewrite Z.lor_spec, Z.lxor_spec.
    destruct (Z.ltb_spec i k).
    + rewrite (Z.mul_pow2_bits_low b k i) by lia. rewrite orb_false_r, xorb_false_r. auto.
    + rewrite (high_bit k a i) by lia. rewrite xorb_false_l. auto.
  - apply Z.bits_inj'. intros i Hi. rewrite Z.land_spec, Z.bits_0.
    destruct (Z.ltb_spec i k).
    + rewrite (Z.mul_pow2_bits_low b k i) by lia. apply andb_false_r.
    + rewrite (high_bit k a i) by lia. apply andb_false_l.
Qed.

Lemma shl_mod x r : 0 <= r <= 64 -> sz (Z.shiftl x r) = (x mod 2 ^ (64 - r)) * 2 ^ r.
Proof.
  intros R. unfold sz. rewrite Z.shiftl_mul_pow2 by lia.
  replace (2 ^ 64) with (2 ^ (64 - r) * 2 ^ r) by (rewrite <- Z.pow_add_r by lia; f_equal; lia).
  apply Z.mul_mod_distr_r; apply Z.pow_nonzero; lia.
Qed.

Lemma shr_low x r : rng x -> 0 <= r <= 64 -> 0 <= x / 2 ^ (64 - r) < 2 ^ r.
Proof.
  intros X R. unfold rng in X. split.
  - apply Z.div_pos; [lia|]. apply Z.pow_pos_nonneg; lia.
  - apply Z.div_lt_upper_bound; [apply Z.pow_pos_nonneg; lia|].
    rewrite <- Z.pow_add_r by lia. replace (64 - r + r) with 64 by lia. lia.
Qed.

Lemma rotate_ok x r : rng x -> 0 < r < 64 -> sip_rotate x r = rotl64 x r.
Proof.
  intros X R. unfold sip_rotate, rotl64.
  replace (sz (Z.shiftr x (64 - r))) with (x / 2 ^ (64 - r)).
  2:{ rewrite Z.shiftr_div_pow2 by lia. symmetry. apply Z.mod_small.
      pose proof (shr_low x r X ltac:(lia)).
      assert (2 ^ r <= 2 ^ 64) by (apply Z.pow_le_mono_r; lia). lia. }
  rewrite <- Z.shiftl_mul_pow2 by lia. change ((Z.shiftl x r) mod 2 ^ 64) with (sz (Z.shiftl x r)).
  rewrite shl_mod by lia. rewrite Z.lor_comm, lor_low_high; [lia | lia | apply shr_low; auto; lia].
Qed.

Lemma rotl_rng x r : rng x -> 0 < r < 64 -> rng (rotl64 x r).
Proof.
  intros X R. rewrite <- rotate_ok by auto. unfold sip_rotate, rng.
  assert (A := sz_rng (Z.shiftl x r)). assert (B := sz_rng (Z.shiftr x (64 - r))). unfold rng in *.
  assert (N : 0 <= Z.lor (sz (Z.shiftl x r)) (sz (Z.shiftr x (64 - r)))) by (apply Z.lor_nonneg; lia).
  split; auto. apply range_of_bits; auto; [lia|].
  intros i Hi. rewrite Z.lor_spec, !(high_bit 64) by lia. reflexivity.
Qed.

Definition toS (v : Z * Z * Z * Z) : sipstate := let '(a, b, c, d) := v in Sip a b c d.
Definition rng4 (v : Z * Z * Z * Z) : Prop := let '(a, b, c, d) := v in rng a /\ rng b /\ rng c /\ rng d.

Lemma half_round_ok a b c d s t : rng a -> rng b -> rng c -> rng d -> 0 < s < 64 -> 0 < t < 64 ->
  half_round a b c d s t =
    (rotl64 (add64 a b) 32, Z.lxor (rotl64 b s) (add64 a b), add64 c d,
     Z.lxor (rotl64 d t) (add64 c d)) /\
  rng4 (half_round a b c d s t).
Proof.
  intros A B C D S1 T1.
  assert (E : half_round a b c d s t =
    (rotl64 (add64 a b) 32, Z.lxor (rotl64 b s) (add64 a b), add64 c d,
     Z.lxor (rotl64 d t) (add64 c d))).
  { unfold half_round. change (sz (a + b)) with (add64 a b). change (sz (c + d)) with (add64 c d).
    rewrite !rotate_ok by (auto; try lia; apply (sz_rng (a + b))). reflexivity. }
  split; auto. rewrite E. cbn [rng4].
  assert (rng (add64 a b)) by apply (sz_rng (a + b)).
  assert (rng (add64 c d)) by apply (sz_rng (c + d)).
  split; [apply rotl_rng; auto; lia|].
  split; [apply lxor_rng; auto; apply rotl_rng; auto|].
  split; [auto|]. apply lxor_rng; auto; apply rotl_rng; auto.
Qed.

Lemma round_ok v0 v1 v2 v3 : rng4 (v0, v1, v2, v3) ->
  let '(a0, a1, a2, a3) := half_round v0 v1 v2 v3 13 16 in
  let '(b2, b1, b0, b3) := half_round a2 a1 a0 a3 17 21 in
  Sip b0 b1 b2 b3 = sipround (Sip v0 v1 v2 v3) /\ rng4 (b0, b1, b2, b3).
Proof.
  cbn [rng4]. intros (A & B & C & D).
  destruct (half_round_ok v0 v1 v2 v3 13 16 A B C D ltac:(lia) ltac:(lia)) as [E R].
  destruct (half_round v0 v1 v2 v3 13 16) as [[[a0 a1] a2] a3].
  cbn [rng4] in R. destruct R as (RA & RB & RC & RD).
  destruct (half_round_ok a2 a1 a0 a3 17 21 RC RB RA RD ltac:(lia) ltac:(lia)) as [F S].
  destruct (half_round a2 a1 a0 a3 17 21) as [[[b2 b1] b0] b3].
  cbn [rng4] in S. injection E as E0 E1 E2 E3. injection F as F2 F1 F0 F3.
  split; [|tauto]. unfold sipround.
  rewrite F0, F1, F2, F3, E0, E1, E2, E3. reflexivity.
Qed.

Lemma double_round_ok v : rng4 v ->
  toS (double_round v) = sipround (sipround (toS v)) /\ rng4 (double_round v).
Proof.
  destruct v as [[[v0 v1] v2] v3]. intros R. unfold double_round.
  pose proof (round_ok v0 v1 v2 v3 R) as H.
  destruct (half_round v0 v1 v2 v3 13 16) as [[[a0 a1] a2] a3].
  destruct (half_round a2 a1 a0 a3 17 21) as [[[b2 b1] b0] b3].
  destruct H as [E R2].
  pose proof (round_ok b0 b1 b2 b3 R2) as H.
  destruct (half_round b0 b1 b2 b3 13 16) as [[[c0 c1] c2] c3].
  destruct (half_round c2 c1 c0 c3 17 21) as [[[d2 d1] d0] d3].
  destruct H as [F R3]. split; auto. cbn [toS]. rewrite <- E, <- F. reflexivity.
Qed.

(** *** Reading words *)
Lemma rd_skip {A} (pre l : list A) i : rd (pre ++ l) (length pre + i) = rd l i.
Proof. unfold rd. rewrite nth_error_app2 by lia. replace (length pre + i - length pre)%nat with i by lia. reflexivity. Qed.

Lemma rd_skip0 {A} (pre l : list A) : rd (pre ++ l) (length pre) = rd l 0.
Proof. rewrite <- (rd_skip pre l 0). f_equal. lia. Qed.

Lemma ld64_skip T pre l pos i : ld64 T (pre ++ l) (length pre + pos) i = ld64 T l pos i.
Proof.
  unfold ld64. replace (length pre + pos + i)%nat with (length pre + (pos + i))%nat by lia.
  rewrite rd_skip. reflexivity.
Qed.

Lemma to_u64_skip T pre l : sip_to_u64 T (pre ++ l) (length pre) = sip_to_u64 T l 0.
Proof.
  unfold sip_to_u64. rewrite <- (Nat.add_0_r (length pre)). rewrite !ld64_skip. reflexivity.
Qed.

(** The seven low bytes keep their value, the eighth its low 8 bits. *)
Definition good7 (T : ity) (b : Z) : Prop := is_byte b /\ conv T b = b.

Lemma le8 b0 b1 b2 b3 b4 b5 b6 b7 :
  le_number [b0; b1; b2; b3; b4; b5; b6; b7] =
  b0 + b1 * 2 ^ 8 + b2 * 2 ^ 16 + b3 * 2 ^ 24 + b4 * 2 ^ 32 + b5 * 2 ^ 40 + b6 * 2 ^ 48 + b7 * 2 ^ 56.
Proof. cbn [le_number]. lia. Qed.

Lemma shl_byte b k : is_byte b -> 0 <= k <= 56 -> sz (Z.shiftl b k) = b * 2 ^ k.
Proof.
  unfold is_byte. intros B K. rewrite shl_mod by lia. rewrite Z.mod_small; auto.
  assert (2 ^ 8 <= 2 ^ (64 - k)) by (apply Z.pow_le_mono_r; lia). lia.
Qed.

Lemma or_bytes b0 b1 b2 b3 b4 b5 b6 b7 :
  is_byte b0 -> is_byte b1 -> is_byte b2 -> is_byte b3 ->
  is_byte b4 -> is_byte b5 -> is_byte b6 -> is_byte b7 ->
  Z.lor (Z.lor (Z.lor (Z.lor (Z.lor (Z.lor (Z.lor b0 (b1 * 2 ^ 8)) (b2 * 2 ^ 16)) (b3 * 2 ^ 24))
    (b4 * 2 ^ 32)) (b5 * 2 ^ 40)) (b6 * 2 ^ 48)) (b7 * 2 ^ 56) =
  le_number [b0; b1; b2; b3; b4; b5; b6; b7].
Proof.
  unfold is_byte. intros. rewrite le8.
  rewrite (lor_low_high b0 b1 8) by lia. rewrite (lor_low_high _ b2 16) by lia.
  rewrite (lor_low_high _ b3 24) by lia. rewrite (lor_low_high _ b4 32) by lia.
  rewrite (lor_low_high _ b5 40) by lia. rewrite (lor_low_high _ b6 48) by lia.
  rewrite (lor_low_high _ b7 56) by lia. reflexivity.
Qed.

Lemma good7_val T b : width T = 8 -> good7 T b -> conv u64 (conv T b) = b.
Proof.
  intros W [B C]. rewrite C. unfold is_byte in B. apply conv_id; [reflexivity|].
  unfold fits. cbn. lia.
Qed.

Lemma top_byte T b : width T = 8 -> is_byte b -> sz (Z.shiftl (conv u64 (conv T b)) 56) = b * 2 ^ 56.
Proof.
  intros W B. rewrite shl_mod by lia. f_equal. change (2 ^ (64 - 56)) with (2 ^ 8).
  change (wrap 8 (conv u64 (conv T b)) = b).
  assert (E : wrap 8 (conv u64 (conv T b)) = wrap 8 (conv T b)).
  { unfold conv at 1. cbn [signed width u64]. unfold wrap.
    symmetry. apply Znumtheory.Zmod_div_mod; [lia | lia |]. exists (2 ^ 56). reflexivity. }
  rewrite E, <- W, conv_wrap by lia. rewrite W. apply wrap_id. unfold is_byte in B. lia.
Qed.

Lemma to_u64_ok T b0 b1 b2 b3 b4 b5 b6 b7 rest : width T = 8 ->
  good7 T b0 -> good7 T b1 -> good7 T b2 -> good7 T b3 -> good7 T b4 -> good7 T b5 -> good7 T b6 ->
  is_byte b7 ->
  sip_to_u64 T (b0 :: b1 :: b2 :: b3 :: b4 :: b5 :: b6 :: b7 :: rest) 0 =
  Ok (le_number [b0; b1; b2; b3; b4; b5; b6; b7]).
Proof.
  intros W G0 G1 G2 G3 G4 G5 G6 B7.
  unfold sip_to_u64, ld64, rd. cbn [nth_error Nat.add bind].
  rewrite (top_byte T b7) by auto.
  rewrite !(good7_val T) by auto.
  destruct G0, G1, G2, G3, G4, G5, G6.
  rewrite !shl_byte by (auto; lia). rewrite or_bytes by auto. reflexivity.
Qed.

Lemma good7_u8 b : is_byte b -> good7 u8 b.
Proof.
  intros B. split; auto. apply conv_id; [reflexivity|]. unfold is_byte in B. unfold fits. cbn. lia.
Qed.

Lemma le_number_range l : Forall is_byte l -> 0 <= le_number l < 256 ^ Z.of_nat (length l).
Proof.
  induction 1 as [|b l B F IH]; cbn [le_number length].
  - change (256 ^ Z.of_nat 0) with 1. lia.
  - rewrite Nat2Z.inj_succ, Z.pow_succ_r by lia. unfold is_byte in B. lia.
Qed.

Lemma word_rng b0 b1 b2 b3 b4 b5 b6 b7 :
  is_byte b0 -> is_byte b1 -> is_byte b2 -> is_byte b3 ->
  is_byte b4 -> is_byte b5 -> is_byte b6 -> is_byte b7 ->
  rng (le_number [b0; b1; b2; b3; b4; b5; b6; b7]).
Proof.
  intros. apply (le_number_range [b0; b1; b2; b3; b4; b5; b6; b7]). repeat constructor; unfold is_byte in *; lia.
Qed.

(** *** SipHash *)

(** Padding with a length that need not be that of the list. *)
Definition pad_with (L : Z) (m : list Z) : list Z :=
  m ++ repeat 0 (7 - Nat.modulo (length m) 8) ++ [L mod 256].


Lemma good7_char sgn b : is_byte b -> (sgn = true -> b < 128) -> good7 (char_t sgn) b.
Proof. intros B P. split; auto. apply char_of_plain; auto. Qed.

Lemma char_width sgn : width (char_t sgn) = 8.
Proof. destruct sgn; reflexivity. Qed.

Lemma word_plain_tail sgn b0 b1 b2 b3 b4 b5 b6 b7 m :
  word_plain sgn (b0 :: b1 :: b2 :: b3 :: b4 :: b5 :: b6 :: b7 :: m) -> word_plain sgn m.
Proof.
  intros P E i Hi Hm. specialize (P E (8 + i)%nat). apply P.
  - cbn [length]. replace (S (S (S (S (S (S (S (S (length m))))))))) with (1 * 8 + length m)%nat by lia.
    rewrite Nat.div_add_l by lia. lia.
  - replace (8 + i)%nat with (i + 1 * 8)%nat by lia. rewrite Nat.mod_add by lia. auto.
Qed.

Lemma sip_word_ok v m : rng4 v -> rng m ->
  let '(v0, v1, v2, v3) := v in
  let '(a0, a1, a2, a3) := double_round (v0, v1, v2, Z.lxor v3 m) in
  toS (Z.lxor a0 m, a1, a2, a3) = sip_word (toS v) m /\ rng4 (Z.lxor a0 m, a1, a2, a3).
Proof.
  destruct v as [[[v0 v1] v2] v3]. cbn [rng4]. intros (A & B & C & D) M.
  assert (R : rng4 (v0, v1, v2, Z.lxor v3 m)) by (cbn [rng4]; auto using lxor_rng).
  destruct (double_round_ok _ R) as [E S].
  destruct (double_round (v0, v1, v2, Z.lxor v3 m)) as [[[a0 a1] a2] a3].
  cbn [toS] in *. unfold sip_word. cbn [sv0 sv1 sv2 sv3]. rewrite <- E. cbn [sv0 sv1 sv2 sv3].
  split; auto. cbn [rng4] in *. destruct S as (SA & SB & SC & SD). auto using lxor_rng.
Qed.

Lemma mod8 n : Nat.modulo (S (S (S (S (S (S (S (S n)))))))) 8 = Nat.modulo n 8.
Proof. replace (S (S (S (S (S (S (S (S n)))))))) with (n + 1 * 8)%nat by lia. apply Nat.mod_add. lia. Qed.

Lemma pad_cons L b0 b1 b2 b3 b4 b5 b6 b7 m :
  words (pad_with L (b0 :: b1 :: b2 :: b3 :: b4 :: b5 :: b6 :: b7 :: m)) =
  le_number [b0; b1; b2; b3; b4; b5; b6; b7] :: words (pad_with L m).
Proof. unfold pad_with. cbn [length]. rewrite mod8. reflexivity. Qed.

Lemma sip_loop_step T mem fuel v0 v1 v2 v3 pos size w a0 a1 a2 a3 :
  sip_to_u64 T mem pos = Ok w -> double_round (v0, v1, v2, Z.lxor v3 w) = (a0, a1, a2, a3) ->
  (8 <= size)%nat ->
  sip_loop T mem (S fuel) (v0, v1, v2, v3) pos size =
  sip_loop T mem fuel (Z.lxor a0 w, a1, a2, a3) (pos + 8) (size - 8).
Proof.
  intros W D H. cbn [sip_loop]. destruct (Nat.leb_spec 8 size); [|lia].
  rewrite W. cbn [bind]. rewrite D. reflexivity.
Qed.

Lemma sip_word_step w ws s s' : sip_word s w = s' -> fold_left sip_word (w :: ws) s = fold_left sip_word ws s'.
Proof. intros <-. reflexivity. Qed.

Lemma sip_loop_ok sgn L n : forall m fuel pre post v,
  (length m <= n)%nat -> (length m < fuel)%nat -> Forall is_byte m -> word_plain sgn m -> rng4 v ->
  exists v' pre' tail,
    pre ++ m = pre' ++ tail /\ (length tail < 8)%nat /\ Forall is_byte tail /\ rng4 v' /\
    sip_loop (char_t sgn) (pre ++ m ++ post) fuel v (length pre) (length m) =
      Ok (v', length pre', length tail) /\
    fold_left sip_word (words (pad_with L m)) (toS v) =
      fold_left sip_word (words (pad_with L tail)) (toS v').
Proof.
  induction n as [|n IH]; intros m fuel pre post v Hn Hf F P R.
  - destruct m; [|cbn [length] in Hn; lia].
    exists v, pre, []. split; [reflexivity|]. split; [cbn; lia|]. split; [auto|]. split; [auto|].
    split; [|reflexivity]. destruct fuel; [cbn [length] in Hf; lia|]. reflexivity.
  - destruct (Nat.leb_spec 8 (length m)) as [H8 | H8].
    2:{ exists v, pre, m. split; [reflexivity|]. split; [auto|]. split; [auto|]. split; [auto|].
        split; [|reflexivity].
        destruct fuel; [lia|]. cbn [sip_loop].
        destruct (Nat.leb_spec 8 (length m)); [lia | reflexivity]. }
    destruct m as [|b0 [|b1 [|b2 [|b3 [|b4 [|b5 [|b6 [|b7 m]]]]]]]]; cbn [length] in H8; try lia.
    assert (F' := F).
    do 8 (apply Forall_cons_iff in F; let X := fresh "B" in destruct F as [X F]).
    assert (G : forall i, (i < 7)%nat -> sgn = true ->
              nth i (b0 :: b1 :: b2 :: b3 :: b4 :: b5 :: b6 :: b7 :: m) 0 < 128).
    { intros i Hi E. apply (P E).
      - cbn [length]. replace (S (S (S (S (S (S (S (S (length m))))))))) with (1 * 8 + length m)%nat by lia.
        rewrite Nat.div_add_l by lia. lia.
      - rewrite Nat.mod_small by lia. lia. }
    assert (WD : sip_to_u64 (char_t sgn)
              (pre ++ (b0 :: b1 :: b2 :: b3 :: b4 :: b5 :: b6 :: b7 :: m) ++ post) (length pre) =
            Ok (le_number [b0; b1; b2; b3; b4; b5; b6; b7])).
    { rewrite to_u64_skip. cbn [app]. apply to_u64_ok; auto using char_width; apply good7_char; auto.
      - apply (G 0%nat); lia.
      - apply (G 1%nat); lia.
      - apply (G 2%nat); lia.
      - apply (G 3%nat); lia.
      - apply (G 4%nat); lia.
      - apply (G 5%nat); lia.
      - apply (G 6%nat); lia. }
    set (w := le_number [b0; b1; b2; b3; b4; b5; b6; b7]) in *.
    assert (RW : rng w) by (apply word_rng; auto).
    destruct fuel as [|fuel]; [cbn [length] in Hf; lia|].
    pose proof (sip_word_ok v w R RW) as SW.
    destruct v as [[[v0 v1] v2] v3].
    destruct (double_round (v0, v1, v2, Z.lxor v3 w)) as [[[a0 a1] a2] a3] eqn:ED.
    destruct SW as [ES RS].
    destruct (IH m fuel (pre ++ [b0; b1; b2; b3; b4; b5; b6; b7]) post (Z.lxor a0 w, a1, a2, a3))
      as (v' & pre' & tail & E1 & E2 & E3 & E4 & E5 & E6); auto.
    + cbn [length] in Hn. lia.
    + cbn [length] in Hf. lia.
    + apply word_plain_tail in P. auto.
    + exists v', pre', tail. split.
      { rewrite <- E1, <- app_assoc. reflexivity. }
      split; [auto|]. split; [auto|]. split; [auto|]. split.
      * rewrite (sip_loop_step _ _ fuel v0 v1 v2 v3 (length pre) _ w a0 a1 a2 a3 WD ED) by (cbn [length]; lia).
        rewrite <- E5. rewrite app_length. cbn [length].
        rewrite <- app_assoc. cbn [app]. f_equal.
        all: lia.
      * rewrite pad_cons. fold w. rewrite (sip_word_step _ _ _ _ (eq_sym ES)). exact E6.
Qed.

Lemma sip_put_skip pre l pt i : sip_put (pre ++ l) (length pre) pt i = sip_put l 0 pt i.
Proof. unfold sip_put. rewrite rd_skip. reflexivity. Qed.

Lemma sip_tail_skip pre l n : sip_tail (pre ++ l) (length pre) n = sip_tail l 0 n.
Proof.
  unfold sip_tail, sip_set_pt.
  do 8 (destruct n as [|n]; [solve [repeat (rewrite sip_put_skip; destruct (sip_put l 0 _ _); cbn [bind]; try reflexivity); try reflexivity] | ]).
  reflexivity.
Qed.

Lemma sip_tail_ok tail post : (length tail < 8)%nat -> Forall is_byte tail ->
  sip_tail (tail ++ post) 0 (length tail) = Ok (tail ++ repeat 0 (8 - length tail)).
Proof.
  intros L F.
  assert (W : forall b, is_byte b -> wrap 8 b = b) by (intros b B; apply wrap_id; unfold is_byte in B; lia).
  destruct tail as [|b0 [|b1 [|b2 [|b3 [|b4 [|b5 [|b6 [|b7 m]]]]]]]]; cbn [length] in L; try lia.
  all: repeat (apply Forall_cons_iff in F; let X := fresh "B" in destruct F as [X F]).
  all: unfold sip_tail, sip_set_pt, sip_put, rd, wr; cbn -[wrap]; rewrite ?W by auto; reflexivity.
Qed.

Lemma pad_word L tail post : (length tail < 8)%nat -> Forall is_byte tail -> 0 <= L ->
  exists t, sip_to_u64 u8 (tail ++ repeat 0 (8 - length tail) ++ post) 0 = Ok t /\
    words (pad_with L tail) = [Z.lor (sz (Z.shiftl L 56)) t] /\ rng (Z.lor (sz (Z.shiftl L 56)) t).
Proof.
  intros Ht F HL.
  assert (B0 : is_byte 0) by (unfold is_byte; lia).
  assert (BL : is_byte (L mod 256)) by (apply Z.mod_pos_bound; lia).
  assert (SL : sz (Z.shiftl L 56) = (L mod 256) * 2 ^ 56) by (rewrite shl_mod by lia; reflexivity).
  assert (K : forall b0 b1 b2 b3 b4 b5 b6, is_byte b0 -> is_byte b1 -> is_byte b2 -> is_byte b3 ->
     is_byte b4 -> is_byte b5 -> is_byte b6 ->
     exists t, sip_to_u64 u8 (b0 :: b1 :: b2 :: b3 :: b4 :: b5 :: b6 :: 0 :: post) 0 = Ok t /\
       [le_number [b0; b1; b2; b3; b4; b5; b6; L mod 256]] = [Z.lor (sz (Z.shiftl L 56)) t] /\
       rng (Z.lor (sz (Z.shiftl L 56)) t)).
  { intros. exists (le_number [b0; b1; b2; b3; b4; b5; b6; 0]). split.
    { apply to_u64_ok; auto using good7_u8. }
    assert (E : le_number [b0; b1; b2; b3; b4; b5; b6; L mod 256] =
                Z.lor (sz (Z.shiftl L 56)) (le_number [b0; b1; b2; b3; b4; b5; b6; 0])).
    { rewrite SL, Z.lor_comm, lor_low_high; rewrite ?le8; unfold is_byte in *; lia. }
    rewrite <- E. split; auto. apply word_rng; auto. }
  destruct tail as [|b0 [|b1 [|b2 [|b3 [|b4 [|b5 [|b6 [|b7 m]]]]]]]]; cbn [length] in Ht; try lia.
  all: repeat (apply Forall_cons_iff in F; let X := fresh "B" in destruct F as [X F]).
  all: apply K; auto.
Qed.

Lemma siphash24_ok sgn m post key kpost :
  Forall is_byte m -> Forall is_byte key -> length key = 16%nat ->
  word_plain sgn m -> word_plain sgn key ->
  siphash24 sgn (m ++ post) (length m) (key ++ kpost) = Ok (siphash_2_4 key m).
Proof.
  intros Fm Fk Lk Pm Pk. unfold siphash24.
  do 16 (destruct key as [|? key]; [cbn [length] in Lk; lia|]).
  destruct key; [|cbn [length] in Lk; lia]. clear Lk.
  assert (Fk' := Fk).
  do 16 (apply Forall_cons_iff in Fk; let X := fresh "B" in destruct Fk as [X Fk]).
  assert (G : forall i, (i < 16)%nat -> (Nat.modulo i 8 <> 7)%nat -> sgn = true ->
            nth i (z :: z0 :: z1 :: z2 :: z3 :: z4 :: z5 :: z6 :: z7 :: z8 :: z9 :: z10 :: z11 :: z12 :: z13 :: z14 :: nil) 0 < 128).
  { intros i Hi Hm E. apply (Pk E); auto. }
  assert (K0 : sip_to_u64 (char_t sgn) ([z; z0; z1; z2; z3; z4; z5; z6; z7; z8; z9; z10; z11; z12; z13; z14] ++ kpost) 0 =
               Ok (le_number [z; z0; z1; z2; z3; z4; z5; z6])).
  { cbn [app]. apply to_u64_ok; auto using char_width; apply good7_char; auto.
    all: first [apply (G 0%nat) | apply (G 1%nat) | apply (G 2%nat) | apply (G 3%nat)
               | apply (G 4%nat) | apply (G 5%nat) | apply (G 6%nat)]; cbn; lia. }
  assert (K1 : sip_to_u64 (char_t sgn) ([z; z0; z1; z2; z3; z4; z5; z6; z7; z8; z9; z10; z11; z12; z13; z14] ++ kpost) 8 =
               Ok (le_number [z7; z8; z9; z10; z11; z12; z13; z14])).
  { change ([z; z0; z1; z2; z3; z4; z5; z6; z7; z8; z9; z10; z11; z12; z13; z14] ++ kpost) with
           ([z; z0; z1; z2; z3; z4; z5; z6] ++ (z7 :: z8 :: z9 :: z10 :: z11 :: z12 :: z13 :: z14 :: kpost)).
    change 8%nat with (length [z; z0; z1; z2; z3; z4; z5; z6]). rewrite to_u64_skip.
    apply to_u64_ok; auto using char_width; apply good7_char; auto.
    all: first [apply (G 8%nat) | apply (G 9%nat) | apply (G 10%nat) | apply (G 11%nat)
               | apply (G 12%nat) | apply (G 13%nat) | apply (G 14%nat)]; cbn; lia. }
  rewrite K0, K1. cbn [bind].
  unfold siphash_2_4. cbn [firstn skipn].
  set (k0 := le_number [z; z0; z1; z2; z3; z4; z5; z6]).
  set (k1 := le_number [z7; z8; z9; z10; z11; z12; z13; z14]).
  assert (R0 : rng k0) by (apply word_rng; auto).
  assert (R1 : rng k1) by (apply word_rng; auto).
  set (v := (Z.lxor k0 0x736f6d6570736575, Z.lxor k1 0x646f72616e646f6d,
             Z.lxor k0 0x6c7967656e657261, Z.lxor k1 0x7465646279746573)).
  assert (RV : rng4 v) by (cbn [rng4 v]; split; [|split; [|split]]; apply lxor_rng; auto; unfold rng; lia).
  change (sip_init k0 k1) with (toS v).
  change (sip_pad m) with (pad_with (Z.of_nat (length m)) m).
  destruct (sip_loop_ok sgn (Z.of_nat (length m)) (length m) m (S (length m)) [] post v)
    as (v' & pre' & tail & E1 & E2 & E3 & E4 & E5 & E6); auto.
  cbn [app length] in E1, E5. rewrite E5. cbn [bind]. rewrite E6.
  rewrite E1 at 1. rewrite <- app_assoc, sip_tail_skip, sip_tail_ok by auto. cbn [bind].
  destruct (pad_word (Z.of_nat (length m)) tail [] E2 E3 ltac:(lia)) as (t & T1 & T2 & T3).
  rewrite app_nil_r in T1. rewrite T1. cbn [bind]. rewrite T2. cbn [fold_left].
  set (b := Z.lor (sz (Z.shiftl (Z.of_nat (length m)) 56)) t) in *.
  pose proof (sip_word_ok v' b E4 T3) as SW.
  destruct v' as [[[v0 v1] v2] v3].
  destruct (double_round (v0, v1, v2, Z.lxor v3 b)) as [[[a0 a1] a2] a3].
  destruct SW as [ES RS]. rewrite <- ES.
  cbn [rng4] in RS. destruct RS as (RA & RB & RC & RD).
  assert (RX : rng4 (Z.lxor a0 b, a1, Z.lxor a2 0xFF, a3))
    by (cbn [rng4]; split; [auto|split; [auto|split; [|auto]]]; apply lxor_rng; auto; unfold rng; lia).
  destruct (double_round_ok _ RX) as [D1 RY].
  set (y := double_round (Z.lxor a0 b, a1, Z.lxor a2 255, a3)) in *.
  destruct (double_round_ok _ RY) as [D2 _].
  destruct (double_round y) as [[[c0 c1] c2] c3].
  unfold sip_finish. cbn [toS sv0 sv1 sv2 sv3].
  cbn [toS] in D1, D2. rewrite <- D1, <- D2. reflexivity.
Qed.

Lemma siphash24_unsigned m post key kpost :
  Forall is_byte m -> Forall is_byte key -> length key = 16%nat ->
  siphash24 false (m ++ post) (length m) (key ++ kpost) = Ok (siphash_2_4 key m).
Proof. intros. apply siphash24_ok; auto; discriminate. Qed.

Lemma siphash24_wrong : exists m key r, Forall is_byte m /\ Forall is_byte key /\ length key = 16%nat /\
    siphash24 true m (length m) key = Ok r /\ r <> siphash_2_4 key m.
Proof.
  exists [200; 0; 0; 0; 0; 0; 0; 0], (repeat 0 16), 9457126405925042403.
  split; [repeat constructor; unfold is_byte; lia|].
  split; [apply Forall_forall; intros x I; apply repeat_spec in I; subst; unfold is_byte; lia|].
  split; [reflexivity|]. vm_compute. split; [reflexivity | discriminate].
Qed.

Lemma collide_loop T m m' w v : sip_to_u64 T m 0 = Ok w -> sip_to_u64 T m' 0 = Ok w ->
  sip_loop T m 9 v 0 8 = sip_loop T m' 9 v 0 8 /\
  (forall v' pos rest, sip_loop T m 9 v 0 8 = Ok (v', pos, rest) -> rest = 0%nat).
Proof.
  intros E E'. destruct v as [[[v0 v1] v2] v3].
  destruct (double_round (v0, v1, v2, Z.lxor v3 w)) as [[[a0 a1] a2] a3] eqn:D.
  rewrite (sip_loop_step T m 8 v0 v1 v2 v3 0 8 w a0 a1 a2 a3 E D) by lia.
  rewrite (sip_loop_step T m' 8 v0 v1 v2 v3 0 8 w a0 a1 a2 a3 E' D) by lia.
  split; [reflexivity|]. intros v' pos rest X. cbn [sip_loop] in X. cbn in X. congruence.
Qed.

Lemma siphash24_collision key : Forall is_byte key -> length key = 16%nat ->
  exists m m', m <> m' /\ Forall is_byte m /\ Forall is_byte m' /\ length m = length m' /\
    siphash24 true m (length m) key = siphash24 true m' (length m') key.
Proof.
  intros _ _. exists [128; 0; 0; 0; 0; 0; 0; 0], [128; 1; 2; 3; 4; 5; 6; 7].
  split; [discriminate|].
  split; [repeat constructor; unfold is_byte; lia|].
  split; [repeat constructor; unfold is_byte; lia|]. split; [reflexivity|].
  change (length [128; 0; 0; 0; 0; 0; 0; 0]) with 8%nat.
  change (length [128; 1; 2; 3; 4; 5; 6; 7]) with 8%nat.
  assert (W : sip_to_u64 i8 [128; 0; 0; 0; 0; 0; 0; 0] 0 = Ok 0xffffffffffffff80) by reflexivity.
  assert (W' : sip_to_u64 i8 [128; 1; 2; 3; 4; 5; 6; 7] 0 = Ok 0xffffffffffffff80) by reflexivity.
  revert W W'. generalize [128; 0; 0; 0; 0; 0; 0; 0] as m.
  generalize [128; 1; 2; 3; 4; 5; 6; 7] as m'. intros m' m W W'.
  unfold siphash24. cbn [char_t].
  destruct (sip_to_u64 i8 key 0) as [k0| | |]; cbn [bind]; auto.
  destruct (sip_to_u64 i8 key 8) as [k1| | |]; cbn [bind]; auto.
  match goal with |- context [sip_loop i8 m 9 ?v 0 8] =>
    destruct (collide_loop i8 m m' _ v W W') as [EL R0] end.
  rewrite <- EL.
  destruct (sip_loop i8 m 9 _ 0 8) as [[[v' pos] rest]| | |]; cbn [bind]; auto.
  rewrite (R0 v' pos rest eq_refl). reflexivity.
Qed.
