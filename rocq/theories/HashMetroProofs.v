(** Proofs about MetroHash64. *)
From Coq Require Import ZifyBool.
From Verif Require Import Common Ints SpecBits BitsProofs CommonProofs CxMathProofs SpecHash Hash HashProofs
  HashWordProofs.
Open Scope Z_scope.
Local Arguments Z.mul : simpl never.
Local Arguments Z.add : simpl never.
Local Arguments Z.sub : simpl never.
Local Arguments Z.pow : simpl never.
Local Arguments Z.of_nat : simpl never.
Local Arguments Z.modulo : simpl never.
Local Arguments Z.div : simpl never.
Local Arguments Z.lor : simpl never.
Local Arguments Z.shiftl : simpl never.

Ltac positions :=
  match goal with
  | |- Ok (?a, ?b, ?c) = Ok (?a', ?b', ?c') =>
      let Eb := fresh in let Ec := fresh in
      assert (Eb : b = b') by lia; assert (Ec : c = c') by lia;
      apply (f_equal2 (fun x y => Ok (a, x, y)) Eb Ec)
  end.

Lemma rotr_ok x r : rng x -> 0 < r < 64 -> metro_rotr r x = rotr64 x r.
Proof.
  intros X R. unfold metro_rotr, rotr64.
  rewrite shl_mod by lia. replace (64 - (64 - r)) with r by lia.
  rewrite Z.shiftr_div_pow2 by lia. apply lor_low_high; [lia|].
  pose proof (shr_low x (64 - r) X ltac:(lia)) as H.
  replace (64 - (64 - r)) with r in H by lia. auto.
Qed.

Lemma le_number_app a b : le_number (a ++ b) = le_number a + 256 ^ Z.of_nat (length a) * le_number b.
Proof.
  induction a as [|x a IH]; cbn [app le_number length].
  - change (256 ^ Z.of_nat 0) with 1. lia.
  - rewrite IH, Nat2Z.inj_succ, Z.pow_succ_r by lia. lia.
Qed.

Lemma firstn_S {A} (d : A) l n : (n < length l)%nat -> firstn (S n) l = firstn n l ++ [nth n l d].
Proof.
  revert n. induction l as [|x l IH]; intros [|n] H; cbn [length] in H; try lia; cbn [firstn nth app]; auto.
  f_equal. apply IH. lia.
Qed.

Lemma Forall_firstn {A} (P : A -> Prop) n l : Forall P l -> Forall P (firstn n l).
Proof.
  intros F. revert n. induction F as [|x l H F IH]; intros [|n]; cbn [firstn]; auto.
Qed.
Lemma Forall_skipn {A} (P : A -> Prop) n l : Forall P l -> Forall P (skipn n l).
Proof.
  intros F. revert n. induction F as [|x l H F IH]; intros [|n]; cbn [skipn]; auto.
Qed.

Lemma bytes_at_range m o n : Forall is_byte m -> (o + n <= length m)%nat ->
  0 <= bytes_at m o n < 2 ^ (8 * Z.of_nat n).
Proof.
  intros F L. unfold bytes_at. rewrite <- pow256 by lia.
  pose proof (le_number_range (firstn n (skipn o m)) (Forall_firstn _ _ _ (Forall_skipn _ _ _ F))) as H.
  rewrite firstn_length, skipn_length in H. replace (Nat.min n (length m - o)) with n in H by lia. auto.
Qed.

Lemma bytes_at_S m o n : Forall is_byte m -> (o + n < length m)%nat ->
  bytes_at m o (S n) = bytes_at m o n + nth (o + n) m 0 * 2 ^ (8 * Z.of_nat n).
Proof.
  intros F L. unfold bytes_at. rewrite (firstn_S 0) by (rewrite skipn_length; lia).
  rewrite le_number_app. cbn [le_number]. rewrite firstn_length, skipn_length.
  replace (Nat.min n (length m - o)) with n by lia. rewrite pow256 by lia.
  replace (nth n (skipn o m) 0) with (nth (o + n) m 0); [lia|].
  clear. revert m. induction o as [|o IH]; intros m; cbn [skipn Nat.add]; auto.
  destruct m as [|x m]; [destruct n; reflexivity | apply IH].
Qed.

Lemma as_le_loop_ok w m pos k : forall n, Forall is_byte m -> (pos + n + k <= length m)%nat ->
  8 * (Z.of_nat n + Z.of_nat k) <= w ->
  as_le_loop w m pos n k (bytes_at m pos n) = Ok (bytes_at m pos (n + k)).
Proof.
  induction k as [|k IH]; intros n F L W; cbn [as_le_loop].
  - rewrite Nat.add_0_r. reflexivity.
  - assert (R : rd m (pos + n) = Ok (nth (pos + n) m 0)).
    { unfold rd. rewrite (nth_error_nth' m 0) by lia. reflexivity. }
    rewrite R. cbn [bind].
    assert (B : is_byte (nth (pos + n) m 0)).
    { rewrite Forall_forall in F. apply F, nth_In. lia. }
    rewrite (wrap_id 8) by (unfold is_byte in B; lia).
    rewrite Z.shiftl_mul_pow2 by lia.
    rewrite lor_low_high; [|lia|apply bytes_at_range; auto; lia].
    rewrite <- bytes_at_S by (auto; lia).
    rewrite wrap_id.
    2:{ pose proof (bytes_at_range m pos (S n) F ltac:(lia)) as H.
        assert (2 ^ (8 * Z.of_nat (S n)) <= 2 ^ w) by (apply Z.pow_le_mono_r; lia). lia. }
    rewrite IH by (auto; lia). do 2 f_equal. lia.
Qed.

Lemma as_le_ok w m pos n : w = 8 * Z.of_nat n -> Forall is_byte m -> (pos + n <= length m)%nat ->
  as_le_uint w m pos = Ok (bytes_at m pos n).
Proof.
  intros -> F L. unfold as_le_uint.
  replace (Z.to_nat (8 * Z.of_nat n / 8)) with n by (rewrite Z.mul_comm, Z.div_mul by lia; lia).
  change 0 with (bytes_at m pos 0). rewrite as_le_loop_ok by (auto; lia). reflexivity.
Qed.

Lemma add64_rng a b : rng (add64 a b).
Proof. apply (sz_rng (a + b)). Qed.
Lemma mul64_rng a b : rng (mul64 a b).
Proof. apply (sz_rng (a * b)). Qed.

Lemma sz_add a b : sz (a + b) = add64 a b.
Proof. reflexivity. Qed.
Lemma sz_mul a b : sz (a * b) = mul64 a b.
Proof. reflexivity. Qed.

Lemma blocks_ok m n : Forall is_byte m -> n = Nat.div (length m) 32 -> forall k fuel i v,
  (i + S k = n)%nat -> (k < fuel)%nat ->
  exists v0 v1 v2 v3,
    fold_left (metro_block m) (map (fun i => (32 * i)%nat) (seq i (S k))) v = (v0, v1, v2, v3) /\
    rng4 (v0, v1, v2, v3) /\
    hash64_blocks m fuel v (32 * i) (length m - 32 * i) = Ok (v0, v1, v2, v3, (32 * n)%nat, (length m - 32 * n)%nat).
Proof.
  intros F N.
  assert (L : (32 * n <= length m < 32 * n + 32)%nat).
  { subst n. pose proof (Nat.div_mod (length m) 32 ltac:(lia)).
    pose proof (Nat.mod_upper_bound (length m) 32 ltac:(lia)). lia. }
  induction k as [|k IH]; intros fuel i v Hi Hf.
  all: destruct fuel as [|fuel]; [lia|]; destruct v as [[[a0 a1] a2] a3].
  all: cbn [hash64_blocks].
  all: rewrite !(as_le_ok 64 m _ 8) by (auto; lia); cbn [bind].
  all: unfold k0, k1, k2, k3; change 0xd6d018f5 with mk0; change 0xa2aa033b with mk1;
       change 0x62992fc1 with mk2; change 0x30bc5b29 with mk3.
  all: rewrite ?sz_mul, ?sz_add; rewrite !rotr_ok by (auto using add64_rng; lia).
  - destruct (Nat.leb_spec 32 (length m - 32 * i - 32)) as [H | H]; [lia|].
    cbn [seq map fold_left metro_block].
    do 4 eexists. split; [reflexivity|]. split.
    + cbn [rng4]. auto 7 using add64_rng.
    + positions.
  - destruct (Nat.leb_spec 32 (length m - 32 * i - 32)) as [H | H]; [|lia].
    change (seq i (S (S k))) with (i :: seq (S i) (S k)). cbn [map fold_left].
    match goal with |- context [hash64_blocks m fuel ?v _ _] =>
      destruct (IH fuel (S i) v ltac:(lia) ltac:(lia)) as (v0 & v1 & v2 & v3 & E1 & E2 & E3) end.
    exists v0, v1, v2, v3. split; [exact E1|]. split; [exact E2|].
    rewrite <- E3. f_equal; lia.
Qed.

Lemma bulk_ok m h : Forall is_byte m -> rng h ->
  let n := (length m / 32)%nat in
  hash64_bulk m h 0 (length m) = Ok (metro_bulk m h, (n * 32)%nat, (length m - n * 32)%nat) /\
  rng (metro_bulk m h).
Proof.
  intros F H n. unfold hash64_bulk, metro_bulk. fold n.
  assert (L : (32 * n <= length m < 32 * n + 32)%nat).
  { subst n. pose proof (Nat.div_mod (length m) 32 ltac:(lia)).
    pose proof (Nat.mod_upper_bound (length m) 32 ltac:(lia)). lia. }
  destruct (Nat.leb_spec 32 (length m)) as [B | B].
  - destruct (Nat.eqb_spec n 0) as [Z0 | NZ]; [lia|].
    destruct (blocks_ok m n F eq_refl (n - 1) (S (length m)) 0 (h, h, h, h) ltac:(lia) ltac:(lia))
      as (v0 & v1 & v2 & v3 & E1 & E2 & E3).
    rewrite Nat.mul_0_r, Nat.sub_0_r in E3. rewrite E3. cbn [bind].
    replace (S (n - 1)) with n in E1 by lia. rewrite E1. cbn [metro_merge].
    unfold k0, k1, k2, k3; change 0xd6d018f5 with mk0; change 0xa2aa033b with mk1.
    rewrite ?sz_mul, ?sz_add. rewrite ?sz_mul, ?sz_add.
    cbn [rng4] in E2. destruct E2 as (R0 & R1 & R2 & R3).
    rewrite !rotr_ok by (try lia; apply add64_rng).
    split; [|apply add64_rng].
    positions.
  - destruct (Nat.eqb_spec n 0) as [Z0 | NZ]; [|lia].
    split; auto. rewrite Z0. positions.
Qed.

(** After the steps for [2 * n] and more bytes, the position is the length
    rounded down to a multiple of [2 * n]. *)
Lemma round_down len n : (0 < n)%nat ->
  (len / n * n)%nat = (len / (2 * n) * (2 * n) + (if n <=? len - len / (2 * n) * (2 * n) then n else 0))%nat.
Proof.
  intros N. set (q := (len / (2 * n))%nat).
  pose proof (Nat.div_mod len (2 * n) ltac:(lia)) as D.
  pose proof (Nat.mod_upper_bound len (2 * n) ltac:(lia)) as U. fold q in D.
  set (r := (len mod (2 * n))%nat) in *.
  destruct (Nat.leb_spec n (len - q * (2 * n))) as [H | H].
  - replace (len / n)%nat with (2 * q + 1)%nat; [lia|].
    apply (Nat.div_unique len n (2 * q + 1) (r - n)); lia.
  - replace (len / n)%nat with (2 * q)%nat; [lia|].
    apply (Nat.div_unique len n (2 * q) r); lia.
Qed.

Lemma round_le len n : (0 < n)%nat -> (len / n * n <= len)%nat.
Proof. intros N. pose proof (Nat.div_mod len n ltac:(lia)). lia. Qed.

Lemma step16_ok m h : Forall is_byte m -> rng h ->
  let n := (length m / 32)%nat in
  hash64_16 m h (n * 32) (length m - n * 32) =
    Ok (metro_step m 16 (metro_16 m) h, (length m / 16 * 16)%nat, (length m - length m / 16 * 16)%nat) /\
  rng (metro_step m 16 (metro_16 m) h).
Proof.
  intros F H n. unfold hash64_16, metro_step. change (2 * 16)%nat with 32%nat. fold n.
  pose proof (round_down (length m) 16 ltac:(lia)) as RD. change (2 * 16)%nat with 32%nat in RD. fold n in RD.
  destruct (Nat.leb_spec 16 (length m - n * 32)) as [B | B].
  - rewrite !(as_le_ok 64 m _ 8) by (auto; lia). cbn [bind].
    unfold k0, k1, k2, k3; change 0xd6d018f5 with mk0; change 0x62992fc1 with mk2; change 0x30bc5b29 with mk3.
    rewrite ?sz_mul, ?sz_add. rewrite ?sz_mul, ?sz_add.
    rewrite !rotr_ok by (try lia; auto using add64_rng, mul64_rng).
    split; [|apply add64_rng]. unfold metro_16. rewrite RD. positions.
  - split; auto. rewrite RD. positions.
Qed.

Lemma small_rng m o n r h : rng h -> rng (metro_small m o n r h).
Proof. intros H. unfold metro_small. apply lxor_rng; auto using add64_rng, mul64_rng. Qed.

Lemma small_ok m h n r : Forall is_byte m -> rng h -> (0 < n)%nat -> 0 < r < 64 ->
  let o := (length m / (2 * n) * (2 * n))%nat in
  hash64_small n r m h o (length m - o) =
    Ok (metro_step m n (fun o => metro_small m o n r) h,
        (length m / n * n)%nat, (length m - length m / n * n)%nat) /\
  rng (metro_step m n (fun o => metro_small m o n r) h).
Proof.
  intros F H N R o. unfold hash64_small, metro_step. fold o.
  pose proof (round_down (length m) n N) as RD. fold o in RD.
  destruct (Nat.leb_spec n (length m - o)) as [B | B].
  - rewrite (as_le_ok (8 * Z.of_nat n) m _ n) by (auto; lia). cbn [bind].
    unfold k1, k3; change 0xa2aa033b with mk1; change 0x30bc5b29 with mk3.
    rewrite ?sz_mul, ?sz_add. rewrite !rotr_ok by (try lia; auto using add64_rng).
    split; [|apply small_rng; auto]. unfold metro_small. rewrite RD. positions.
  - split; auto. rewrite RD. positions.
Qed.

Lemma nth_last (m : list Z) d : nth (length m - 1) m d = last m d.
Proof.
  induction m as [|x [|y m] IH]; auto.
  cbn [length] in *. replace (S (S (length m)) - 1)%nat with (S (S (length m) - 1)) by lia.
  etransitivity; [|exact IH]. reflexivity.
Qed.


Lemma last_ok sgn m h : Forall is_byte m -> last_plain sgn m -> rng h ->
  let o := (length m / 2 * 2)%nat in
  hash64_last sgn m h o (length m - o) = Ok (metro_step m 1 (fun o => metro_small m o 1 37) h) /\
  rng (metro_step m 1 (fun o => metro_small m o 1 37) h).
Proof.
  intros F P H o. unfold hash64_last, metro_step. change (2 * 1)%nat with 2%nat. fold o.
  pose proof (Nat.div_mod (length m) 2 ltac:(lia)) as D.
  pose proof (Nat.mod_upper_bound (length m) 2 ltac:(lia)) as U.
  destruct (Nat.leb_spec 1 (length m - o)) as [B | B].
  - destruct (Nat.eqb_spec (length m - o) 0) as [E | E]; [lia|]. cbn [negb].
    assert (R : rd m o = Ok (nth o m 0)).
    { unfold rd. rewrite (nth_error_nth' m 0) by lia. reflexivity. }
    rewrite R. cbn [bind].
    assert (Bt : is_byte (nth o m 0)).
    { rewrite Forall_forall in F. apply F, nth_In. lia. }
    assert (PL : sgn = true -> nth o m 0 < 128).
    { intros ES. replace o with (length m - 1)%nat by lia. rewrite nth_last. apply (P ES).
      apply Nat.odd_spec. exists (length m / 2)%nat. lia. }
    assert (C : conv u64 (char_of sgn (nth o m 0)) = bytes_at m o 1).
    { rewrite char_of_plain by auto. rewrite conv_id.
      - rewrite bytes_at_S by (auto; lia). rewrite Nat.add_0_r. change (8 * Z.of_nat 0) with 0.
        change (bytes_at m o 0) with 0. lia.
      - reflexivity.
      - unfold is_byte in Bt. unfold fits, lowest, highest. cbn [signed width u64]. lia. }
    rewrite C. unfold k1, k3; change 0xa2aa033b with mk1; change 0x30bc5b29 with mk3.
    rewrite ?sz_mul, ?sz_add. rewrite !rotr_ok by (try lia; auto using add64_rng).
    split; [reflexivity|]. apply small_rng. auto.
  - destruct (Nat.eqb_spec (length m - o) 0) as [E | E]; [|lia]. cbn [negb]. auto.
Qed.

Lemma hash64_ok sgn m seed : Forall is_byte m -> last_plain sgn m ->
  hash64 sgn m seed = Ok (metro64 m seed).
Proof.
  intros F P. unfold hash64, metro64.
  unfold k0, k2. change 0xd6d018f5 with mk0. change 0x62992fc1 with mk2.
  rewrite sz_mul, sz_add.
  set (h := mul64 (add64 seed mk2) mk0).
  assert (R : rng h) by apply mul64_rng. clearbody h.
  destruct (bulk_ok m h F R) as [E R1]. rewrite E. cbn [bind]. clear E R. revert R1.
  generalize (metro_bulk m h) as h1. intros h1 R.
  destruct (step16_ok m h1 F R) as [E R1]. rewrite E. cbn [bind]. clear E R. revert R1.
  generalize (metro_step m 16 (metro_16 m) h1) as h2. intros h2 R.
  destruct (small_ok m h2 8 55 F R ltac:(lia) ltac:(lia)) as [E R1].
  change (2 * 8)%nat with 16%nat in E. rewrite E. cbn [bind]. clear E R. revert R1.
  generalize (metro_step m 8 (fun o => metro_small m o 8 55) h2) as h3. intros h3 R.
  destruct (small_ok m h3 4 26 F R ltac:(lia) ltac:(lia)) as [E R1].
  change (2 * 4)%nat with 8%nat in E. rewrite E. cbn [bind]. clear E R. revert R1.
  generalize (metro_step m 4 (fun o => metro_small m o 4 26) h3) as h4. intros h4 R.
  destruct (small_ok m h4 2 48 F R ltac:(lia) ltac:(lia)) as [E R1].
  change (2 * 2)%nat with 4%nat in E. rewrite E. cbn [bind]. clear E R. revert R1.
  generalize (metro_step m 2 (fun o => metro_small m o 2 48) h4) as h5. intros h5 R.
  destruct (last_ok sgn m h5 F P R) as [E R1]. rewrite E. cbn [bind]. clear E R. revert R1.
  generalize (metro_step m 1 (fun o => metro_small m o 1 37) h5) as h6. intros h6 R.
  rewrite sz_mul. rewrite !rotr_ok by (try lia; auto using mul64_rng). reflexivity.
Qed.

Lemma hash64_unsigned m seed : Forall is_byte m -> hash64 false m seed = Ok (metro64 m seed).
Proof. intros. apply hash64_ok; auto. discriminate. Qed.

Lemma hash64_wrong : exists m seed r, Forall is_byte m /\ hash64 true m seed = Ok r /\ r <> metro64 m seed.
Proof.
  exists [200], 0, 5649486549919045342. split; [repeat constructor; unfold is_byte; lia|].
  vm_compute. split; [reflexivity | discriminate].
Qed.
