(** Proofs about daw_random.h. *)
From Coq Require Import ZifyBool Znumtheory.
From Verif Require Import Common Ints SpecBits BitsProofs CommonProofs Hash SpecHash HashProofs SpecRandom Random.
Open Scope Z_scope.
Local Arguments Z.mul : simpl never.
Local Arguments Z.add : simpl never.
Local Arguments Z.sub : simpl never.
Local Arguments Z.pow : simpl never.
Local Arguments Z.of_nat : simpl never.
Local Arguments Z.modulo : simpl never.

(** *** shuffle *)
Section Elem.
Context {A : Type}.
Implicit Types l : list A.

Lemma randint_pos i d : randint 0 (Z.of_nat i) (Z.of_nat d) = Ok (Z.of_nat d).
Proof. unfold randint. destruct (Z.leb_spec 0 (Z.of_nat i)); [reflexivity | lia]. Qed.

Lemma shuffle_step i d ds l : shuffle_loop (S i) (d :: ds) l =
  l <- swap_at l (S i) d ;; shuffle_loop i ds l.
Proof. cbn [shuffle_loop]. rewrite randint_pos. cbn [bind]. rewrite Nat2Z.id. reflexivity. Qed.

(** Positions above [i] are not touched. *)
Lemma shuffle_loop_perm i : forall ds l, choices i ds -> (i < length l)%nat ->
  exists l', shuffle_loop i ds l = Ok l' /\ Permutation l l' /\ length l' = length l /\
    (forall k, (i < k)%nat -> nth_error l' k = nth_error l k).
Proof.
  induction i as [|i IH]; intros ds l C L.
  - exists l. cbn. repeat split; auto.
  - destruct ds as [|d ds]; [contradiction|]. destruct C as [D C].
    rewrite shuffle_step.
    destruct (swap_at_ok l (S i) d) as (l1 & E & Ln & P & N); [lia | lia |].
    rewrite E. cbn [bind].
    destruct (IH ds l1 C ltac:(lia)) as (l2 & E2 & P2 & Ln2 & N2).
    exists l2. split; auto. split; [eapply Permutation_trans; eauto|]. split; [lia|].
    intros k K. rewrite N2, N by lia. unfold tr.
    destruct (Nat.eqb_spec k (S i)); [lia|]. destruct (Nat.eqb_spec k d); [lia|]. reflexivity.
Qed.

Lemma shuffle_perm ds l : choices (length l - 1) ds -> exists l', shuffle ds l = Ok l' /\ Permutation l l'.
Proof.
  intros C. unfold shuffle. destruct l as [|x l].
  - exists []. auto.
  - destruct (shuffle_loop_perm _ ds (x :: l) C) as (l' & E & P & _).
    + cbn [length]. lia.
    + eauto.
Qed.

(** The value a choice puts at its final position. *)
Lemma shuffle_last i d ds l l' : choices (S i) (d :: ds) -> (S i < length l)%nat ->
  shuffle_loop (S i) (d :: ds) l = Ok l' -> nth_error l' (S i) = nth_error l d.
Proof.
  intros [D C] L E. rewrite shuffle_step in E.
  destruct (swap_at_ok l (S i) d) as (l1 & E1 & Ln & P & N); [lia | lia |].
  rewrite E1 in E. cbn [bind] in E.
  destruct (shuffle_loop_perm i ds l1 C ltac:(lia)) as (l2 & E2 & P2 & Ln2 & N2).
  rewrite E2 in E. injection E as <-. rewrite N2, N by lia. unfold tr.
  rewrite Nat.eqb_refl. reflexivity.
Qed.

Lemma shuffle_inj i : forall ds ds' l l', NoDup l -> (i < length l)%nat ->
  choices i ds -> choices i ds' ->
  shuffle_loop i ds l = Ok l' -> shuffle_loop i ds' l = Ok l' -> ds = ds'.
Proof.
  induction i as [|i IH]; intros ds ds' l l' ND L C C' E E'.
  - destruct ds; [|contradiction]. destruct ds'; [reflexivity | contradiction].
  - destruct ds as [|d ds]; [contradiction|]. destruct ds' as [|d' ds']; [contradiction|].
    assert (ED : d = d').
    { pose proof (shuffle_last _ _ _ _ _ C L E) as H1.
      pose proof (shuffle_last _ _ _ _ _ C' L E') as H2. rewrite H1 in H2.
      rewrite NoDup_nth_error in ND. apply ND; auto. destruct C. lia. }
    subst d'. f_equal. rewrite shuffle_step in E, E'.
    destruct C as [D C]. destruct C' as [_ C'].
    destruct (swap_at_ok l (S i) d) as (l1 & E1 & Ln & P & N); [lia | lia |].
    rewrite E1 in E, E'. cbn [bind] in E, E'.
    apply (IH ds ds' l1 l'); auto; [|lia].
    eapply Permutation_NoDup; eauto.
Qed.

Lemma in_nth_pos (x : A) l : In x l -> exists d, (d < length l)%nat /\ nth_error l d = Some x.
Proof.
  intros I. apply In_nth_error in I. destruct I as [d H]. exists d. split; auto.
  apply nth_error_some_lt in H. auto.
Qed.

Lemma shuffle_reach i : forall p p' post : list A, length p = S i -> Permutation p p' ->
  exists ds, choices i ds /\ shuffle_loop i ds (p ++ post) = Ok (p' ++ post).
Proof.
  induction i as [|i IH]; intros p p' post Lp P.
  - destruct p as [|x [|]]; try discriminate.
    apply Permutation_length_1_inv in P. subst p'. exists []. split; [exact I | reflexivity].
  - assert (Lp' : length p' = S (S i)) by (rewrite <- (Permutation_length P); auto).
    destruct (exists_last (l := p')) as (q' & x & ->).
    { intros ->. discriminate. }
    rewrite app_length in Lp'. cbn [length] in Lp'.
    destruct (in_nth_pos x p) as (d & Hd & Nd).
    { eapply Permutation_in; [apply Permutation_sym, P | apply in_or_app; right; left; reflexivity]. }
    destruct (swap_at_ok (p ++ post) (S i) d) as (l1 & E1 & Ln & P1 & N).
    { rewrite app_length. lia. } { rewrite app_length. lia. }
    (* the swapped list: q ++ x :: post *)
    set (q := firstn (S i) l1).
    rewrite app_length in Ln.
    assert (Lq : length q = S i) by (unfold q; rewrite firstn_length; lia).
    assert (E : l1 = q ++ x :: post).
    { apply list_eq_nth. intros k. destruct (Nat.ltb_spec k (S i)) as [K | K].
      - rewrite nth_error_app_lt by lia. unfold q. rewrite nth_error_firstn.
        destruct (Nat.ltb_spec k (S i)); [reflexivity | lia].
      - rewrite nth_error_app2 by lia. rewrite N, Lq. unfold tr.
        destruct (Nat.eqb_spec k (S i)) as [Ek | Ek].
        + rewrite Ek, Nat.sub_diag. cbn [nth_error]. rewrite nth_error_app_lt by lia. auto.
        + destruct (Nat.eqb_spec k d); [lia|]. rewrite nth_error_app2 by lia.
          replace (k - S i)%nat with (S (k - length p)) by lia. reflexivity. }
    assert (PQ : Permutation q q').
    { apply (Permutation_app_inv_r [x]).
      eapply Permutation_trans; [|exact P].
      apply (Permutation_app_inv_r post).
      rewrite <- app_assoc. cbn [app]. rewrite <- E. apply Permutation_sym. exact P1. }
    destruct (IH q q' (x :: post) Lq PQ) as (ds & C & S1).
    exists (d :: ds). split.
    + split; [lia | auto].
    + rewrite shuffle_step, E1. cbn [bind]. rewrite E, S1, <- app_assoc. reflexivity.
Qed.

Lemma shuffle_every l l' : Permutation l l' ->
  exists ds, choices (length l - 1) ds /\ shuffle ds l = Ok l'.
Proof.
  intros P. unfold shuffle. destruct l as [|x l].
  - apply Permutation_nil in P. subst. exists []. split; [exact I | reflexivity].
  - destruct (shuffle_reach (length l) (x :: l) l' []) as (ds & C & E); auto.
    rewrite !app_nil_r in E. exists ds. cbn [length].
    replace (S (length l) - 1)%nat with (length l) by lia. auto.
Qed.

Lemma shuffle_once l l' ds ds' : NoDup l -> choices (length l - 1) ds -> choices (length l - 1) ds' ->
  shuffle ds l = Ok l' -> shuffle ds' l = Ok l' -> ds = ds'.
Proof.
  intros ND C C' E E'. destruct l as [|x l].
  - cbn in C, C'. destruct ds; [|contradiction]. destruct ds'; [reflexivity | contradiction].
  - eapply (shuffle_inj (length (x :: l) - 1)); eauto. cbn [length]. lia.
Qed.
End Elem.

Lemma all_choices_in i : forall ds, choices i ds <-> In ds (all_choices i).
Proof.
  induction i as [|i IH]; intros ds.
  - cbn. destruct ds; intuition. discriminate.
  - cbn [all_choices]. rewrite in_flat_map. split.
    + destruct ds as [|d ds]; [intros []|]. intros [D C]. exists d. split.
      * apply in_seq. lia.
      * apply in_map. apply IH. auto.
    + intros (d & I & M). apply in_map_iff in M. destruct M as (ds' & <- & I').
      apply in_seq in I. split; [lia | apply IH; auto].
Qed.

Lemma flat_map_len {A B} (f : A -> list B) n l : (forall a, In a l -> length (f a) = n) ->
  length (flat_map f l) = (length l * n)%nat.
Proof.
  induction l as [|a l IH]; intros H; cbn [flat_map length]; auto.
  rewrite app_length, H, IH by (intros; try apply H; cbn; auto). lia.
Qed.

Lemma all_choices_len i : length (all_choices i) = fact (S i).
Proof.
  induction i as [|i IH]; auto.
  cbn [all_choices]. rewrite (flat_map_len _ (length (all_choices i))).
  - rewrite seq_length, IH. reflexivity.
  - intros a _. apply map_length.
Qed.

Lemma NoDup_app_intro {A} (l1 l2 : list A) : NoDup l1 -> NoDup l2 ->
  (forall x, In x l1 -> ~ In x l2) -> NoDup (l1 ++ l2).
Proof.
  induction 1 as [|x l1 NI ND IH]; intros N2 D; auto. cbn [app]. constructor.
  - intros I. apply in_app_or in I. destruct I as [I | I]; [auto|]. apply (D x); cbn; auto.
  - apply IH; auto. intros y Y. apply D. cbn; auto.
Qed.

Lemma all_choices_nodup i : NoDup (all_choices i).
Proof.
  induction i as [|i IH].
  - repeat constructor. intros [].
  - cbn [all_choices]. generalize (seq_NoDup (S (S i)) 0). generalize (seq 0 (S (S i))) as ns.
    induction 1 as [|d ns NI ND IHn]; [constructor|]. cbn [flat_map].
    apply NoDup_app_intro; auto.
    + apply FinFun.Injective_map_NoDup; auto. intros a b E. injection E; auto.
    + intros x I J. apply in_map_iff in I. destruct I as (y & <- & _).
      apply in_flat_map in J. destruct J as (d' & I' & J). apply in_map_iff in J.
      destruct J as (z & E & _). injection E as -> _. contradiction.
Qed.

Lemma NoDup_map_inj {A B} (f : A -> B) l : NoDup l ->
  (forall x y, In x l -> In y l -> f x = f y -> x = y) -> NoDup (map f l).
Proof.
  induction 1 as [|x l NI ND IH]; intros J; cbn [map]; constructor.
  - intros I. apply in_map_iff in I. destruct I as (y & E & I). apply NI.
    rewrite (J x y); cbn; auto.
  - apply IH. intros a b A1 B1. apply J; cbn; auto.
Qed.

Lemma shuffle_uniform {A} (l : list A) : NoDup l ->
  let outcomes := map (fun ds => shuffle ds l) (all_choices (length l - 1)) in
  length outcomes = fact (length l) /\ NoDup outcomes /\
  (forall l', In (Ok l') outcomes <-> Permutation l l') /\
  (forall r, In r outcomes -> exists l', r = Ok l').
Proof.
  intros ND outcomes. unfold outcomes. split; [|split; [|split]].
  - rewrite map_length, all_choices_len. destruct l; auto. cbn [length].
    replace (S (S (length l) - 1)) with (S (length l)) by lia. reflexivity.
  - apply NoDup_map_inj; [apply all_choices_nodup|]. intros x y X Y E.
    apply all_choices_in in X. apply all_choices_in in Y.
    destruct (shuffle_perm x l X) as (l' & E' & _).
    apply (shuffle_once l l' x y); auto. congruence.
  - intros l'. rewrite in_map_iff. split.
    + intros (ds & E & I). apply all_choices_in in I.
      destruct (shuffle_perm ds l I) as (l2 & E2 & P). congruence.
    + intros P. destruct (shuffle_every l l' P) as (ds & C & E). exists ds. split; auto.
      apply all_choices_in. auto.
  - intros r I. apply in_map_iff in I. destruct I as (ds & <- & I). apply all_choices_in in I.
    destruct (shuffle_perm ds l I) as (l2 & E2 & P). eauto.
Qed.

(** *** The linear congruential generator *)

Lemma iter_S {A} (f : A -> A) n x : Nat.iter (S n) f x = f (Nat.iter n f x).
Proof. reflexivity. Qed.


(** 1 + a + ... + a^(n-1) *)
Fixpoint geo (a : Z) (n : nat) : Z :=
  match n with
  | O => 0
  | S n => a * geo a n + 1
  end.

Lemma geo_pow a n : a ^ Z.of_nat n = (a - 1) * geo a n + 1.
Proof.
  induction n as [|n IH]; [cbn [geo]; change (Z.of_nat 0) with 0; rewrite Z.pow_0_r; lia|].
  rewrite Nat2Z.inj_succ, Z.pow_succ_r, IH by lia. cbn [geo]. ring.
Qed.

Lemma geo_add a n m : geo a (n + m) = a ^ Z.of_nat m * geo a n + geo a m.
Proof.
  induction n as [|n IH]; cbn [Nat.add geo]; [lia|]. rewrite IH, geo_pow. ring.
Qed.

Lemma geo_parity a n : Z.odd a = true -> Z.odd (geo a n) = Nat.odd n.
Proof.
  intros H. induction n as [|n IH]; auto. cbn [geo].
  rewrite Z.odd_add, Z.odd_mul, H, IH, Nat.odd_succ, <- Nat.negb_odd. cbn.
  destruct (Nat.odd n); reflexivity.
Qed.

Lemma pow2_odd_divide w x u : 0 <= w -> Z.odd u = true -> (2 ^ w | x * u) -> (2 ^ w | x).
Proof.
  intros W U D. apply (Gauss _ u); [rewrite Z.mul_comm; auto|].
  apply rel_prime_sym. apply Zpow_facts.rel_prime_Zpower_r; [lia|].
  apply rel_prime_sym. apply prime_rel_prime; [apply prime_2|].
  intros [k ->]. rewrite Z.mul_comm, Z.odd_mul in U. discriminate.
Qed.

(** The power of two in geo a n is the one in n. *)
Lemma geo_val k w : forall n, (2 ^ Z.of_nat w | geo (4 * k + 1) n) <-> (2 ^ Z.of_nat w | Z.of_nat n).
Proof.
  set (a := 4 * k + 1).
  assert (OA : Z.odd a = true).
  { unfold a. rewrite Z.odd_add, Z.odd_mul. reflexivity. }
  induction w as [|w IH]; intros n.
  - change (2 ^ Z.of_nat 0) with 1. split; intros _; apply Z.divide_1_l.
  - rewrite Nat2Z.inj_succ, Z.pow_succ_r by lia. destruct (Nat.odd n) eqn:ON.
    + split; intros [q E]; exfalso.
      * pose proof (geo_parity a n OA) as P. rewrite ON, E in P.
        replace (q * (2 * 2 ^ Z.of_nat w)) with (2 * (q * 2 ^ Z.of_nat w)) in P by ring.
        rewrite Z.odd_mul in P. discriminate.
      * apply Nat.odd_spec in ON. destruct ON as [m ->].
        replace (q * (2 * 2 ^ Z.of_nat w)) with (2 * (q * 2 ^ Z.of_nat w)) in E by ring. lia.
    + assert (EN : Nat.even n = true) by (rewrite <- Nat.negb_odd, ON; reflexivity).
      apply Nat.even_spec in EN. destruct EN as [m ->].
      replace (2 * m)%nat with (m + m)%nat by lia.
      assert (G : geo a (m + m) = 2 * (geo a m * (2 * (k * geo a m) + 1))).
      { rewrite geo_add, geo_pow. unfold a. ring. }
      rewrite G.
      replace (Z.of_nat (m + m)) with (2 * Z.of_nat m) by lia.
      split; intros D.
      * apply Z.mul_divide_mono_l. apply IH.
        apply Z.mul_divide_cancel_l in D; [|lia].
        apply pow2_odd_divide in D; [auto | lia |].
        rewrite Z.odd_add, Z.odd_mul. reflexivity.
      * apply Z.mul_divide_cancel_l in D; [|lia]. apply IH in D.
        apply Z.mul_divide_mono_l. apply Z.divide_mul_l. auto.
Qed.

Definition lcg_step (w a c x : Z) : Z := (x * a + c) mod 2 ^ w.

Lemma lcg_closed w a c n : 0 <= w -> forall x, 0 <= x < 2 ^ w ->
  Nat.iter n (lcg_step w a c) x = (a ^ Z.of_nat n * x + c * geo a n) mod 2 ^ w.
Proof.
  intros W x X. assert (P := pow_pos w W). induction n as [|n IH].
  - cbn [geo]. change (Nat.iter 0 (lcg_step w a c) x) with x. change (Z.of_nat 0) with 0. rewrite Z.pow_0_r.
    replace (1 * x + c * 0) with x by ring. rewrite Z.mod_small; auto.
  - rewrite iter_S, IH. unfold lcg_step.
    rewrite Zplus_mod, Zmult_mod_idemp_l, <- Zplus_mod.
    f_equal. rewrite Nat2Z.inj_succ, Z.pow_succ_r by lia. cbn [geo]. ring.
Qed.

Lemma lcg_range w a c n x : 0 <= w -> 0 <= x < 2 ^ w -> 0 <= Nat.iter n (lcg_step w a c) x < 2 ^ w.
Proof.
  intros W X. destruct n; auto. rewrite iter_S. apply Z.mod_pos_bound. apply pow_pos; auto.
Qed.

Lemma lcg_fix w k c n x : 0 <= w -> Z.odd c = true -> 0 <= x < 2 ^ w ->
  Nat.iter n (lcg_step w (4 * k + 1) c) x = x <-> (2 ^ w | Z.of_nat n).
Proof.
  intros W C X. set (a := 4 * k + 1). assert (P := pow_pos w W).
  rewrite lcg_closed by auto.
  pose proof (geo_val k (Z.to_nat w) n) as G. rewrite Z2Nat.id in G by auto. fold a in G.
  rewrite <- G. rewrite geo_pow.
  replace (((a - 1) * geo a n + 1) * x + c * geo a n) with (x + geo a n * ((a - 1) * x + c)) by ring.
  assert (U : Z.odd ((a - 1) * x + c) = true).
  { unfold a. replace ((4 * k + 1 - 1) * x) with (2 * (2 * k * x)) by ring.
    rewrite Z.odd_add, Z.odd_mul, C. reflexivity. }
  split; intros E.
  - apply (pow2_odd_divide w _ ((a - 1) * x + c)); auto.
    set (y := geo a n * ((a - 1) * x + c)) in *.
    exists ((x + y) / 2 ^ w). pose proof (Z.div_mod (x + y) (2 ^ w) ltac:(lia)). lia.
  - destruct E as [q ->]. replace (x + q * 2 ^ w * ((a - 1) * x + c)) with (x + q * ((a - 1) * x + c) * 2 ^ w) by ring.
    rewrite Z.mod_add by lia. apply Z.mod_small; auto.
Qed.

Lemma iter_add {A} (f : A -> A) n m x : Nat.iter (n + m) f x = Nat.iter n f (Nat.iter m f x).
Proof. induction n as [|n IH]; auto. cbn [Nat.add]. rewrite !iter_S. congruence. Qed.

Lemma iter_inner {A} (f : A -> A) n x : Nat.iter n f (f x) = f (Nat.iter n f x).
Proof. induction n as [|n IH]; auto. rewrite !iter_S, IH. reflexivity. Qed.

Lemma divide_mod w n m : 0 < w -> (w | m - n) <-> n mod w = m mod w.
Proof.
  intros W. split.
  - intros [q E]. replace m with (n + q * w) by lia. rewrite Z.mod_add by lia. reflexivity.
  - intros E. exists (m / w - n / w).
    pose proof (Z.div_mod n w ltac:(lia)). pose proof (Z.div_mod m w ltac:(lia)). lia.
Qed.

Lemma lcg_period w k c n m x : 0 <= w -> Z.odd c = true -> 0 <= x < 2 ^ w ->
  Nat.iter n (lcg_step w (4 * k + 1) c) x = Nat.iter m (lcg_step w (4 * k + 1) c) x <->
  Z.of_nat n mod 2 ^ w = Z.of_nat m mod 2 ^ w.
Proof.
  intros W C X. assert (P := pow_pos w W).
  assert (H : forall n m, (n <= m)%nat ->
    Nat.iter n (lcg_step w (4 * k + 1) c) x = Nat.iter m (lcg_step w (4 * k + 1) c) x <->
    Z.of_nat n mod 2 ^ w = Z.of_nat m mod 2 ^ w).
  { clear n m. intros n m L. set (F := lcg_step w (4 * k + 1) c).
    assert (Q : Nat.iter m F x = Nat.iter (m - n) F (Nat.iter n F x)).
    { rewrite <- iter_add. replace (m - n + n)%nat with m by lia. reflexivity. }
    rewrite Q.
    set (y := Nat.iter n F x).
    assert (Y : 0 <= y < 2 ^ w) by (apply lcg_range; auto).
    rewrite <- divide_mod by lia.
    rewrite <- Nat2Z.inj_sub by lia. rewrite <- (lcg_fix w k c (m - n) y) by auto.
    fold F. split; intros H; symmetry; exact H. }
  destruct (Nat.le_ge_cases n m) as [L | L]; [auto|].
  split; intros E; symmetry; apply H; auto.
Qed.

Lemma rand_lcg_step w x : fnv_width w ->
  rand_lcg w x = lcg_step w (4 * (lcg_mult w / 4) + 1) (lcg_add w) x.
Proof.
  intros W. unfold rand_lcg, lcg_step, wrap. rewrite Zplus_mod_idemp_l.
  destruct W as [-> | ->]; reflexivity.
Qed.

(** What one generator's states and outputs are. *)
Lemma sr_calls_snd w n : forall s, snd (sr_calls w n s) = Nat.iter n (rand_lcg w) s.
Proof.
  induction n as [|n IH]; intros s; auto. cbn [sr_calls sr_call].
  specialize (IH (rand_lcg w s)). destruct (sr_calls w n (rand_lcg w s)) as [xs s'].
  cbn [snd] in *. rewrite IH. clear. rewrite <- Nat.add_1_r, iter_add. reflexivity.
Qed.

Lemma iter_ext {A} (f g : A -> A) n : (forall x, f x = g x) -> forall x, Nat.iter n f x = Nat.iter n g x.
Proof. intros E. induction n as [|n IH]; intros x; auto. rewrite !iter_S, IH. auto. Qed.

Lemma lcg_width w : fnv_width w -> 0 <= w.
Proof. intros [-> | ->]; lia. Qed.

Lemma sr_make_range w seed : fnv_width w -> 0 <= sr_make w seed < 2 ^ w.
Proof. intros W. apply wrap_range. apply lcg_width; auto. Qed.

Lemma sr_period w seed n m : fnv_width w ->
  snd (sr_calls w n (sr_make w seed)) = snd (sr_calls w m (sr_make w seed)) <->
  Z.of_nat n mod 2 ^ w = Z.of_nat m mod 2 ^ w.
Proof.
  intros W. rewrite !sr_calls_snd.
  rewrite !(iter_ext _ _ _ (fun x => rand_lcg_step w x W)).
  apply lcg_period; [apply lcg_width; auto | | apply sr_make_range; auto].
  destruct W as [-> | ->]; reflexivity.
Qed.

Lemma sr_calls_fst w n : forall s i, (i < n)%nat ->
  nth_error (fst (sr_calls w n s)) i =
  Some (fnv_integer w {| signed := false; width := w |} (snd (sr_calls w (S i) s))).
Proof.
  induction n as [|n IH]; intros s i L; [lia|].
  rewrite sr_calls_snd. cbn [sr_calls sr_call].
  destruct (sr_calls w n (rand_lcg w s)) as [xs s'] eqn:E. cbn [fst].
  destruct i as [|i]; [reflexivity|]. cbn [nth_error].
  specialize (IH (rand_lcg w s) i ltac:(lia)). rewrite E in IH. cbn [fst] in IH. rewrite IH.
  rewrite sr_calls_snd. do 2 f_equal. clear.
  rewrite iter_inner, <- iter_S. reflexivity.
Qed.

Lemma sr_calls_len w n : forall s, length (fst (sr_calls w n s)) = n.
Proof.
  induction n as [|n IH]; intros s; auto. cbn [sr_calls sr_call].
  specialize (IH (rand_lcg w s)). destruct (sr_calls w n (rand_lcg w s)). cbn [fst length] in *. lia.
Qed.

(** Every output is the FNV-1a hash of the state. *)
Lemma sr_output w n s i : fnv_width w -> (i < n)%nat ->
  nth_error (fst (sr_calls w n s)) i =
  Some (fnv_ref w (le_bytes (Z.to_nat (w / 8)) (snd (sr_calls w (S i) s)))).
Proof.
  intros W L. rewrite sr_calls_fst by auto. rewrite fnv_integer_ok; auto.
  unfold std_width. cbn [width]. destruct W; auto.
Qed.

(** All states are reached: the generator is a permutation of the words. *)
Lemma lcg_back w k c x : 0 <= w -> Z.odd c = true -> 0 <= x < 2 ^ w ->
  Nat.iter (Z.to_nat (2 ^ w)) (lcg_step w (4 * k + 1) c) x = x.
Proof.
  intros W C X. apply lcg_fix; auto. rewrite Z2Nat.id by lia. apply Z.divide_refl.
Qed.

Lemma sr_seeds w a b n : fnv_width w -> 0 <= a < 2 ^ w -> 0 <= b < 2 ^ w ->
  snd (sr_calls w n (sr_make w a)) = snd (sr_calls w n (sr_make w b)) -> a = b.
Proof.
  intros W A B E. rewrite !sr_calls_snd in E. unfold sr_make in E.
  assert (S : forall x, Nat.iter n (rand_lcg w) (rand_lcg w x) = Nat.iter (S n) (rand_lcg w) x).
  { intros x. rewrite <- Nat.add_1_r, iter_add. reflexivity. }
  rewrite !S in E. clear S. revert E. generalize (S n). intros m E.
  rewrite !(iter_ext _ _ _ (fun x => rand_lcg_step w x W)) in E.
  set (f := lcg_step w (4 * (lcg_mult w / 4) + 1) (lcg_add w)) in E.
  assert (C : Z.odd (lcg_add w) = true) by (destruct W as [-> | ->]; reflexivity).
  pose proof (lcg_width w W) as W0.
  assert (J : forall x y, 0 <= x < 2 ^ w -> 0 <= y < 2 ^ w -> f x = f y -> x = y).
  { intros x y X Y F.
    rewrite <- (lcg_back w (lcg_mult w / 4) (lcg_add w) x W0 C X).
    rewrite <- (lcg_back w (lcg_mult w / 4) (lcg_add w) y W0 C Y).
    fold f. assert (PP := pow_pos w W0).
    replace (Z.to_nat (2 ^ w)) with (Z.to_nat (2 ^ w - 1) + 1)%nat by lia.
    rewrite !iter_add. change (Nat.iter 1 f x) with (f x). change (Nat.iter 1 f y) with (f y). rewrite F. reflexivity. }
  induction m as [|m IH]; auto. rewrite !iter_S in E. apply IH. apply J; auto; apply lcg_range; auto.
Qed.

(** *** random_fill, make_random_data, RandomInteger *)

Lemma fill_loop_ok T a b : 0 < width T -> forall n ds, a <= b -> fits T a -> fits T b ->
  all_between a b ds -> (n <= length ds)%nat ->
  fill_loop T a b n ds = Ok (firstn n ds).
Proof.
  intros WT. induction n as [|n IH]; intros ds L FA FB D H; auto.
  destruct ds as [|d ds]; [cbn [length] in H; lia|]. cbn [fill_loop firstn].
  unfold randint. destruct (Z.leb_spec a b); [|lia]. cbn [bind].
  inversion_clear D. rewrite IH by (auto; cbn [length] in H; lia). cbn [bind].
  rewrite conv_id; auto. unfold fits in *. lia.
Qed.

Lemma make_data_ok T n a b ds : 0 < width T -> fits T a -> fits T b -> all_between a b ds -> (n <= length ds)%nat ->
  make_random_data T n a b ds = if a <=? b then Ok (firstn n ds) else Throw.
Proof.
  intros WT FA FB D H. unfold make_random_data, random_fill.
  destruct (Z.leb_spec a b); auto. apply fill_loop_ok; auto.
Qed.

Lemma make_data_range T n a b ds : 0 < width T -> a <= b -> fits T a -> fits T b -> all_between a b ds -> (n <= length ds)%nat ->
  exists l, make_random_data T n a b ds = Ok l /\ length l = n /\ all_between a b l.
Proof.
  intros WT L FA FB D H. exists (firstn n ds). rewrite make_data_ok by auto.
  destruct (Z.leb_spec a b); [|lia]. split; [reflexivity|]. split.
  - rewrite firstn_length. lia.
  - unfold all_between in *. apply Forall_forall. intros x I. rewrite Forall_forall in D.
    apply D. rewrite <- (firstn_skipn n ds). apply in_or_app. auto.
Qed.

(** Narrowing to the element type after drawing. *)
Lemma random_fill_ok T a b n ds : 0 < width T -> fits T a -> fits T b -> all_between a b ds -> (n <= length ds)%nat ->
  random_fill T a b n ds = if a <=? b then Ok (firstn n ds) else Throw.
Proof.
  intros WT FA FB D H. unfold random_fill. destruct (Z.leb_spec a b); auto. apply fill_loop_ok; auto.
Qed.

Lemma wrong_bounds T n a b ds d : b < a ->
  make_random_data T n a b ds = Throw /\ random_fill T a b n ds = Throw /\ randint a b d = Throw.
Proof.
  intros L. unfold make_random_data, random_fill, randint. destruct (Z.leb_spec a b); [lia | auto].
Qed.

Lemma random_integer_ok max min d : min < max -> random_integer max min d = Ok d.
Proof. intros L. unfold random_integer. destruct (Z.ltb_spec min max); [auto | lia]. Qed.

Lemma random_integer_equal v d : random_integer v v d = Throw /\ randint v v d = Ok d.
Proof. unfold random_integer, randint. rewrite Z.ltb_irrefl, Z.leb_refl. auto. Qed.
