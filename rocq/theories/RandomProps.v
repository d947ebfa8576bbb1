(** Properties C96-C98: daw_random.h. *)
From Verif Require Import Common Ints SpecBits SpecHash Hash SpecRandom Random RandomProofs.
Open Scope Z_scope.

(** * C96: shuffle. *)
(** Whatever positions are drawn, the result has the same elements. *)
Theorem C96_permutation : forall (A : Type) ds (l : list A), choices (length l - 1) ds ->
  exists l', shuffle ds l = Ok l' /\ Permutation l l'.
Proof. exact (fun A => @shuffle_perm A). Qed.
Print Assumptions C96_permutation.
(** Every arrangement can come out. *)
Theorem C96_every_arrangement : forall (A : Type) (l l' : list A), Permutation l l' ->
  exists ds, choices (length l - 1) ds /\ shuffle ds l = Ok l'.
Proof. exact (fun A => @shuffle_every A). Qed.
Print Assumptions C96_every_arrangement.
(** The n! possible sequences of draws give the n! arrangements of n different
    elements, each exactly once: with independent uniform draws all arrangements
    are equally likely. *)
Theorem C96_uniform : forall (A : Type) (l : list A), NoDup l ->
  let outcomes := map (fun ds => shuffle ds l) (all_choices (length l - 1)) in
  length outcomes = fact (length l) /\ NoDup outcomes /\
  (forall l', In (Ok l') outcomes <-> Permutation l l') /\
  (forall r, In r outcomes -> exists l', r = Ok l').
Proof. exact (fun A => @shuffle_uniform A). Qed.
Print Assumptions C96_uniform.
(** [all_choices] lists the sequences of draws. *)
Theorem C96_all_choices i ds : choices i ds <-> In ds (all_choices i).
Proof. exact (all_choices_in i ds). Qed.
Print Assumptions C96_all_choices.
Example C96_nontrivial : choices 2 [0; 1]%nat /\ shuffle [0; 1]%nat [10; 20; 30] = Ok [30; 20; 10] /\
  map (fun ds => shuffle ds [1; 2; 3]) (all_choices 2) =
  [Ok [2; 3; 1]; Ok [3; 2; 1]; Ok [3; 1; 2]; Ok [1; 3; 2]; Ok [2; 1; 3]; Ok [1; 2; 3]].
Proof. cbn. repeat split; lia. Qed.

(** * C97: static_random.  [w] is the number of bits of size_t, 32 or 64.  The
    states after n and m calls are equal exactly when n and m are equal modulo
    2^w: the generator goes through all 2^w states before it repeats. *)
Theorem C97_full_period w seed n m : fnv_width w ->
  snd (sr_calls w n (sr_make w seed)) = snd (sr_calls w m (sr_make w seed)) <->
  Z.of_nat n mod 2 ^ w = Z.of_nat m mod 2 ^ w.
Proof. exact (sr_period w seed n m). Qed.
Print Assumptions C97_full_period.
(** Each value returned is the FNV-1a hash of the state's bytes. *)
Theorem C97_output w n s i : fnv_width w -> (i < n)%nat ->
  nth_error (fst (sr_calls w n s)) i =
  Some (fnv_ref w (le_bytes (Z.to_nat (w / 8)) (snd (sr_calls w (S i) s)))).
Proof. exact (sr_output w n s i). Qed.
Print Assumptions C97_output.
(** Generators with different seeds are never in the same state after the same
    number of calls. *)
Theorem C97_seeds w a b n : fnv_width w -> 0 <= a < 2 ^ w -> 0 <= b < 2 ^ w ->
  snd (sr_calls w n (sr_make w a)) = snd (sr_calls w n (sr_make w b)) -> a = b.
Proof. exact (sr_seeds w a b n). Qed.
Print Assumptions C97_seeds.
Example C97_nontrivial : sr_make 64 1 = 2862933558814942250 /\
  snd (sr_calls 32 2 (sr_make 32 7)) = ((((7 * 1664525 + 1013904223) * 1664525 + 1013904223) * 1664525) + 1013904223) mod 2 ^ 32 /\
  length (fst (sr_calls 64 3 (sr_make 64 7))) = 3%nat.
Proof. vm_compute. auto. Qed.

(** * C98: random values lie between their bounds.  [ds] are values the standard
    distribution returned, which lie between the bounds it was given. *)
Theorem C98_make_random_data T n a b ds : 0 < width T -> a <= b -> fits T a -> fits T b ->
  all_between a b ds -> (n <= length ds)%nat ->
  exists l, make_random_data T n a b ds = Ok l /\ length l = n /\ all_between a b l.
Proof. exact (make_data_range T n a b ds). Qed.
Print Assumptions C98_make_random_data.
(** Bounds the wrong way round are reported. *)
Theorem C98_reports T n a b ds d : b < a ->
  make_random_data T n a b ds = Throw /\ random_fill T a b n ds = Throw /\ randint a b d = Throw.
Proof. exact (wrong_bounds T n a b ds d). Qed.
Print Assumptions C98_reports.
(** Missing from C98: RandomInteger with equal bounds.  It throws, although both
    bounds are documented as inclusive and the request is for a single value. *)
Theorem C98_random_integer_partial max min d : min < max -> random_integer max min d = Ok d.
Proof. exact (random_integer_ok max min d). Qed.
Print Assumptions C98_random_integer_partial.
Theorem C98_random_integer_refuted v d : random_integer v v d = Throw /\ randint v v d = Ok d.
Proof. exact (random_integer_equal v d). Qed.
Print Assumptions C98_random_integer_refuted.
Example C98_nontrivial : make_random_data u8 3 1 6 [4; 6; 1; 1] = Ok [4; 6; 1] /\ fits u8 1 /\ fits u8 6 /\
  all_between 1 6 [4; 6; 1; 1] /\ random_integer 6 1 4 = Ok 4.
Proof. cbn. unfold fits, all_between, lowest, highest. cbn. repeat split; try lia; repeat constructor; lia. Qed.
