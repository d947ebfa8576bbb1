(** Proofs about contracts, reading files, bound functions, named parameters, factories and tuple2_cat. *)
From Coq Require Import Permutation Lia.
From Verif Require Import Common CommonProofs Ints CallTools SpecCallTools.
Open Scope Z_scope.
Local Arguments Z.pow : simpl never.

(** * Contracts *)
Section Contract.
  Context {T : Type}.
  Lemma validate_meets (pre : list (T -> bool)) v : validate pre v = true <-> meets v pre.
  Proof. unfold validate, meets. rewrite forallb_forall, Forall_forall. reflexivity. Qed.
  Lemma validate_not (pre : list (T -> bool)) v : ~ meets v pre -> validate pre v = false.
  Proof. rewrite <- validate_meets. destruct (validate pre v); congruence. Qed.
  Lemma meets_dec (pre : list (T -> bool)) v : meets v pre \/ ~ meets v pre.
  Proof. rewrite <- validate_meets. destruct (validate pre v); [left|right]; congruence. Qed.
  Lemma stages_first (us : list (use T)) : forall pre, exists l, stages pre us = pre :: l.
  Proof. induction us as [|[|ps|ps] us IH]; intros pre; cbn; [eexists; reflexivity|apply IH|eexists; reflexivity..]. Qed.
  Lemma final_cons pre ps (us : list (use T)) : List.last (pre :: stages ps us) [] = List.last (stages ps us) [].
  Proof. destruct (stages_first us ps) as [l ->]. reflexivity. Qed.
  Lemma use_all_ok h (us : list (use T)) v : forall pre, Forall (meets v) (stages pre us) -> use_all h pre v us = Ok (final_conditions pre us, v).
  Proof.
    unfold final_conditions. induction us as [|[|ps|ps] us IH]; intros pre F; cbn [use_all stages] in *; [reflexivity|..].
    - destruct (stages_first us pre) as [l E]. assert (M : meets v pre) by (rewrite E in F; inversion F; auto).
      cbn [use_contract]. unfold access. apply validate_meets in M. rewrite M. cbn [bind fst snd]. apply IH. exact F.
    - inversion F as [|? ? M F']; subst. destruct (stages_first us ps) as [l E]. assert (M2 : meets v ps) by (rewrite E in F'; inversion F'; auto).
      apply validate_meets in M, M2. cbn [use_contract]. unfold construct. rewrite M, M2. cbn [negb bind fst snd]. rewrite final_cons. apply IH. exact F'.
    - inversion F as [|? ? M F']; subst. destruct (stages_first us (pre ++ ps)) as [l E]. assert (M2 : meets v (pre ++ ps)) by (rewrite E in F'; inversion F'; auto).
      apply validate_meets in M, M2. cbn [use_contract]. unfold construct. rewrite M, M2. cbn [negb bind fst snd]. rewrite final_cons. apply IH. exact F'.
  Qed.
  Lemma use_all_fails (us : list (use T)) v : forall pre, meets v pre -> ~ Forall (meets v) (stages pre us) -> use_all Fails pre v us = Throw.
  Proof.
    induction us as [|[|ps|ps] us IH]; intros pre M F; cbn [use_all stages] in *.
    - exfalso. apply F. constructor; auto.
    - apply validate_meets in M. cbn [use_contract]. unfold access. rewrite M. cbn [bind fst snd]. apply IH; auto. apply validate_meets; auto.
    - cbn [use_contract]. rewrite (proj2 (validate_meets pre v) M). unfold construct. destruct (meets_dec ps v) as [M2|M2].
      + rewrite (proj2 (validate_meets ps v) M2). cbn [negb bind fst snd]. apply IH; auto.
      + rewrite (validate_not ps v M2). reflexivity.
    - cbn [use_contract]. rewrite (proj2 (validate_meets pre v) M). unfold construct. destruct (meets_dec (pre ++ ps) v) as [M2|M2].
      + rewrite (proj2 (validate_meets _ v) M2). cbn [negb bind fst snd]. apply IH; auto.
      + rewrite (validate_not _ v M2). reflexivity.
  Qed.
  Lemma use_all_returns (us : list (use T)) u v : forall pre, ~ Forall (meets v) (stages pre us) -> use_all Returns pre v (us ++ [u]) = UB.
  Proof.
    assert (K : forall pre u us, ~ meets v pre -> use_all Returns pre v (u :: us) = UB).
    { intros pre u' us' M. cbn [use_all]. apply validate_not in M. destruct u'; cbn [use_contract]; unfold access; rewrite M; reflexivity. }
    induction us as [|[|ps|ps] us IH]; intros pre F.
    - apply K. intros M. apply F. constructor; auto.
    - destruct (meets_dec pre v) as [M|M]; [|apply K; exact M]. cbn [app use_all use_contract stages] in *. unfold access. rewrite (proj2 (validate_meets _ v) M). cbn [bind fst snd]. auto.
    - destruct (meets_dec pre v) as [M|M]; [|apply K; exact M]. cbn [app use_all use_contract stages] in *. unfold construct.
      rewrite (proj2 (validate_meets _ v) M). destruct (negb (validate ps v)); cbn [bind fst snd]; auto.
    - destruct (meets_dec pre v) as [M|M]; [|apply K; exact M]. cbn [app use_all use_contract stages] in *. unfold construct.
      rewrite (proj2 (validate_meets _ v) M). destruct (negb (validate (pre ++ ps) v)); cbn [bind fst snd]; auto.
  Qed.
End Contract.

(** * Reading files *)
Lemma chars_of_bytes : forall l, chars_of 1 (length l) l = l.
Proof. induction l as [|x l IH]; [reflexivity|]. cbn. f_equal; [lia|exact IH]. Qed.
Lemma read_chars max n bytes : (0 < n)%nat -> Z.of_nat n <= max ->
  read_file 1 max (File (Some n) true bytes) = if (n <=? length bytes)%nat then (Some (firstn n bytes), 1%nat) else (None, 1%nat).
Proof.
  intros Hn Hm. unfold read_file, fread. cbn [f_size f_opens f_bytes negb].
  destruct (Nat.eqb_spec n 0); [lia|]. destruct (Z.ltb_spec max (Z.of_nat n)); [lia|].
  rewrite !Nat.div_1_r, Nat.mul_1_r. destruct (Nat.leb_spec n (length bytes)).
  - rewrite Nat.min_l, Nat.eqb_refl by lia. cbn [negb]. f_equal. f_equal.
    assert (L : length (firstn n bytes) = n) by (rewrite firstn_length; lia).
    rewrite firstn_app, L, Nat.sub_diag. cbn [firstn]. rewrite app_nil_r, firstn_firstn, Nat.min_id.
    transitivity (chars_of 1 (length (firstn n bytes)) (firstn n bytes)); [rewrite L; reflexivity|apply chars_of_bytes].
  - rewrite Nat.min_r by lia. destruct (Nat.eqb_spec (length bytes) n); [lia|]. reflexivity.
Qed.
Lemma chars_of_app w : forall k m a b, length a = (k * w)%nat -> chars_of w (k + m) (a ++ b) = chars_of w k a ++ chars_of w m b.
Proof.
  induction k as [|k IH]; intros m a b L.
  - destruct a; [reflexivity|discriminate].
  - cbn [Nat.add chars_of app]. cbn [Nat.mul] in L. rewrite firstn_app, skipn_app.
    replace (w - length a)%nat with 0%nat by lia. cbn [firstn skipn]. rewrite app_nil_r. f_equal. apply IH. rewrite skipn_length. lia.
Qed.
Lemma char_of_zeros k : char_of (repeat 0 k) = 0.
Proof. unfold char_of. induction k as [|k IH]; [reflexivity|]. cbn [repeat fold_right]. rewrite IH. reflexivity. Qed.
Lemma firstn_repeat {A} (x : A) : forall a k, firstn a (repeat x k) = repeat x (Nat.min a k).
Proof. induction a as [|a IH]; intros [|k]; cbn; [reflexivity..|]. f_equal. apply IH. Qed.
Lemma skipn_repeat {A} (x : A) : forall a k, skipn a (repeat x k) = repeat x (k - a).
Proof. induction a as [|a IH]; intros [|k]; cbn; [reflexivity..|]. apply IH. Qed.
Lemma chars_of_zeros w : forall m k, chars_of w m (repeat 0 k) = repeat 0 m.
Proof. induction m as [|m IH]; intros k; [reflexivity|]. cbn [chars_of repeat]. rewrite firstn_repeat, char_of_zeros, skipn_repeat, IH. reflexivity. Qed.
Lemma read_wide w max k bytes : (0 < w)%nat -> (0 < k)%nat -> length bytes = (k * w)%nat -> Z.of_nat (k * w) <= max ->
  read_file w max (File (Some (k * w)%nat) true bytes) = (Some (chars_of w k bytes ++ repeat 0 (k * w - k)), 1%nat).
Proof.
  intros Hw Hk L Hm. unfold read_file, fread. cbn [f_size f_opens f_bytes negb].
  destruct (Nat.eqb_spec (k * w) 0); [nia|]. destruct (Z.ltb_spec max (Z.of_nat (k * w))); [lia|].
  rewrite L, Nat.div_mul by lia. rewrite Nat.min_r by nia. rewrite Nat.eqb_refl. cbn [negb]. f_equal. f_equal.
  assert (E : firstn (k * w * w) bytes = bytes) by (apply firstn_all2; nia).
  rewrite E, firstn_app, E, L, firstn_repeat. rewrite Nat.min_l by nia.
  replace (chars_of w (k * w)) with (chars_of w (k + (k * w - k))) by (f_equal; nia).
  rewrite chars_of_app by exact L. rewrite chars_of_zeros. reflexivity.
Qed.

(** * Bound functions *)
Lemma gets_seq {A} (args : list A) : forall k start, (start + k <= length args)%nat ->
  gets args (map (fun i => (start + i)%nat) (seq 0 k)) = Some (firstn k (skipn start args)).
Proof.
  assert (G : forall k start i, (start + i + k <= length args)%nat ->
    gets args (map (fun i => (start + i)%nat) (seq i k)) = Some (firstn k (skipn (start + i) args))).
  { induction k as [|k IH]; intros start i H; [reflexivity|]. cbn [seq map gets].
    destruct (nth_error_ex args (start + i)) as [x E]; [lia|]. rewrite E, IH by lia.
    assert (E2 : skipn (start + i) args = x :: skipn (start + S i) args).
    { replace (start + S i)%nat with (S (start + i)) by lia. revert E. generalize (start + i)%nat as n. clear. induction args as [|y args IH]; intros [|n] E; cbn in *; try discriminate; [congruence|auto]. }
    rewrite E2. reflexivity. }
  intros k start H. rewrite G by lia. rewrite Nat.add_0_r. reflexivity.
Qed.
Lemma bound_call_ok {A R S} n (func : S -> list A -> res (S * R)) bound s args : (n <= length args)%nat ->
  bound_call n func bound s args = Some (func s (inserted n bound args)).
Proof.
  intros H. unfold bound_call, split_args. rewrite (proj2 (Nat.leb_le _ _) H), Nat.leb_refl, !gets_seq by lia.
  rewrite Nat.sub_0_r. cbn [skipn]. rewrite (firstn_all2 (n := length args - n)) by (rewrite skipn_length; lia). reflexivity.
Qed.
Lemma bound_calls_ok {A R S} n (func : S -> list A -> res (S * R)) bound : forall calls s, Forall (fun args => (n <= length args)%nat) calls ->
  bound_calls n func bound s calls = Some (direct_calls func s (map (inserted n bound) calls)).
Proof.
  induction calls as [|args calls IH]; intros s F; [reflexivity|]. inversion F; subst. cbn [bound_calls map direct_calls].
  rewrite bound_call_ok by auto. destruct (func s (inserted n bound args)) as [[s' r]| | |]; try reflexivity. cbn [bind fst snd].
  rewrite IH by auto. destruct (direct_calls func s' (map (inserted n bound) calls)) as [[s2 rs]| | |]; reflexivity.
Qed.

(** * Named parameters *)
Section Opts.
  Context {V : Type}.
  Lemma filter_none (f : option_arg V -> bool) l : (forall o, In o l -> f o = false) -> filter f l = [].
  Proof. induction l as [|x l IH]; intros H; [reflexivity|]. cbn. rewrite (H x (or_introl eq_refl)). apply IH. intros o I. apply H. right; auto. Qed.
  Lemma less_unique (a : option_arg V) opts : NoDup (map o_type opts) -> less_than_one_match a opts = true.
  Proof.
    unfold less_than_one_match. intros N. apply Nat.leb_le. induction opts as [|o opts IH]; [cbn; lia|]. cbn [map] in N. inversion N as [|? ? N1 N2]; subst.
    cbn [filter]. destruct (same_pack_type a o) eqn:E; [|auto]. rewrite filter_none; [cbn; lia|]. intros o' I.
    unfold same_pack_type in *. apply andb_prop in E. destruct E as [E _]. apply Nat.eqb_eq in E.
    destruct (Nat.eqb_spec (o_type a) (o_type o')) as [E'|E']; [|reflexivity]. exfalso. apply N1. rewrite <- E, E'. apply in_map. exact I.
  Qed.
  Lemma is_unique_ok (opts : list (option_arg V)) : NoDup (map o_type opts) -> is_unique opts = true.
  Proof. intros N. unfold is_unique. apply forallb_forall. intros a _. apply less_unique. exact N. Qed.
  Lemma get_opt_loop_ok (def : option_arg V) opts v : NoDup (map o_type opts) -> option_value def opts v <-> v = get_opt_loop def opts.
  Proof.
    induction opts as [|o opts IH]; intros N; cbn [get_opt_loop].
    - split; [intros [(o & [] & _)|[_ E]]; exact E|]. intros E. right. split; [intros o []|exact E].
    - cbn [map] in N. inversion N as [|? ? N1 N2]; subst. specialize (IH N2). destruct (Nat.eqb_spec (o_type def) (o_type o)) as [E|E].
      + split.
        * intros [(o' & [<- | I] & T & ->)|[H _]]; [reflexivity| |].
          -- exfalso. apply N1. rewrite <- E, <- T. apply in_map. exact I.
          -- exfalso. apply (H o (or_introl eq_refl)). auto.
        * intros ->. left. exists o. repeat split; auto. left; auto.
      + rewrite <- IH. split.
        * intros [(o' & [<- | I] & T & ->)|[H ->]]; [congruence| |].
          -- left. exists o'. auto.
          -- right. split; [|reflexivity]. intros o' I. apply H. right; auto.
        * intros [(o' & I & T & ->)|[H ->]].
          -- left. exists o'. split; [right; exact I|auto].
          -- right. split; [|reflexivity]. intros o' [<- | I]; auto.
  Qed.
End Opts.

(** * Factories *)
Section Factory.
  Context {V S : Type}.
  Lemma map_seq_upd {A} (g : nat -> A) (x : A) j : forall n i, (i <= j < i + n)%nat -> upd (map g (seq i n)) (j - i) x = map (fun k => if (k =? j)%nat then x else g k) (seq i n).
  Proof.
    induction n as [|n IH]; intros i H; [lia|]. cbn [seq map]. destruct (Nat.eq_dec i j) as [<-|N].
    - rewrite Nat.sub_diag, Nat.eqb_refl. cbn [upd]. f_equal. apply map_ext_in. intros k I. apply in_seq in I. destruct (Nat.eqb_spec k i); [lia|reflexivity].
    - replace (j - i)%nat with (Datatypes.S (j - Datatypes.S i)) by lia. cbn [upd]. destruct (Nat.eqb_spec i j); [lia|]. f_equal. apply IH. lia.
  Qed.
  Lemma set_tuple_find (m : slots V S) v s : forall more i j, (i <= j < i + more)%nat -> set_tuple more i j m v s =
    match v with
    | GivenValue v => Ok (upd m j (Some (Value v)), s)
    | GivenFunction f => r <- f s;; Ok (upd m j (Some (Value (fst r))), snd r)
    | GivenOther => Ok (m, s)
    end.
  Proof.
    induction more as [|more IH]; intros i j H; [lia|]. cbn [set_tuple]. destruct (Nat.eqb_spec i j) as [->|N]; cbn [negb]; [reflexivity|]. apply IH. lia.
  Qed.
  Lemma set_tuple_range (m : slots V S) v s : forall more i j, (i + more <= j)%nat -> set_tuple more i j m v s = Throw.
  Proof. induction more as [|more IH]; intros i j H; [reflexivity|]. cbn [set_tuple]. destruct (Nat.eqb_spec i j); [lia|]. apply IH. lia. Qed.
  Lemma factory_settings n s ops : forall g : nat -> option (slot V S), Forall (setting n) ops ->
    factory_run (map g (seq 0 n)) s ops = Ok (map (fun i => latest i ops (g i)) (seq 0 n), s, []).
  Proof.
    induction ops as [|op ops IH]; intros g F; [reflexivity|]. inversion F as [|? ? H F']; subst. cbn [factory_run].
    assert (L : length (map g (seq 0 n)) = n) by (rewrite map_length, seq_length; reflexivity).
    assert (U : forall j x, (j < n)%nat -> upd (map g (seq 0 n)) j x = map (fun k => if (k =? j)%nat then x else g k) (seq 0 n)).
    { intros j x Hj. pose proof (map_seq_upd g x j n 0) as E. rewrite Nat.sub_0_r in E. apply E. lia. }
    destruct op as [j v|j f|j [v|f|]|]; cbn [setting] in H; try contradiction; cbn [factory_step]; rewrite ?L, ?(proj2 (Nat.ltb_lt _ _) H);
      unfold set_at, set_function_at, set_index; rewrite ?set_tuple_find by lia; cbn [bind fst snd]; rewrite ?(U _ _ H), IH by auto; cbn [bind fst snd app]; reflexivity.
  Qed.
  Lemma factory_empty n : @factory V S n = map (fun _ => None) (seq 0 n).
  Proof. unfold factory. generalize 0%nat. induction n as [|n IH]; intros i; [reflexivity|]. cbn. f_equal. apply IH. Qed.
  Lemma make_ok (g : nat -> option (slot V S)) i n s vs s' : arguments g i n s vs s' -> make (map g (seq i n)) s = Ok (vs, s').
  Proof.
    induction 1 as [i s|i n s v vs s' E _ IH|i n s f v s1 vs s' E Ef _ IH]; [reflexivity|..]; cbn [seq map make]; rewrite E.
    - rewrite IH. reflexivity.
    - rewrite Ef. cbn [bind fst snd]. rewrite IH. reflexivity.
  Qed.
  Lemma make_unset (g : nat -> option (slot V S)) i n s vs s' m : arguments g i n s vs s' -> g (i + n)%nat = None -> make (map g (seq i (n + Datatypes.S m))) s = UB.
  Proof.
    induction 1 as [i s|i n s v vs s' E _ IH|i n s f v s1 vs s' E Ef _ IH]; intros N; cbn [Nat.add seq map make].
    - rewrite Nat.add_0_r in N. rewrite N. reflexivity.
    - rewrite E, IH by (rewrite <- N; f_equal; lia). reflexivity.
    - rewrite E, Ef. cbn [bind fst snd]. rewrite IH by (rewrite <- N; f_equal; lia). reflexivity.
  Qed.
  Lemma factory_run_app (ops1 ops2 : list (factory_op V S)) : forall m s, factory_run m s (ops1 ++ ops2) =
    r <- factory_run m s ops1;; q <- factory_run (fst (fst r)) (snd (fst r)) ops2;; Ok (fst q, snd r ++ snd q).
  Proof.
    induction ops1 as [|op ops1 IH]; intros m s; cbn [app factory_run].
    - cbn [bind fst snd app]. destruct (factory_run m s ops2) as [[[? ?] ?]| | |]; reflexivity.
    - destruct (factory_step m s op) as [[[m1 s1] o1]| | |]; try reflexivity. cbn [bind fst snd]. rewrite IH.
      destruct (factory_run m1 s1 ops1) as [[[m2 s2] o2]| | |]; try reflexivity. cbn [bind fst snd].
      destruct (factory_run m2 s2 ops2) as [[[m3 s3] o3]| | |]; try reflexivity. cbn [bind fst snd]. rewrite app_assoc. reflexivity.
  Qed.
  Lemma factory_make n (ops : list (factory_op V S)) s vs s' : Forall (setting n) ops -> arguments (fun i => latest i ops None) 0 n s vs s' ->
    exists m, factory_run (factory n) s (ops ++ [Make]) = Ok (m, s', [vs]) /\ factory_run (factory n) s ops = Ok (m, s, []).
  Proof.
    intros F A. rewrite factory_run_app, factory_empty, factory_settings by auto. eexists. split; [|reflexivity].
    cbn [bind fst snd factory_run factory_step app]. rewrite (make_ok _ _ _ _ _ _ A). reflexivity.
  Qed.
  Lemma factory_unset n (ops : list (factory_op V S)) s i vs s' : Forall (setting n) ops -> (i < n)%nat -> arguments (fun i => latest i ops None) 0 i s vs s' ->
    latest i ops None = None -> factory_run (factory n) s (ops ++ [Make]) = UB.
  Proof.
    intros F Hi A N. rewrite factory_run_app, factory_empty, factory_settings by auto. cbn [bind fst snd factory_run factory_step].
    replace n with (i + Datatypes.S (n - i - 1))%nat by lia. rewrite (make_unset _ _ _ _ _ _ _ A N). reflexivity.
  Qed.
End Factory.

(** * tuple2_cat *)
Lemma encode_eq o i : 0 <= o < 2 ^ 32 -> 0 <= i < 2 ^ 32 -> encode_location o i = o * 2 ^ 32 + i.
Proof.
  intros Ho Hi. unfold encode_location. rewrite Z.shiftl_mul_pow2 by lia. rewrite Z.mod_small by (change (2 ^ 64) with (2 ^ 32 * 2 ^ 32); nia).
  rewrite <- (Z.shiftl_mul_pow2 o 32) by lia.
  assert (L : Z.land (Z.shiftl o 32) i = 0).
  { apply Z.bits_inj'. intros k Hk. rewrite Z.land_spec, Z.bits_0. destruct (Z.lt_ge_cases k 32).
    - rewrite Z.shiftl_spec_low by lia. reflexivity.
    - rewrite andb_comm. assert (B : Z.testbit i k = false); [|rewrite B; reflexivity].
      destruct (Z.eq_dec i 0) as [->|]; [apply Z.bits_0|]. apply Z.bits_above_log2; [lia|]. apply Z.log2_lt_pow2; [lia|].
      apply Z.lt_le_trans with (2 ^ 32); [lia|]. apply Z.pow_le_mono_r; lia. }
  rewrite <- Z.lxor_lor, <- Z.add_nocarry_lxor by exact L. rewrite Z.shiftl_mul_pow2 by lia. reflexivity.
Qed.
Lemma decode_encode {A} (tps : list (list A)) o i : Z.of_nat o < 2 ^ 32 -> Z.of_nat i < 2 ^ 32 ->
  decode_get (encode_location (Z.of_nat o) (Z.of_nat i)) tps = match nth_error tps o with Some tp => nth_error tp i | None => None end.
Proof.
  intros Ho Hi. unfold decode_get. rewrite encode_eq by lia.
  rewrite !Z.shiftr_div_pow2, !Z.shiftl_mul_pow2 by lia.
  assert (E1 : (Z.of_nat o * 2 ^ 32 + Z.of_nat i) / 2 ^ 32 = Z.of_nat o) by (rewrite Z.div_add_l by lia; rewrite Z.div_small by lia; lia).
  assert (E2 : (Z.of_nat o * 2 ^ 32 + Z.of_nat i) * 2 ^ 32 mod 2 ^ 64 / 2 ^ 32 = Z.of_nat i).
  { replace ((Z.of_nat o * 2 ^ 32 + Z.of_nat i) * 2 ^ 32) with (Z.of_nat i * 2 ^ 32 + Z.of_nat o * 2 ^ 64) by (change (2 ^ 64) with (2 ^ 32 * 2 ^ 32); ring).
    rewrite Z.mod_add by lia. rewrite Z.mod_small by (change (2 ^ 64) with (2 ^ 32 * 2 ^ 32); nia). apply Z.div_mul. lia. }
  rewrite E1, E2, !Nat2Z.id. reflexivity.
Qed.
Lemma decode_app {A} (tps : list (list A)) l1 l2 a b : decode_all l1 tps = Some a -> decode_all l2 tps = Some b -> decode_all (l1 ++ l2) tps = Some (a ++ b).
Proof.
  revert a. induction l1 as [|x l1 IH]; intros a Ha Hb; cbn [decode_all app] in *.
  - injection Ha as <-. exact Hb.
  - destruct (decode_get x tps) as [y|]; [|discriminate]. destruct (decode_all l1 tps) as [r|]; [|discriminate]. injection Ha as <-.
    rewrite (IH r eq_refl Hb). reflexivity.
Qed.
Lemma decode_inner {A} (tps : list (list A)) o done : Z.of_nat o < 2 ^ 32 ->
  forall todo, nth_error tps o = Some (done ++ todo) -> Z.of_nat (length (done ++ todo)) <= 2 ^ 32 ->
  decode_all (inner_locations (length todo) (Z.of_nat o) (Z.of_nat (length done))) tps = Some todo.
Proof.
  intros Ho todo. revert done. induction todo as [|x todo IH]; intros done E L; [reflexivity|]. cbn [length inner_locations decode_all].
  rewrite app_length in L. cbn [length] in L. rewrite decode_encode by lia. rewrite E, nth_error_app2, Nat.sub_diag by lia. cbn [nth_error].
  specialize (IH (done ++ [x])). rewrite <- app_assoc in IH. cbn [app] in IH.
  replace (Z.of_nat (length done) + 1) with (Z.of_nat (length (done ++ [x]))) by (rewrite app_length; cbn [length]; lia). rewrite IH; auto. rewrite app_length. cbn [length]. lia.
Qed.
Lemma cat_ok {A} (todo : list (list A)) : forall done, Z.of_nat (length (done ++ todo)) <= 2 ^ 32 -> Forall (fun t => Z.of_nat (length t) <= 2 ^ 32) todo ->
  decode_all (cartesian_product (map (@length A) todo) (Z.of_nat (length done))) (done ++ todo) = Some (concat todo).
Proof.
  induction todo as [|t todo IH]; intros done L F; [reflexivity|]. inversion F as [|? ? Ht F']; subst. cbn [map cartesian_product concat].
  rewrite app_length in L. cbn [length] in L. apply decode_app.
  - apply (decode_inner (done ++ t :: todo) (length done) [] ltac:(lia) t); [|exact Ht]. rewrite nth_error_app2, Nat.sub_diag by lia. reflexivity.
  - specialize (IH (done ++ [t])). rewrite <- app_assoc in IH. cbn [app] in IH.
    replace (Z.of_nat (length done) + 1) with (Z.of_nat (length (done ++ [t]))) by (rewrite app_length; cbn [length]; lia). apply IH; auto. rewrite app_length. cbn [length]. lia.
Qed.
Lemma tuple2_cat_ok {A} (tps : list (list A)) : (length tps <> 1)%nat -> Z.of_nat (length tps) <= 2 ^ 32 -> Forall (fun t => Z.of_nat (length t) <= 2 ^ 32) tps ->
  tuple2_cat tps = Some (concat tps).
Proof.
  intros N L F. destruct tps as [|t [|u tps]]; [reflexivity|cbn in N; lia|]. unfold tuple2_cat. apply (cat_ok (t :: u :: tps) []); auto.
Qed.

(** * The statements of the properties *)

Lemma repeated_unique {V} t c c' (x y : V) rest : c <> c' -> ~ In t (map o_type rest) -> NoDup (map o_type rest) -> is_unique (OptionArg t c x :: OptionArg t c' y :: rest) = true.
Proof.
  intros N H D. unfold is_unique. apply forallb_forall. intros a I. unfold less_than_one_match. apply Nat.leb_le.
  pose proof (less_unique a rest D) as L. unfold less_than_one_match in L. apply Nat.leb_le in L.
  cbn [filter]. assert (K : forall c z, same_pack_type a (OptionArg t c z) = (o_type a =? t)%nat && (o_category a =? c)%nat) by reflexivity. rewrite !K. destruct (Nat.eqb_spec (o_type a) t) as [E|E]; [|exact L]. cbn [andb].
  rewrite (filter_none (same_pack_type a) rest).
  - destruct (Nat.eqb_spec (o_category a) c), (Nat.eqb_spec (o_category a) c'); cbn; try lia; congruence.
  - intros o Io. unfold same_pack_type. destruct (Nat.eqb_spec (o_type a) (o_type o)) as [E'|E']; [|reflexivity]. exfalso. apply H. rewrite <- E, E'. apply in_map. exact Io.
Qed.

Lemma c271_contract :
  forall (T : Type) pre (v : T) us,
  (Forall (meets v) (stages pre us) -> forall h, contract_program h pre v us = Ok (final_conditions pre us, v)) /\
  (~ Forall (meets v) (stages pre us) -> contract_program Fails pre v us = Throw).
Proof.
  intros T pre v us. destruct (stages_first us pre) as [l E]. split; intros F.
  - intros h. unfold contract_program, construct. assert (M : meets v pre) by (rewrite E in F; inversion F; auto). apply validate_meets in M. rewrite M. cbn [negb bind]. apply use_all_ok. exact F.
  - unfold contract_program, construct. destruct (meets_dec pre v) as [M|M].
    + rewrite (proj2 (validate_meets pre v) M). cbn [negb bind]. apply use_all_fails; auto.
    + rewrite (validate_not pre v M). reflexivity.
Qed.

Lemma c271_returning_handler :
  forall (T : Type) pre (v : T) us u, ~ Forall (meets v) (stages pre us) -> contract_program Returns pre v (us ++ [u]) = UB.
Proof.
  intros T pre v us u F. unfold contract_program, construct. assert (E : (if negb (validate pre v) then Ok v else Ok v) = Ok v) by (destruct (negb _); reflexivity).
  rewrite E. cbn [bind]. apply use_all_returns. exact F.
Qed.

Lemma c272_whole_file :
  forall max bytes, Z.of_nat (length bytes) <= max ->
  fst (read_file 1 max (File (Some (length bytes)) true bytes)) = Some bytes /\ read_file_or_terminate max (File (Some (length bytes)) true bytes) = Ok bytes.
Proof.
  intros max bytes H. assert (E : fst (read_file 1 max (File (Some (length bytes)) true bytes)) = Some bytes).
  { destruct bytes as [|b bytes]; [reflexivity|]. rewrite read_chars by (cbn [length] in *; lia). rewrite Nat.leb_refl, firstn_all. reflexivity. }
  split; [exact E|]. unfold read_file_or_terminate. rewrite E. reflexivity.
Qed.

Lemma c272_terminate :
  forall max f, (fst (read_file 1 max f) = None -> read_file_or_terminate max f = Throw) /\ (forall s, fst (read_file 1 max f) = Some s -> read_file_or_terminate max f = Ok s).
Proof.
  intros max f. unfold read_file_or_terminate. split; [intros E|intros s E]; rewrite E; reflexivity.
Qed.

Lemma c272_never_wrong :
  forall max f s, fst (read_file 1 max f) = Some s ->
  exists n, f_size f = Some n /\ length s = n /\ s = firstn n (f_bytes f) /\ (n = 0%nat \/ f_opens f = true).
Proof.
  intros max [[n|] opens bytes] s E; [|discriminate]. cbn [f_size f_bytes f_opens]. exists n. split; [reflexivity|]. destruct (Nat.eq_dec n 0) as [->|N].
  - cbn in E. injection E as <-. auto.
  - destruct (Z.lt_ge_cases max (Z.of_nat n)) as [L|L].
    { unfold read_file in E. cbn [f_size] in E. destruct (Nat.eqb_spec n 0); [lia|]. rewrite (proj2 (Z.ltb_lt _ _) L) in E. discriminate. }
    destruct opens.
    + rewrite read_chars in E by lia. destruct (Nat.leb_spec n (length bytes)); cbn [fst] in E; [|discriminate]. injection E as <-.
      rewrite firstn_length. repeat split; auto. lia.
    + unfold read_file in E. cbn [f_size f_opens] in E. destruct (Nat.eqb_spec n 0); [lia|]. destruct (max <? Z.of_nat n); discriminate.
Qed.

Lemma c272_leak_refuted :
  forall w max n bytes, (0 < n)%nat -> Z.of_nat n <= max -> snd (read_file w max (File (Some n) true bytes)) = 1%nat.
Proof.
  intros w max n bytes Hn Hm. unfold read_file, fread. cbn [f_size f_opens f_bytes negb]. destruct (Nat.eqb_spec n 0); [lia|]. destruct (Z.ltb_spec max (Z.of_nat n)); [lia|].
  destruct (negb _); reflexivity.
Qed.

Lemma c272_wide_refuted :
  forall w max k bytes, (1 < w)%nat -> (0 < k)%nat -> length bytes = (k * w)%nat -> Z.of_nat (k * w) <= max ->
  exists s, fst (read_file w max (File (Some (length bytes)) true bytes)) = Some s /\ length s = length bytes /\
    s = chars_of w k bytes ++ repeat 0 (length bytes - k) /\ (k < length s)%nat.
Proof.
  intros w max k bytes Hw Hk L Hm. rewrite L. rewrite (read_wide w max k bytes) by lia. eexists. split; [reflexivity|].
  assert (E : length (chars_of w k bytes ++ repeat 0 (k * w - k)) = (k * w)%nat).
  { assert (C : forall n b, length (chars_of w n b) = n) by (induction n as [|n IH]; intros b; [reflexivity|cbn; rewrite IH; reflexivity]).
    rewrite app_length, repeat_length, C. nia. }
  rewrite E. repeat split; nia.
Qed.

Lemma c273_bound_calls :
  forall (A R S : Type) n (func : S -> list A -> res (S * R)) bound calls s, Forall (fun args => (n <= length args)%nat) calls ->
  bound_calls n func bound s calls = Some (direct_calls func s (map (inserted n bound) calls)).
Proof.
  intros. apply bound_calls_ok. auto.
Qed.

Lemma c274_named_option :
  forall (V : Type) (def : option_arg V) opts, NoDup (map o_type opts) ->
  exists v, get_opt def opts = Some v /\ forall x, option_value def opts x <-> x = v.
Proof.
  intros V def opts N. exists (get_opt_loop def opts). split; [unfold get_opt; rewrite is_unique_ok by exact N; reflexivity|].
  intros x. apply get_opt_loop_ok. exact N.
Qed.

Lemma c274_any_order :
  forall (V : Type) (def : option_arg V) opts opts', NoDup (map o_type opts) -> Permutation opts opts' -> get_opt def opts' = get_opt def opts.
Proof.
  intros V def opts opts' N P. assert (N' : NoDup (map o_type opts')) by (eapply Permutation_NoDup; [apply Permutation_map; exact P|exact N]).
  unfold get_opt. rewrite !is_unique_ok by auto. f_equal. symmetry. apply get_opt_loop_ok; [exact N'|]. 
  destruct (proj2 (get_opt_loop_ok def opts (get_opt_loop def opts) N) eq_refl) as [(o & I & H)|[H E]].
  - left. exists o. split; [apply (Permutation_in _ P I)|exact H].
  - right. split; [|exact E]. intros o I. apply H. apply (Permutation_in _ (Permutation_sym P) I).
Qed.

Lemma c274_repeated_refuted :
  forall (V : Type) (def : option_arg V) t c c' a b rest, c <> c' -> t = o_type def -> NoDup (map o_type (OptionArg t c a :: rest)) ->
  get_opt def (OptionArg t c a :: OptionArg t c' b :: rest) = Some a /\ get_opt def (OptionArg t c' b :: OptionArg t c a :: rest) = Some b.
Proof.
  intros V def t c c' a b rest N T D. assert (K : forall x y c c', c <> c' -> get_opt def (OptionArg t c x :: OptionArg t c' y :: rest) = Some x).
  { intros x y d d' N0. unfold get_opt. rewrite repeated_unique; auto.
    - cbn [get_opt_loop o_type]. rewrite T, Nat.eqb_refl. reflexivity.
    - cbn [map o_type] in *. inversion D; subst; auto.
    - cbn [map o_type] in *. inversion D; subst; auto. }
  split; apply K; auto.
Qed.

Lemma c275_factory :
  forall (V S : Type) n (ops : list (factory_op V S)) s vs s', Forall (setting n) ops -> arguments (fun i => latest i ops None) 0 n s vs s' ->
  exists m, factory_run (factory n) s (ops ++ [Make]) = Ok (m, s', [vs]) /\ factory_run (factory n) s ops = Ok (m, s, []).
Proof.
  intros. apply factory_make; auto.
Qed.

Lemma c275_index :
  forall (V S : Type) (m : slots V S) s n g,
  ((length m <= n)%nat -> factory_step m s (SetIndex n g) = Throw) /\
  ((n < length m)%nat -> forall f v s', g = GivenFunction f -> f s = Ok (v, s') -> factory_step m s (SetIndex n g) = factory_step m s' (SetAt n v)) /\
  ((n < length m)%nat -> g = GivenOther -> factory_step m s (SetIndex n g) = Ok (m, s, [])).
Proof.
  intros V S m s n g. unfold factory_step, set_index. split; [|split].
  - intros H. rewrite set_tuple_range by lia. reflexivity.
  - intros H f v s' -> E. rewrite set_tuple_find by lia. rewrite E. cbn [bind fst snd]. rewrite (proj2 (Nat.ltb_lt _ _) H). reflexivity.
  - intros H ->. rewrite set_tuple_find by lia. reflexivity.
Qed.

Lemma c275_unset_refuted :
  forall (V S : Type) n (ops : list (factory_op V S)) s i vs s', Forall (setting n) ops -> (i < n)%nat -> arguments (fun i => latest i ops None) 0 i s vs s' ->
  latest i ops None = None -> factory_run (factory n) s (ops ++ [Make]) = UB.
Proof.
  intros V S n ops s i vs s' H1 H2 H3 H4. exact (factory_unset n ops s i vs s' H1 H2 H3 H4).
Qed.

Lemma c276_tuple2_cat :
  forall (A : Type) (tps : list (list A)), (length tps <> 1)%nat -> Z.of_nat (length tps) <= 2 ^ 32 -> Forall (fun t => Z.of_nat (length t) <= 2 ^ 32) tps ->
  tuple2_cat tps = Some (concat tps).
Proof.
  intros A tps. exact (tuple2_cat_ok tps).
Qed.
