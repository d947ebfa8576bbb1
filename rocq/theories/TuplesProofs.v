(** Proofs about Tuples. *)
From Verif Require Import Common CommonProofs Ints BitsModel BitsProofs AlgCompare AlgCompareProofs Tuples SpecTuples.
Open Scope nat_scope.

Lemma skipn_nth {A} (l : list A) : forall k z, nth_error l k = Some z -> skipn k l = z :: skipn (S k) l.
Proof.
  induction l as [|h t IH]; intros [|k] z H; cbn [nth_error] in H; try discriminate.
  - injection H as ->. reflexivity.
  - change (skipn (S k) (h :: t)) with (skipn k t). rewrite (IH k z H). reflexivity.
Qed.

Lemma skipn_twice {A} (l : list A) : forall i j, skipn i (skipn j l) = skipn (i + j) l.
Proof.
  intros i j. revert l. induction j as [|j IH]; intros l; [rewrite Nat.add_0_r; reflexivity|].
  destruct l as [|x l]; [rewrite !skipn_nil; reflexivity|]. replace (i + S j) with (S (i + j)) by lia. apply IH.
Qed.

(** * Tuples *)
Section TupleProofs.
  Context {V : Type}.
  Implicit Types (mem : list V) (cs ds : list (cell V)) (vs ws : list V).

  Lemma s_cell_store : forall cs n c k, s_cell (store n c cs) (n + k) = nth_error (c :: cs) k.
  Proof.
    induction cs as [|c1 cs IH]; intros n c k; cbn [store s_cell].
    - destruct k as [|k]; [rewrite Nat.add_0_r, Nat.eqb_refl; reflexivity|].
      destruct (Nat.eqb_spec (n + S k) n); [lia|]. cbn. destruct k; reflexivity.
    - destruct k as [|k]; [rewrite Nat.add_0_r, Nat.eqb_refl; reflexivity|].
      destruct (Nat.eqb_spec (n + S k) n); [lia|]. replace (n + S k) with (S n + k) by lia. rewrite IH. reflexivity.
  Qed.
  Lemma s_put_store : forall cs n c k c', k < S (length cs) ->
    s_put (store n c cs) (n + k) c' = match upd (c :: cs) k c' with x :: l => store n x l | [] => store n c cs end.
  Proof.
    induction cs as [|c1 cs IH]; intros n c k c' L; cbn [store s_put].
    - destruct k as [|k]; [|cbn in L; lia]. rewrite Nat.add_0_r, Nat.eqb_refl. reflexivity.
    - destruct k as [|k]; [rewrite Nat.add_0_r, Nat.eqb_refl; reflexivity|].
      destruct (Nat.eqb_spec (n + S k) n); [lia|]. replace (n + S k) with (S n + k) by lia.
      rewrite IH by (cbn in L; lia). cbn [upd]. destruct k; reflexivity.
  Qed.
  Lemma s_size_store : forall cs n c, s_size (store n c cs) = S (length cs).
  Proof. induction cs as [|c1 cs IH]; intros n c; cbn; [reflexivity|]. rewrite IH. reflexivity. Qed.
  Lemma t_size_make cs : t_size (make_tuple cs) = length cs.
  Proof. destruct cs; cbn; [reflexivity|apply s_size_store]. Qed.
  Lemma t_cell_make cs k : t_cell (make_tuple cs) k = nth_error cs k.
  Proof. destruct cs as [|c cs]; cbn [make_tuple t_cell]; [destruct k; reflexivity|]. exact (s_cell_store cs 0 c k). Qed.

  Lemma shows_nth mem cs vs : shows mem cs vs -> forall k,
    match nth_error cs k with Some c => read mem c | None => None end = nth_error vs k.
  Proof.
    intros H. induction H as [|c v cs vs E _ IH]; intros [|k]; cbn; auto.
    destruct c; cbn; congruence.
  Qed.
  Lemma shows_length mem cs vs : shows mem cs vs -> length cs = length vs.
  Proof. intros H. induction H; cbn; congruence. Qed.
  Lemma get_ok mem cs vs k : shows mem cs vs -> t_get mem (make_tuple cs) k = nth_error vs k.
  Proof. intros H. unfold t_get. rewrite t_cell_make. exact (shows_nth mem cs vs H k). Qed.

  Lemma step_ok mem cs (o : top V) :
    t_step (mem, make_tuple cs) o = match l_step (mem, cs) o with Some (m, l) => Some (m, make_tuple l) | None => None end.
  Proof.
    destruct o as [k v|i v]; cbn [t_step l_step fst snd].
    - unfold t_set. destruct cs as [|c cs]; [destruct k; reflexivity|]. cbn [make_tuple].
      rewrite (s_cell_store cs 0 c k : s_cell (store 0 c cs) k = _).
      destruct (nth_error (c :: cs) k) as [[w|i]|] eqn:N; [| |reflexivity].
      + assert (L : k < length (c :: cs)) by (apply nth_error_Some; congruence).
        rewrite (s_put_store cs 0 c k (Own v) L : s_put (store 0 c cs) k _ = _). destruct k; reflexivity.
      + destruct (i <? length mem); reflexivity.
    - destruct (i <? length mem); reflexivity.
  Qed.
  Lemma run_ok (os : list (top V)) : forall mem cs,
    t_run (mem, make_tuple cs) os = match l_run (mem, cs) os with Some (m, l) => Some (m, make_tuple l) | None => None end.
  Proof.
    induction os as [|o os IH]; intros mem cs; cbn [t_run l_run]; [reflexivity|].
    rewrite step_ok. destruct (l_step (mem, cs) o) as [[m l]|]; [apply IH|reflexivity].
  Qed.

  Lemma and_all_ok eq mem cs ds vs ws : shows mem cs vs -> shows mem ds ws -> length vs = length ws ->
    forall n k, k + n = length vs ->
    and_all eq (seq k n) mem (make_tuple cs) (make_tuple ds) =
    Some (agree eq (skipn k vs) (skipn k ws) =? n, Nat.min n (S (agree eq (skipn k vs) (skipn k ws)))).
  Proof.
    intros A B LEN. induction n as [|n IH]; intros k E; cbn [seq and_all].
    - rewrite !skipn_all2 by lia. reflexivity.
    - rewrite (get_ok _ _ _ k A), (get_ok _ _ _ k B).
      destruct (nth_error vs k) as [x|] eqn:X; [|apply nth_error_None in X; lia].
      destruct (nth_error ws k) as [y|] eqn:Y; [|apply nth_error_None in Y; lia].
      rewrite (skipn_nth vs k x X), (skipn_nth ws k y Y). cbn [agree]. destruct (eq x y).
      + rewrite (IH (S k)) by lia. reflexivity.
      + cbn. rewrite Nat.min_0_r. reflexivity.
  Qed.

  Lemma eq_ok eq mem cs ds vs ws : shows mem cs vs -> shows mem ds ws ->
    t_eq eq mem (make_tuple cs) (make_tuple ds) = Some (same_list eq vs ws, comparisons eq vs ws).
  Proof.
    intros A B. unfold t_eq, same_list, comparisons. rewrite !t_size_make, (shows_length _ _ _ A), (shows_length _ _ _ B).
    destruct (Nat.eqb_spec (length vs) (length ws)) as [E|]; [|reflexivity].
    rewrite (and_all_ok eq mem cs ds vs ws A B E) by lia. cbn [skipn]. rewrite E. reflexivity.
  Qed.
  Lemma or_and (eq ne : V -> V -> bool) mem t u ix : (forall x y, ne x y = negb (eq x y)) ->
    or_all ne ix mem t u = match and_all eq ix mem t u with Some (b, n) => Some (negb b, n) | None => None end.
  Proof.
    intros N. induction ix as [|i ix IH]; cbn [or_all and_all]; [reflexivity|].
    destruct (t_get mem t i) as [x|]; [|reflexivity]. destruct (t_get mem u i) as [y|]; [|reflexivity].
    rewrite N. destruct (eq x y); cbn [negb]; [|reflexivity]. rewrite IH. destruct (and_all eq ix mem t u) as [[b n]|]; reflexivity.
  Qed.
  Lemma ne_ok eq ne mem cs ds vs ws : (forall x y, ne x y = negb (eq x y)) -> shows mem cs vs -> shows mem ds ws ->
    t_ne ne mem (make_tuple cs) (make_tuple ds) = Some (negb (same_list eq vs ws), comparisons eq vs ws).
  Proof.
    intros N A B. pose proof (eq_ok eq mem cs ds vs ws A B) as E. unfold t_eq, t_ne in *.
    destruct (t_size (make_tuple cs) =? t_size (make_tuple ds)).
    - rewrite (or_and eq ne _ _ _ _ N), E. reflexivity.
    - injection E as <- <-. reflexivity.
  Qed.
  Lemma agree_le (eq : V -> V -> bool) : forall vs ws, agree eq vs ws <= length vs.
  Proof. induction vs as [|v vs IH]; intros [|w ws]; cbn; try lia. destruct (eq v w); [specialize (IH ws)|]; lia. Qed.
  Lemma same_list_iff (eq : V -> V -> bool) : forall vs ws,
    same_list eq vs ws = true <-> Forall2 (fun x y => eq x y = true) vs ws.
  Proof.
    unfold same_list. induction vs as [|v vs IH]; intros [|w ws]; cbn [length agree].
    - split; [constructor|reflexivity].
    - split; [discriminate|intros H; inversion H].
    - split; [discriminate|intros H; inversion H].
    - cbn [Nat.eqb]. destruct (eq v w) eqn:E; cbn [Nat.eqb].
      + rewrite IH. split; [intros H; constructor; assumption|intros H; inversion H; assumption].
      + rewrite andb_false_r. split; [discriminate|intros H; inversion H; congruence].
  Qed.

  Lemma get_all_ok mem cs vs : shows mem cs vs -> forall n k, k + n = length vs ->
    get_all (seq k n) mem (make_tuple cs) = Some (skipn k vs).
  Proof.
    intros A. induction n as [|n IH]; intros k E; cbn [seq get_all].
    - rewrite skipn_all2 by lia. reflexivity.
    - rewrite (get_ok _ _ _ k A). destruct (nth_error vs k) as [x|] eqn:X; [|apply nth_error_None in X; lia].
      rewrite (IH (S k)) by lia. rewrite (skipn_nth vs k x X). reflexivity.
  Qed.
  Lemma apply_ok {R} (f : list V -> R) mem cs vs : shows mem cs vs -> t_apply f mem (make_tuple cs) = Some (f vs).
  Proof.
    intros A. unfold t_apply. rewrite t_size_make, (get_all_ok mem cs vs A) by (rewrite (shows_length _ _ _ A); reflexivity). reflexivity.
  Qed.
End TupleProofs.

(** * Enumerating *)
Lemma enum_fits {V} T (vals : list V) i v : (0 < width T)%Z -> nth_error vals i = Some v -> (Z.of_nat i <= highest T)%Z ->
  enum_get T vals i = Some (Z.of_nat i, v).
Proof.
  intros W N H. unfold enum_get. rewrite N. f_equal. f_equal. apply conv_id; [exact W|].
  split; [|exact H]. unfold lowest. destruct (signed T); [|lia]. pose proof (Z.pow_pos_nonneg 2 (width T - 1)). lia.
Qed.
Lemma enum_distinct {V} T (vals : list V) i j k l v w : (0 < width T)%Z -> (Z.of_nat (length vals) <= 2 ^ width T)%Z -> i <> j ->
  enum_get T vals i = Some (k, v) -> enum_get T vals j = Some (l, w) -> k <> l.
Proof.
  intros W L NE A B. unfold enum_get in *.
  destruct (nth_error vals i) eqn:NI; [|discriminate]. destruct (nth_error vals j) eqn:NJ; [|discriminate].
  apply nth_error_some_lt in NI, NJ. injection A as <- _. injection B as <- _. intros E.
  apply (f_equal (wrap (width T))) in E. rewrite !conv_wrap in E by exact W. unfold wrap in E.
  rewrite !Z.mod_small in E by lia. lia.
Qed.
Lemma enum_wraps {V} T (vals : list V) i j v w : (0 < width T)%Z -> (Z.of_nat j = Z.of_nat i + 2 ^ width T)%Z ->
  nth_error vals i = Some v -> nth_error vals j = Some w ->
  exists k, enum_get T vals i = Some (k, v) /\ enum_get T vals j = Some (k, w).
Proof.
  intros W E A B. unfold enum_get. rewrite A, B, E. eexists. split; [reflexivity|]. f_equal. f_equal.
  rewrite <- (conv_wrap_arg T (_ + _)) by exact W. rewrite <- (conv_wrap_arg T (Z.of_nat i)) by exact W. f_equal. unfold wrap.
  rewrite <- (Z.mul_1_l (2 ^ width T)) at 1. rewrite Z.mod_add by (apply Z.pow_nonzero; lia). reflexivity.
Qed.
Lemma enum_negative {V} T (vals : list V) i v : (0 < width T)%Z -> signed T = true -> Z.of_nat i = (2 ^ (width T - 1))%Z ->
  nth_error vals i = Some v -> enum_get T vals i = Some ((- 2 ^ (width T - 1))%Z, v).
Proof.
  intros W S E N. unfold enum_get. rewrite N, E. f_equal. f_equal. unfold conv, swrap. rewrite S.
  assert (P : (2 ^ width T = 2 * 2 ^ (width T - 1))%Z) by (rewrite <- Z.pow_succ_r by lia; f_equal; lia).
  assert (0 < 2 ^ (width T - 1))%Z by (apply Z.pow_pos_nonneg; lia).
  rewrite Z.mod_small by lia. destruct (Z.ltb_spec (2 ^ (width T - 1)) (2 ^ (width T - 1))); lia.
Qed.

(** * Arrays *)
Section ArrayProofs.
  Context {V : Type}.
  Implicit Types (a l : list V).
  Lemma fill_loop_ok (value : list V -> res V) v (P : list V -> Prop) :
    (forall a, P a -> value a = Ok v) -> (forall a i, P a -> P (upd a i v)) ->
    forall n d a, P a -> d + n = length a -> firstn d a = repeat v d -> fill_n_ref d n value a = Ok (repeat v (length a)).
  Proof.
    intros HV HU. induction n as [|n IH]; intros d a PA L F; cbn [fill_n_ref].
    - rewrite firstn_all2 in F by lia. rewrite F. f_equal. f_equal. rewrite repeat_length. reflexivity.
    - rewrite (HV a PA). cbn [bind]. rewrite wr_ok by lia. cbn [bind]. rewrite IH, upd_length; auto.
      + rewrite upd_length. lia.
      + rewrite upd_split by lia. rewrite firstn_app, firstn_length, Nat.min_l by lia.
        replace (S d - d) with 1 by lia. rewrite firstn_firstn, Nat.min_r by lia. rewrite F. cbn [firstn].
        replace (S d) with (d + 1) by lia. rewrite repeat_app. reflexivity.
  Qed.
  Lemma a_fill_ok a v : a_fill a v = Ok (repeat v (length a)).
  Proof. apply (fill_loop_ok _ v (fun _ => True)); auto. Qed.
  Lemma a_fill_from_ok a k v : nth_error a k = Some v -> a_fill_from a k = Ok (repeat v (length a)).
  Proof.
    intros N. apply (fill_loop_ok _ v (fun a => nth_error a k = Some v)); auto.
    - intros b H. apply rd_some, H.
    - intros b i H. rewrite nth_error_upd. destruct ((k =? i) && (i <? length b)); auto.
  Qed.
  Lemma upd_last a v : a <> [] -> upd a (length a - 1) v = removelast a ++ [v].
  Proof.
    intros H. destruct (exists_last H) as [l [x ->]]. rewrite removelast_last, app_length. cbn. rewrite Nat.add_sub.
    clear H. induction l as [|y l IH]; cbn; [reflexivity|]. rewrite IH. reflexivity.
  Qed.
  Lemma a_step_ok a (o : aop V) : a_step a o = match a_spec a o with Some b => Ok b | None => UB end.
  Proof.
    destruct o as [v|k|i v|v|v]; cbn [a_step a_spec].
    - apply a_fill_ok.
    - unfold rd. destruct (nth_error a k) as [v|] eqn:N; [|reflexivity]. cbn [bind]. apply a_fill_from_ok, N.
    - unfold wr. destruct (i <? length a); reflexivity.
    - destruct a; reflexivity.
    - destruct a as [|x a]; [reflexivity|]. rewrite wr_ok by (cbn; lia). rewrite upd_last by discriminate. reflexivity.
  Qed.
  Lemma a_run_ok (os : list (aop V)) : forall a, a_run a os = match a_spec_run a os with Some b => Ok b | None => UB end.
  Proof.
    induction os as [|o os IH]; intros a; cbn [a_run a_spec_run]; [reflexivity|]. rewrite a_step_ok.
    destruct (a_spec a o); cbn [bind]; [apply IH|reflexivity].
  Qed.
  Lemma a_spec_length (os : list (aop V)) : forall a b, a_spec_run a os = Some b -> length b = length a.
  Proof.
    induction os as [|o os IH]; intros a b H; cbn [a_spec_run] in H; [congruence|].
    destruct (a_spec a o) as [c|] eqn:E; [|discriminate]. rewrite (IH c b H). clear - E.
    destruct o as [v|k|i v|v|v]; cbn [a_spec] in E.
    - injection E as <-. apply repeat_length.
    - destruct (nth_error a k); [|discriminate]. injection E as <-. apply repeat_length.
    - destruct (i <? length a); [|discriminate]. injection E as <-. apply upd_length.
    - destruct a; [discriminate|]. injection E as <-. reflexivity.
    - destruct a as [|x a]; [discriminate|]. assert (EC : c = removelast (x :: a) ++ [v]) by congruence. rewrite EC, <- upd_last by discriminate. apply upd_length.
  Qed.
  Lemma a_eq_ok (eq : V -> V -> bool) : forall a l, a_eq eq a l = true <-> Forall2 (fun x y => eq x y = true) a l.
  Proof.
    unfold a_eq. induction a as [|x a IH]; intros [|y l]; cbn [equal].
    - split; [constructor|reflexivity].
    - split; [discriminate|intros H; inversion H].
    - split; [discriminate|intros H; inversion H].
    - destruct (eq x y) eqn:E.
      + rewrite IH. split; [intros H; constructor; assumption|intros H; inversion H; assumption].
      + split; [discriminate|intros H; inversion H; congruence].
  Qed.
  Lemma a_back_ok a x : a_back (a ++ [x]) = Ok x.
  Proof. unfold a_back. apply rd_some. rewrite app_length. cbn. rewrite Nat.add_sub, nth_error_app2, Nat.sub_diag by lia. reflexivity. Qed.
End ArrayProofs.

(** * Bit patterns *)
Lemma overwrite_nil {A} (mem : list A) out : overwrite mem out [] = mem.
Proof. unfold overwrite. cbn. rewrite Nat.add_0_r. apply firstn_skipn. Qed.
Lemma overwrite_step {A} (mem : list A) out x l : out < length mem ->
  overwrite (upd mem out x) (S out) l = overwrite mem out (x :: l).
Proof.
  intros L. unfold overwrite. rewrite upd_split by exact L.
  assert (F : firstn (S out) (firstn out mem ++ x :: skipn (S out) mem) = firstn out mem ++ [x]).
  { rewrite firstn_app, firstn_length, Nat.min_l by lia. replace (S out - out) with 1 by lia.
    rewrite firstn_firstn, Nat.min_r by lia. reflexivity. }
  rewrite F, <- app_assoc. cbn [app]. f_equal. f_equal. f_equal. cbn [length].
  rewrite skipn_app, firstn_length, Nat.min_l by lia. rewrite skipn_all2 by (rewrite firstn_length; lia). cbn [app].
  replace (S out + length l - out) with (S (length l)) by lia.
  replace (out + S (length l)) with (length l + S out) by lia. symmetry. exact (eq_sym (skipn_twice mem (length l) (S out))).
Qed.

Lemma firstn_upd {A} (l : list A) : forall n j x, n <= j -> firstn n (upd l j x) = firstn n l.
Proof. induction l as [|y l IH]; intros [|n] [|j] x H; cbn; auto; try lia. f_equal. apply IH. lia. Qed.
Lemma window_upd {A} (l : list A) : forall i n j x, j < i \/ i + n <= j -> firstn n (skipn i l) = firstn n (skipn i (upd l j x)).
Proof.
  induction l as [|y l IH]; intros i n j x H; [reflexivity|].
  destruct i as [|i].
  - cbn [skipn]. symmetry. apply firstn_upd. lia.
  - destruct j as [|j]; [reflexivity|]. cbn [upd skipn]. apply IH. lia.
Qed.
Lemma for_each_ok T (mem : list Z) : forall n first, first + n <= length mem ->
  bc_for_each T mem first n = Ok (map (conv T) (firstn n (skipn first mem))).
Proof.
  induction n as [|n IH]; intros first L; cbn [bc_for_each]; [reflexivity|].
  destruct (rd_ok mem first) as [x [R N]]; [lia|]. rewrite R. cbn [bind]. rewrite IH by lia. cbn [bind].
  rewrite (skipn_nth mem first x N). reflexivity.
Qed.

Definition put (T U : ity) (f : Z -> Z) (x : Z) : Z := wrap (width T) (conv U (f (conv T x))).
Lemma transform_ok T U f : forall n (mem : list Z) first out, first + n <= length mem -> out + n <= length mem ->
  out <= first \/ first + n <= out ->
  bc_transform T U f mem first n out = Ok (overwrite mem out (map (put T U f) (firstn n (skipn first mem)))).
Proof.
  induction n as [|n IH]; intros mem first out L1 L2 D; cbn [bc_transform].
  - cbn [firstn map]. rewrite overwrite_nil. reflexivity.
  - destruct (rd_ok mem first) as [x [R N]]; [lia|]. rewrite R. cbn [bind]. rewrite wr_ok by lia. cbn [bind].
    rewrite IH; rewrite ?upd_length; try lia. rewrite (skipn_nth mem first x N). cbn [firstn map].
    rewrite <- overwrite_step by lia. f_equal. f_equal. f_equal.
    symmetry. apply window_upd. lia.
Qed.
Lemma copy_transform T : forall n (mem : list Z) first out, (0 < width T)%Z ->
  bc_copy T mem first n out = bc_transform T T (fun x => x) mem first n out.
Proof.
  induction n as [|n IH]; intros mem first out W; cbn [bc_copy bc_transform]; [reflexivity|].
  destruct (rd mem first) as [x| | |]; cbn [bind]; try reflexivity.
  assert (E : bit_value T (bit_value T x) = bit_value T x).
  { unfold bit_value. apply conv_id; [exact W|]. apply conv_fits, W. }
  rewrite E. destruct (wr mem out _) as [m| | |]; cbn [bind]; try reflexivity. apply IH, W.
Qed.
Lemma put_same T x : (0 < width T)%Z -> (0 <= x < 2 ^ width T)%Z -> put T T (fun x => x) x = x.
Proof.
  intros W R. unfold put. rewrite (conv_id T (conv T x)); [|exact W|apply conv_fits, W]. rewrite conv_wrap by exact W.
  apply Z.mod_small, R.
Qed.
Lemma map_id_in {A} (f : A -> A) l : Forall (fun x => f x = x) l -> map f l = l.
Proof. intros H. induction H; cbn; congruence. Qed.
Lemma Forall_firstn_skipn {A} (P : A -> Prop) l i n : Forall P l -> Forall P (firstn n (skipn i l)).
Proof.
  intros H. rewrite Forall_forall in *. intros x IN. apply H.
  rewrite <- (firstn_skipn i l). apply in_or_app. right. rewrite <- (firstn_skipn n (skipn i l)). apply in_or_app. left. exact IN.
Qed.
Lemma copy_ok T n (mem : list Z) first out : (0 < width T)%Z -> patterns (width T) mem ->
  first + n <= length mem -> out + n <= length mem -> out <= first \/ first + n <= out ->
  bc_copy T mem first n out = Ok (overwrite mem out (firstn n (skipn first mem))).
Proof.
  intros W P L1 L2 D. rewrite copy_transform by exact W. rewrite transform_ok by assumption. f_equal. f_equal.
  apply map_id_in. apply Forall_firstn_skipn. eapply Forall_impl; [|exact P]. intros x R. apply put_same; assumption.
Qed.
(** The destination begins inside of the source. *)
Lemma overlap_loop T d : (0 < width T)%Z -> 0 < d -> forall n k (old mem : list Z) first,
  patterns (width T) old -> length mem = length old -> first + d + k + n <= length old ->
  (forall j, nth_error mem j = if (first + d <=? j) && (j <? first + d + k) then nth_error old (first + (j - (first + d)) mod d) else nth_error old j) ->
  exists m, bc_copy T mem (first + k) n (first + d + k) = Ok m /\ length m = length old /\
  forall j, nth_error m j = if (first + d <=? j) && (j <? first + d + k + n) then nth_error old (first + (j - (first + d)) mod d) else nth_error old j.
Proof.
  intros W D. induction n as [|n IH]; intros k old mem first P L LE H; cbn [bc_copy].
  - exists mem. split; [reflexivity|]. split; [exact L|]. rewrite Nat.add_0_r. exact H.
  - assert (RD : nth_error mem (first + k) = nth_error old (first + k mod d)).
    { rewrite H. destruct (Nat.leb_spec (first + d) (first + k)) as [C|C]; cbn [andb].
      - assert (X : (first + k <? first + d + k) = true) by (apply Nat.ltb_lt; lia). rewrite X.
        f_equal. f_equal. replace k with ((k - d) + 1 * d) at 2 by lia. rewrite Nat.mod_add by lia. f_equal. lia.
      - rewrite Nat.mod_small by lia. reflexivity. }
    assert (K : k mod d < d) by (apply Nat.mod_upper_bound; lia).
    destruct (nth_error_ex old (first + k mod d)) as [x X]; [lia|]. rewrite X in RD.
    unfold rd. rewrite RD. cbn [bind]. rewrite wr_ok by lia. cbn [bind].
    assert (PX : pattern_of (width T) (bit_value T x) = x).
    { unfold pattern_of, bit_value. rewrite conv_wrap by exact W. apply Z.mod_small.
      unfold patterns in P. rewrite Forall_forall in P. apply P. eapply nth_error_In, X. }
    rewrite PX. specialize (IH (S k) old (upd mem (first + d + k) x) first P).
    destruct IH as [m [R [LM HM]]].
    + rewrite upd_length. exact L.
    + lia.
    + intros j. rewrite nth_error_upd. destruct (Nat.eqb_spec j (first + d + k)) as [->|NE]; cbn [andb].
      * assert (A : (first + d + k <? length mem) = true) by (apply Nat.ltb_lt; lia). rewrite A.
        assert (B : (first + d <=? first + d + k) = true) by (apply Nat.leb_le; lia). rewrite B.
        assert (C : (first + d + k <? first + d + S k) = true) by (apply Nat.ltb_lt; lia). rewrite C. cbn [andb].
        rewrite <- X. f_equal. f_equal. f_equal. lia.
      * rewrite H. destruct (Nat.leb_spec (first + d) j); cbn [andb]; [|reflexivity].
        destruct (Nat.ltb_spec j (first + d + k)), (Nat.ltb_spec j (first + d + S k)); try reflexivity; lia.
    + exists m. split; [|split; [exact LM|]].
      * replace (S (first + k)) with (first + S k) by lia. replace (S (first + d + k)) with (first + d + S k) by lia. exact R.
      * intros j. rewrite HM. replace (first + d + S k + n) with (first + d + k + S n) by lia. reflexivity.
Qed.
Lemma overlap_ok T d n (mem : list Z) first : (0 < width T)%Z -> 0 < d -> patterns (width T) mem -> first + d + n <= length mem ->
  exists m, bc_copy T mem first n (first + d) = Ok m /\ length m = length mem /\
  forall j, nth_error m j = if (first + d <=? j) && (j <? first + d + n) then nth_error mem (first + (j - (first + d)) mod d) else nth_error mem j.
Proof.
  intros W D P L. destruct (overlap_loop T d W D n 0 mem mem first P eq_refl) as [m [R [LM HM]]].
  - lia.
  - intros j. destruct (Nat.leb_spec (first + d) j); cbn [andb]; [|reflexivity].
    destruct (Nat.ltb_spec j (first + d + 0)); [lia|reflexivity].
  - rewrite !Nat.add_0_r in *. exists m. split; [exact R|]. split; [exact LM|]. intros j. rewrite HM. rewrite ?Nat.add_0_r. reflexivity.
Qed.

(** * Printing *)
Lemma vformat_escape t : forall fs args,
  vformat (escape t ++ fs) args = (r <- vformat fs args ;; Ok (t ++ r)).
Proof.
  induction t as [|c t IH]; intros fs args; cbn [escape app].
  - destruct (vformat fs args); reflexivity.
  - destruct (Z.eqb_spec c 123) as [->|N1]; cbn [orb app].
    + cbn [vformat]. cbn [Z.eqb Pos.eqb]. rewrite IH. destruct (vformat fs args); reflexivity.
    + destruct (Z.eqb_spec c 125) as [->|N2]; cbn [app].
      * cbn [vformat]. cbn [Z.eqb Pos.eqb]. rewrite IH. destruct (vformat fs args); reflexivity.
      * cbn [vformat]. apply Z.eqb_neq in N1, N2. rewrite N1, N2, IH. destruct (vformat fs args); reflexivity.
Qed.
Lemma vformat_field fs a args : vformat ([123; 125]%Z ++ fs) (a :: args) = (r <- vformat fs args ;; Ok (a ++ r)).
Proof. reflexivity. Qed.
Lemma fields_ok last : forall ts args, length ts <= length args -> vformat (fields ts last) args = Ok (filled ts args last).
Proof.
  induction ts as [|t ts IH]; intros args L; cbn [fields filled].
  - rewrite <- (app_nil_r (escape last)), vformat_escape. cbn. rewrite app_nil_r. reflexivity.
  - destruct args as [|a args]; [cbn in L; lia|]. rewrite vformat_escape, vformat_field, IH by (cbn in L; lia). reflexivity.
Qed.
Lemma fields_few last : forall ts args, length args < length ts -> vformat (fields ts last) args = Throw.
Proof.
  induction ts as [|t ts IH]; intros args L; cbn [fields]; [cbn in L; lia|].
  rewrite vformat_escape. destruct args as [|a args]; [reflexivity|]. rewrite vformat_field, IH by (cbn in L; lia). reflexivity.
Qed.
Lemma println_ok fs args : println fs args = (r <- vformat fs args ;; Ok (r ++ [10%Z])).
Proof. unfold println. destruct (vformat fs args); reflexivity. Qed.

Fixpoint dump_text (k : nat) : list Z := match k with O => [] | S k => [123; 125; 32]%Z ++ dump_text k end.
Lemma dump_loop_ok : forall k fuel done, k < fuel ->
  dump_loop fuel (length done) (done ++ repeat 0%Z (3 * k)) = Ok (done ++ dump_text k).
Proof.
  induction k as [|k IH]; intros [|fuel] done F; try lia; cbn [dump_loop].
  - cbn [Nat.mul repeat dump_text]. change (3 * 0) with 0. cbn [repeat]. rewrite !app_nil_r, Nat.ltb_irrefl. reflexivity.
  - replace (3 * S k) with (S (S (S (3 * k)))) by lia. cbn [repeat].
    assert (L : (length done <? length (done ++ 0%Z :: 0%Z :: 0%Z :: repeat 0%Z (3 * k))) = true)
      by (apply Nat.ltb_lt; rewrite app_length; cbn; lia). rewrite L.
    assert (U : forall (d : list Z) x l y, upd (d ++ x :: l) (length d) y = d ++ y :: l).
    { clear. induction d as [|z d IH]; intros; cbn; [reflexivity|]. rewrite IH. reflexivity. }
    rewrite wr_ok by (rewrite app_length; cbn; lia). cbn [bind]. rewrite U.
    replace (length done + 1) with (length (done ++ [123%Z])) by (rewrite app_length; reflexivity).
    change (done ++ 123%Z :: 0%Z :: 0%Z :: repeat 0%Z (3 * k)) with (done ++ [123%Z] ++ 0%Z :: 0%Z :: repeat 0%Z (3 * k)).
    rewrite app_assoc. rewrite wr_ok by (rewrite !app_length; cbn; lia). cbn [bind]. rewrite U.
    replace (length done + 2) with (length ((done ++ [123%Z]) ++ [125%Z])) by (rewrite !app_length; cbn; lia).
    change ((done ++ [123%Z]) ++ 125%Z :: 0%Z :: repeat 0%Z (3 * k)) with ((done ++ [123%Z]) ++ [125%Z] ++ 0%Z :: repeat 0%Z (3 * k)).
    rewrite app_assoc. rewrite wr_ok by (rewrite !app_length; cbn; lia). cbn [bind]. rewrite U.
    change (((done ++ [123%Z]) ++ [125%Z]) ++ 32%Z :: repeat 0%Z (3 * k)) with (((done ++ [123%Z]) ++ [125%Z]) ++ [32%Z] ++ repeat 0%Z (3 * k)).
    rewrite app_assoc. replace (length done + 3) with (length (((done ++ [123%Z]) ++ [125%Z]) ++ [32%Z])) by (rewrite !app_length; cbn; lia).
    rewrite IH by lia. rewrite <- !app_assoc. reflexivity.
Qed.
Lemma dump_format_ok k : dump_format k = Ok (dump_text k).
Proof. unfold dump_format. destruct k as [|k]; [reflexivity|]. exact (dump_loop_ok (S k) (S (S k)) [] ltac:(lia)). Qed.
Lemma dump_text_ok : forall args, vformat (dump_text (length args)) args = Ok (concat (map (fun a => a ++ [32%Z]) args)).
Proof.
  induction args as [|a args IH]; [reflexivity|]. cbn [length dump_text].
  change ([123; 125; 32]%Z ++ dump_text (length args)) with ([123; 125]%Z ++ (32%Z :: dump_text (length args))).
  rewrite vformat_field. cbn [vformat]. cbn [Z.eqb Pos.eqb]. rewrite IH. cbn [bind map concat]. rewrite <- app_assoc. reflexivity.
Qed.
Lemma dump_ok args : dump args = Ok (concat (map (fun a => a ++ [32%Z]) args) ++ [10%Z]).
Proof. unfold dump. rewrite dump_format_ok. cbn [bind]. rewrite println_ok, dump_text_ok. reflexivity. Qed.

(** * Packs *)
Section PackProofs.
  Context {V : Type}.
  Implicit Types (mem : objs V) (args : list (parg V)).
  Lemma params_ok args : forall mem mem' ls, params mem args = (mem', ls) ->
    (exists vs, mem' = mem ++ map Some vs) /\ length ls = length args /\
    (forall k i, nth_error args k = Some (ByRef i) -> nth_error ls k = Some i) /\
    (forall k v, nth_error args k = Some (ByVal v) -> exists i, nth_error ls k = Some i /\ length mem <= i < length mem').
  Proof.
    induction args as [|[i|v] args IH]; intros mem mem' ls H; cbn [params] in H.
    - injection H as <- <-. split; [exists []; cbn; rewrite app_nil_r; reflexivity|]. split; [reflexivity|].
      split; intros [|k] ? N; discriminate.
    - destruct (params mem args) as [m l] eqn:P. injection H as <- <-. destruct (IH _ _ _ P) as [E [L [A B]]].
      split; [exact E|]. split; [cbn; congruence|].
      split; intros [|k] x N; cbn [nth_error] in *; try (injection N as ->; reflexivity); try discriminate; [apply A, N|eapply B, N].
    - destruct (params (mem ++ [Some v]) args) as [m l] eqn:P. injection H as <- <-. destruct (IH _ _ _ P) as [[vs E] [L [A B]]].
      split; [exists (v :: vs); cbn; rewrite E, <- app_assoc; reflexivity|]. split; [cbn; congruence|].
      split; intros [|k] x N; cbn [nth_error] in *; try discriminate; [apply A, N| |].
      + exists (length mem). split; [reflexivity|]. rewrite E, !app_length. cbn. lia.
      + destruct (B k x N) as [i [X Y]]. exists i. split; [exact X|]. rewrite app_length in Y. cbn in Y. lia.
  Qed.
  Lemma make_ok args mem mem' ls : pack_make mem args = (mem', ls) ->
    (exists n, mem' = mem ++ repeat None n) /\ length ls = length args /\
    (forall k i, nth_error args k = Some (ByRef i) -> nth_error ls k = Some i) /\
    (forall k v, nth_error args k = Some (ByVal v) -> exists i, nth_error ls k = Some i /\ length mem <= i < length mem').
  Proof.
    unfold pack_make. destruct (params mem args) as [m l] eqn:P. intros H. injection H as <- <-.
    destruct (params_ok _ _ _ _ P) as [[vs E] [L [A B]]].
    assert (EE : end_after (length mem) m = mem ++ repeat None (length vs)).
    { unfold end_after. rewrite E, firstn_app, Nat.sub_diag, firstn_all. cbn [firstn]. rewrite app_nil_r. f_equal. f_equal.
      rewrite app_length, map_length. lia. }
    split; [exists (length vs); exact EE|]. split; [exact L|]. split; [exact A|].
    intros k v N. destruct (B k v N) as [i [X Y]]. exists i. split; [exact X|]. rewrite EE, app_length, repeat_length.
    rewrite E, app_length, map_length in Y. exact Y.
  Qed.
  (** What has ended stays so. *)
  Lemma dead_stays (os : list (mop V)) : forall mem m2 i, m_run mem os = Ok m2 -> nth_error mem i = Some None -> nth_error m2 i = Some None.
  Proof.
    induction os as [|o os IH]; intros mem m2 i H D; cbn [m_run] in H; [congruence|].
    destruct (m_step mem o) as [m1| | |] eqn:S1; cbn [bind] in H; try discriminate. apply (IH m1 m2 i H).
    destruct o as [j v|j|v]; cbn [m_step] in S1.
    - destruct (nth_error mem j) as [[w|]|] eqn:J; try discriminate. injection S1 as <-.
      rewrite nth_error_upd_ne; [exact D|]. intros ->. congruence.
    - destruct (nth_error mem j) as [[w|]|] eqn:J; try discriminate. injection S1 as <-.
      rewrite nth_error_upd_ne; [exact D|]. intros ->. congruence.
    - injection S1 as <-. rewrite nth_error_app1; [exact D|]. apply nth_error_some_lt in D. exact D.
  Qed.
  Lemma value_dangles mem args mem' ls os m2 k v : pack_make mem args = (mem', ls) -> nth_error args k = Some (ByVal v) ->
    m_run mem' os = Ok m2 -> pack_get m2 ls k = UB.
  Proof.
    intros M N R. destruct (make_ok _ _ _ _ M) as [[n E] [_ [_ B]]]. destruct (B k v N) as [i [X Y]].
    unfold pack_get. rewrite X. rewrite (dead_stays os mem' m2 i R); [reflexivity|].
    rewrite E in *. rewrite nth_error_app2 by lia. rewrite app_length, repeat_length in Y.
    apply nth_error_repeat. lia.
  Qed.
  Lemma ref_reads mem args mem' ls os m2 k i : pack_make mem args = (mem', ls) -> nth_error args k = Some (ByRef i) ->
    m_run mem' os = Ok m2 -> pack_get m2 ls k = match nth_error m2 i with Some (Some v) => Ok v | _ => UB end.
  Proof.
    intros M N R. destruct (make_ok _ _ _ _ M) as [_ [_ [A _]]]. unfold pack_get. rewrite (A k i N). reflexivity.
  Qed.
  Lemma pack_all_ok mem ls vs : Forall2 (fun i v => nth_error mem i = Some (Some v)) ls vs ->
    forall n k, k + n = length ls -> pack_all mem ls (seq k n) = Ok (skipn k vs).
  Proof.
    intros F. assert (LE : length ls = length vs) by (clear - F; induction F; cbn; congruence).
    assert (G : forall k v, nth_error vs k = Some v -> pack_get mem ls k = Ok v).
    { clear LE. unfold pack_get. induction F as [|i v ls vs E _ IH]; intros [|k] w H; cbn [nth_error] in *; try discriminate.
      - injection H as <-. rewrite E. reflexivity.
      - apply IH, H. }
    induction n as [|n IH]; intros k E; cbn [seq pack_all].
    - rewrite skipn_all2 by lia. reflexivity.
    - destruct (nth_error vs k) as [v|] eqn:N; [|apply nth_error_None in N; lia].
      rewrite (G k v N). cbn [bind]. rewrite IH by lia. cbn [bind]. rewrite (skipn_nth vs k v N). reflexivity.
  Qed.
  Lemma refs_make mem is : pack_make mem (map ByRef is) = (mem, is).
  Proof.
    unfold pack_make. assert (P : params mem (map ByRef is) = (mem, is)).
    { induction is as [|i is IH]; cbn; [reflexivity|]. rewrite IH. reflexivity. }
    rewrite P. unfold end_after. rewrite firstn_all, Nat.sub_diag. cbn. rewrite app_nil_r. reflexivity.
  Qed.
  Lemma apply_refs mem is os m2 vs : m_run mem os = Ok m2 -> Forall2 (fun i v => nth_error m2 i = Some (Some v)) is vs ->
    pack_make mem (map ByRef is) = (mem, is) /\ pack_apply m2 is = Ok vs.
  Proof. intros R F. split; [apply refs_make|]. unfold pack_apply. rewrite (pack_all_ok m2 is vs F) by lia. reflexivity. Qed.
End PackProofs.

(** * bind_front *)
Section BindProofs.
  Context {V R S : Type}.
  Variable f : S -> list V -> R * S * list (nat * V).
  Implicit Types (mem : list V) (cs : list (cell V)).
  Lemma reads_ok mem : forall cs vs, shows mem cs vs -> reads mem cs = Ok vs.
  Proof.
    intros cs vs H. induction H as [|c v cs vs E _ IH]; cbn [reads]; [reflexivity|]. rewrite IH.
    destruct c; cbn in *; [subst|rewrite E]; reflexivity.
  Qed.
  Lemma reads_app mem : forall cs ds, reads mem (cs ++ ds) = (a <- reads mem cs ;; b <- reads mem ds ;; Ok (a ++ b)).
  Proof.
    induction cs as [|c cs IH]; intros ds; cbn [app reads bind].
    - destruct (reads mem ds); reflexivity.
    - destruct (read mem c); [|reflexivity]. rewrite IH. destruct (reads mem cs); cbn [bind]; try reflexivity.
      destruct (reads mem ds); reflexivity.
  Qed.
  Lemma reads_own mem vs : reads mem (map Own vs) = Ok vs.
  Proof. induction vs as [|v vs IH]; cbn; [reflexivity|]. rewrite IH. reflexivity. Qed.
  Lemma reads_length mem : forall cs vs, reads mem cs = Ok vs -> length vs = length cs.
  Proof.
    induction cs as [|c cs IH]; intros vs H; cbn [reads] in H; [injection H as <-; reflexivity|].
    destruct (read mem c); [|discriminate]. destruct (reads mem cs) as [xs| | |] eqn:E; try discriminate.
    injection H as <-. cbn. f_equal. apply IH. reflexivity.
  Qed.
  Lemma assigns_cons mem tmp kv kvs : assigns mem tmp (kv :: kvs) = assigns (fst (assign mem tmp kv)) (snd (assign mem tmp kv)) kvs.
  Proof. unfold assigns. cbn [fold_left fst snd]. destruct (assign mem tmp kv); reflexivity. Qed.
  Definition is_own (c : cell V) : Prop := match c with Own _ => True | Ref _ => False end.
  Lemma assigns_own kvs : forall mem tmp, Forall is_own tmp -> fst (assigns mem tmp kvs) = mem.
  Proof.
    induction kvs as [|kv kvs IH]; intros mem tmp F; [reflexivity|].
    rewrite assigns_cons. unfold assign. destruct (nth_error tmp (fst kv)) as [[v|i]|] eqn:N; cbn [fst snd].
    - apply IH. clear - F. revert F. generalize (fst kv). induction tmp as [|c tmp IHt]; intros [|k] F; cbn; auto; inversion F; subst; constructor; cbn; auto.
    - exfalso. rewrite Forall_forall in F. apply nth_error_In in N. exact (F _ N).
    - apply IH, F.
  Qed.
  Lemma own_map vs : Forall is_own (map (@Own V) vs).
  Proof. induction vs; constructor; cbn; auto. Qed.
  Lemma values_calls mem bs : forall calls s,
    b_calls f mem (mk_bound s (map Own bs)) (map (map Own) calls) =
    Ok (fst (called f s (map (app bs) calls)), mem, snd (called f s (map (app bs) calls))).
  Proof.
    induction calls as [|c calls IH]; intros s; cbn [map b_calls called fst snd b_func]; [reflexivity|].
    unfold b_call. cbn [b_params b_func]. rewrite <- map_app, reads_own. cbn [bind].
    destruct (f s (bs ++ c)) as [[r s'] kvs] eqn:F. pose proof (assigns_own kvs mem (map Own (bs ++ c)) (own_map _)) as A.
    destruct (assigns mem (map Own (bs ++ c)) kvs) as [m t]. cbn [fst] in A. subst m. cbn [bind]. rewrite IH. cbn [bind].
    destruct (called f s' (map (app bs) calls)) as [l s2]. reflexivity.
  Qed.
  Lemma values_seen bs : forall calls mem s l m s2,
    b_calls f mem (mk_bound s (map Own bs)) calls = Ok (l, m, s2) ->
    Forall2 (fun call e => exists avs, fst e = bs ++ avs /\ length avs = length call) calls l.
  Proof.
    induction calls as [|c calls IH]; intros mem s l m s2 H; cbn [b_calls] in H; [injection H as <- _ _; constructor|].
    unfold b_call in H. cbn [b_params b_func] in H. rewrite reads_app, reads_own in H. cbn [bind] in H.
    destruct (reads mem c) as [avs| | |] eqn:RD; cbn [bind] in H; try discriminate.
    destruct (f s (bs ++ avs)) as [[r s'] kvs]. destruct (assigns mem (map Own bs ++ c) kvs) as [m1 t]. cbn [bind] in H.
    destruct (b_calls f m1 (mk_bound s' (map Own bs)) calls) as [[[l1 m3] s3]| | |] eqn:BC; cbn [bind] in H; try discriminate.
    injection H as <- <- <-. constructor; [|eapply IH, BC]. exists avs. split; [reflexivity|]. eapply reads_length, RD.
  Qed.
  Definition refers (c : cell V) (i : nat) : Prop := match c with Ref j => j = i | Own _ => False end.
  Lemma assigns_mem kvs i : forall mem tmp k, nth_error tmp k = Some (Ref i) -> i < length mem ->
    (forall j c, nth_error tmp j = Some c -> refers c i -> j = k) ->
    nth_error (fst (assigns mem tmp kvs)) i = last_to k kvs (nth_error mem i).
  Proof.
    induction kvs as [|kv kvs IH]; intros mem tmp k N L U; cbn [last_to]; [reflexivity|].
    rewrite assigns_cons. unfold assign. destruct (nth_error tmp (fst kv)) as [[v|j]|] eqn:E; cbn [fst snd].
    - destruct (Nat.eqb_spec (fst kv) k) as [EK|NE]; [congruence|]. apply IH; [|exact L|].
      + rewrite nth_error_upd_ne by congruence. exact N.
      + intros j c X Y. rewrite nth_error_upd in X. destruct ((j =? fst kv) && _); [injection X as <-; contradiction|]. exact (U j c X Y).
    - destruct (Nat.eqb_spec (fst kv) k) as [EK|NE].
      + assert (j = i) by congruence. subst j. rewrite (IH (upd mem i (snd kv)) tmp k N); [|rewrite upd_length; exact L|exact U].
        rewrite nth_error_upd_eq by exact L. reflexivity.
      + assert (j <> i) by (intros ->; apply NE; exact (U (fst kv) (Ref i) E eq_refl)).
        rewrite (IH (upd mem j (snd kv)) tmp k N); [|rewrite upd_length; exact L|exact U]. rewrite nth_error_upd_ne by congruence. reflexivity.
    - destruct (Nat.eqb_spec (fst kv) k) as [EK|NE]; [congruence|]. apply IH; assumption.
  Qed.
  Lemma assigns_other kvs i : forall mem tmp, (forall c, In c tmp -> ~ refers c i) ->
    nth_error (fst (assigns mem tmp kvs)) i = nth_error mem i.
  Proof.
    induction kvs as [|kv kvs IH]; intros mem tmp U; [reflexivity|].
    rewrite assigns_cons. unfold assign. destruct (nth_error tmp (fst kv)) as [[v|j]|] eqn:E; cbn [fst snd].
    - apply IH. intros c X. apply In_nth_error in X. destruct X as [n X]. rewrite nth_error_upd in X.
      destruct ((n =? fst kv) && _); [injection X as <-; intros Y; exact Y|]. apply U. eapply nth_error_In, X.
    - rewrite IH by exact U. apply nth_error_upd_ne. intros ->. exact (U _ (nth_error_In _ _ E) eq_refl).
    - apply IH, U.
  Qed.
  Lemma call_ok mem s ps args vs ws : shows mem ps vs -> shows mem args ws ->
    exists m, b_call f mem (mk_bound s ps) args =
      Ok (fst (fst (f s (vs ++ ws))), vs ++ ws, m, mk_bound (snd (fst (f s (vs ++ ws)))) ps) /\
    (forall i, (forall c, In c (ps ++ args) -> ~ refers c i) -> nth_error m i = nth_error mem i) /\
    (forall k i, nth_error (ps ++ args) k = Some (Ref i) -> (forall j c, nth_error (ps ++ args) j = Some c -> refers c i -> j = k) ->
      nth_error m i = last_to k (snd (f s (vs ++ ws))) (nth_error mem i)).
  Proof.
    intros A B. unfold b_call. cbn [b_params b_func]. pose proof (Forall2_app A B) as AB. rewrite (reads_ok mem _ _ AB). cbn [bind].
    destruct (f s (vs ++ ws)) as [[r s'] kvs]. destruct (assigns mem (ps ++ args) kvs) as [m t] eqn:E. exists m. cbn [fst snd].
    split; [reflexivity|]. replace m with (fst (assigns mem (ps ++ args) kvs)) by (rewrite E; reflexivity). split.
    - intros i U. apply assigns_other, U.
    - intros k i N U. apply assigns_mem; [exact N| |exact U].
      pose proof (shows_nth mem _ _ AB k) as SN. rewrite N in SN. cbn in SN. apply nth_error_Some. rewrite SN.
      apply nth_error_Some. rewrite <- (shows_length mem _ _ AB). apply nth_error_Some. congruence.
  Qed.
End BindProofs.

(** * The statements of the properties *)
Open Scope nat_scope.

Lemma c327_get :
  forall (V : Type) (mem : list V) (cs : list (cell V)) vs k, shows mem cs vs ->
  t_get mem (make_tuple cs) k = nth_error vs k /\ t_size (make_tuple cs) = length vs.
Proof.
  intros V mem cs vs k H. split; [apply get_ok, H|]. rewrite t_size_make. exact (shows_length _ _ _ H).
Qed.

Lemma c327_history :
  forall (V : Type) (os : list (top V)) (mem : list V) (cs : list (cell V)),
  t_run (mem, make_tuple cs) os = match l_run (mem, cs) os with Some (m, l) => Some (m, make_tuple l) | None => None end.
Proof.
  intros V os mem cs. apply run_ok.
Qed.

Lemma c327_equal :
  forall (V : Type) (eq : V -> V -> bool) (mem : list V) cs ds vs ws, shows mem cs vs -> shows mem ds ws ->
  exists b, t_eq eq mem (make_tuple cs) (make_tuple ds) = Some (b, comparisons eq vs ws) /\
  (b = true <-> Forall2 (fun x y => eq x y = true) vs ws).
Proof.
  intros V eq mem cs ds vs ws A B. exists (same_list eq vs ws). split; [apply eq_ok; assumption|apply same_list_iff].
Qed.

Lemma c327_not_equal :
  forall (V : Type) (eq ne : V -> V -> bool) (mem : list V) cs ds vs ws, (forall x y, ne x y = negb (eq x y)) ->
  shows mem cs vs -> shows mem ds ws -> exists b, t_ne ne mem (make_tuple cs) (make_tuple ds) = Some (b, comparisons eq vs ws) /\
  (b = false <-> Forall2 (fun x y => eq x y = true) vs ws).
Proof.
  intros V eq ne mem cs ds vs ws N A B. exists (negb (same_list eq vs ws)). split; [apply ne_ok; assumption|].
  rewrite <- same_list_iff. destruct (same_list eq vs ws); cbn; split; congruence.
Qed.

Lemma c327_apply :
  forall (V R : Type) (f : list V -> R) (mem : list V) cs vs, shows mem cs vs -> t_apply f mem (make_tuple cs) = Some (f vs).
Proof.
  intros V R f mem cs vs. apply apply_ok.
Qed.

Lemma c328_index_partial :
  forall (V : Type) T (vals : list V) i v, (0 < width T)%Z -> nth_error vals i = Some v -> (Z.of_nat i <= highest T)%Z ->
  enum_get T vals i = Some (Z.of_nat i, v).
Proof.
  intros V T vals i v. apply enum_fits.
Qed.

Lemma c328_distinct_partial :
  forall (V : Type) T (vals : list V) i j k l v w, (0 < width T)%Z -> (Z.of_nat (length vals) <= 2 ^ width T)%Z -> i <> j ->
  enum_get T vals i = Some (k, v) -> enum_get T vals j = Some (l, w) -> k <> l.
Proof.
  intros V T vals i j k l v w. apply enum_distinct.
Qed.

Lemma c328_wraps_refuted :
  forall (V : Type) T (vals : list V) i j v w, (0 < width T)%Z -> (Z.of_nat j = Z.of_nat i + 2 ^ width T)%Z ->
  nth_error vals i = Some v -> nth_error vals j = Some w ->
  exists k, enum_get T vals i = Some (k, v) /\ enum_get T vals j = Some (k, w).
Proof.
  intros V T vals i j v w. apply enum_wraps.
Qed.

Lemma c328_negative_refuted :
  forall (V : Type) T (vals : list V) i v, (0 < width T)%Z -> signed T = true -> Z.of_nat i = (2 ^ (width T - 1))%Z ->
  nth_error vals i = Some v -> enum_get T vals i = Some ((- 2 ^ (width T - 1))%Z, v).
Proof.
  intros V T vals i v. apply enum_negative.
Qed.

Lemma c329_history :
  forall (V : Type) (os : list (aop V)) a, a_run a os = match a_spec_run a os with Some b => Ok b | None => UB end.
Proof.
  intros V os a. apply a_run_ok.
Qed.

Lemma c329_size :
  forall (V : Type) (os : list (aop V)) a b, a_run a os = Ok b -> length b = length a.
Proof.
  intros V os a b H. rewrite a_run_ok in H. destruct (a_spec_run a os) eqn:E; [|discriminate]. injection H as <-. exact (a_spec_length os a _ E).
Qed.

Lemma c329_ends :
  forall (V : Type) (a : list V) x, a_front (x :: a) = Ok x /\ a_back (a ++ [x]) = Ok x /\
  (forall i y, nth_error a i = Some y -> a_at a i = Ok y).
Proof.
  intros V a x. split; [reflexivity|]. split; [apply a_back_ok|]. intros i y. apply rd_some.
Qed.

Lemma c329_equal :
  forall (V : Type) (eq : V -> V -> bool) (a b : list V),
  (a_eq eq a b = true <-> Forall2 (fun x y => eq x y = true) a b) /\ a_ne eq a b = negb (a_eq eq a b).
Proof.
  intros V eq a b. split; [apply a_eq_ok|reflexivity].
Qed.

Lemma c330_for_each :
  forall T (mem : list Z) n first, first + n <= length mem ->
  bc_for_each T mem first n = Ok (map (conv T) (firstn n (skipn first mem))).
Proof.
  intros T mem n first. apply for_each_ok.
Qed.

Lemma c330_transform :
  forall T U f n (mem : list Z) first out, first + n <= length mem -> out + n <= length mem ->
  out <= first \/ first + n <= out ->
  bc_transform T U f mem first n out =
  Ok (overwrite mem out (map (fun x => wrap (width T) (conv U (f (conv T x)))) (firstn n (skipn first mem)))).
Proof.
  intros T U f n mem first out. apply transform_ok.
Qed.

Lemma c330_copy_partial :
  forall T n (mem : list Z) first out, (0 < width T)%Z -> patterns (width T) mem ->
  first + n <= length mem -> out + n <= length mem -> out <= first \/ first + n <= out ->
  bc_copy T mem first n out = Ok (overwrite mem out (firstn n (skipn first mem))).
Proof.
  intros T n mem first out. apply copy_ok.
Qed.

Lemma c330_overlap_refuted :
  forall T d n (mem : list Z) first, (0 < width T)%Z -> 0 < d -> patterns (width T) mem -> first + d + n <= length mem ->
  exists m, bc_copy T mem first n (first + d) = Ok m /\ length m = length mem /\
  forall j, nth_error m j = if (first + d <=? j) && (j <? first + d + n) then nth_error mem (first + (j - (first + d)) mod d) else nth_error mem j.
Proof.
  intros T d n mem first. apply overlap_ok.
Qed.

Lemma c331_fields :
  forall last ts args, length ts <= length args ->
  print (fields ts last) args = Ok (filled ts args last) /\ println (fields ts last) args = Ok (filled ts args last ++ [10%Z]).
Proof.
  intros last ts args H. split; [apply fields_ok, H|]. rewrite println_ok, fields_ok by exact H. reflexivity.
Qed.

Lemma c331_too_few :
  forall last ts args, length args < length ts -> print (fields ts last) args = Throw /\ println (fields ts last) args = Throw.
Proof.
  intros last ts args H. split; [apply fields_few, H|]. rewrite println_ok, fields_few by exact H. reflexivity.
Qed.

Lemma c331_dump :
  forall args, dump args = Ok (concat (map (fun a => a ++ [32%Z]) args) ++ [10%Z]).
Proof.
  intros args. apply dump_ok.
Qed.

Lemma c332_references :
  forall (V : Type) (mem : objs V) is os m2 vs, m_run mem os = Ok m2 -> Forall2 (fun i v => nth_error m2 i = Some (Some v)) is vs ->
  pack_make mem (map ByRef is) = (mem, is) /\ pack_apply m2 is = Ok vs.
Proof.
  intros V mem is os m2 vs. apply apply_refs.
Qed.

Lemma c332_get :
  forall (V : Type) (mem : objs V) args mem' ls os m2 k i, pack_make mem args = (mem', ls) -> nth_error args k = Some (ByRef i) ->
  m_run mem' os = Ok m2 -> pack_get m2 ls k = match nth_error m2 i with Some (Some v) => Ok v | _ => UB end.
Proof.
  intros V mem args mem' ls os m2 k i. apply ref_reads.
Qed.

Lemma c332_value_refuted :
  forall (V : Type) (mem : objs V) args mem' ls os m2 k v, pack_make mem args = (mem', ls) -> nth_error args k = Some (ByVal v) ->
  m_run mem' os = Ok m2 -> pack_get m2 ls k = UB.
Proof.
  intros V mem args mem' ls os m2 k v. apply value_dangles.
Qed.

Lemma c333_values :
  forall (V R S : Type) (f : S -> list V -> R * S * list (nat * V)) mem bs calls s,
  b_calls f mem (mk_bound s (map Own bs)) (map (map Own) calls) =
  Ok (fst (called f s (map (app bs) calls)), mem, snd (called f s (map (app bs) calls))).
Proof.
  intros V R S f mem bs calls s. apply values_calls.
Qed.

Lemma c333_seen :
  forall (V R S : Type) (f : S -> list V -> R * S * list (nat * V)) bs calls mem s l m s2,
  b_calls f mem (mk_bound s (map Own bs)) calls = Ok (l, m, s2) ->
  Forall2 (fun call e => exists avs, fst e = bs ++ avs /\ length avs = length call) calls l.
Proof.
  intros V R S f bs calls mem s l m s2. apply values_seen.
Qed.

Lemma c333_references :
  forall (V R S : Type) (f : S -> list V -> R * S * list (nat * V)) mem s ps args vs ws, shows mem ps vs -> shows mem args ws ->
  exists m, b_call f mem (mk_bound s ps) args =
    Ok (fst (fst (f s (vs ++ ws))), vs ++ ws, m, mk_bound (snd (fst (f s (vs ++ ws)))) ps) /\
  (forall i, (forall c, In c (ps ++ args) -> c <> Ref i) -> nth_error m i = nth_error mem i) /\
  (forall k i, nth_error (ps ++ args) k = Some (Ref i) -> (forall j, nth_error (ps ++ args) j = Some (Ref i) -> j = k) ->
    nth_error m i = last_to k (snd (f s (vs ++ ws))) (nth_error mem i)).
Proof.
  intros V R S f mem s ps args vs ws A B. destruct (call_ok f mem s ps args vs ws A B) as [m [C [D E]]]. exists m.
  split; [exact C|]. split.
  - intros i H. apply D. intros c IN RF. apply (H c IN). destruct c; cbn in RF; [contradiction|congruence].
  - intros k i N H. apply E; [exact N|]. intros j c X RF. apply H. destruct c; cbn in RF; [contradiction|congruence].
Qed.
