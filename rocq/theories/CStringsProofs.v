(** Proofs of C334-C337. *)
From Verif Require Import Common CStrings SpecCStrings.

Lemma upd_len : forall {A} (l : list A) i x, length (upd l i x) = length l.
Proof. induction l; intros [|i] x; cbn; auto. Qed.
Lemma nth_upd : forall {A} (l : list A) i j x,
  nth_error (upd l i x) j = if (i =? j) && (i <? length l) then Some x else nth_error l j.
Proof.
  induction l as [|a l IH]; intros [|i] [|j] x; cbn; try reflexivity.
  - rewrite andb_false_r. reflexivity.
  - rewrite IH. reflexivity.
Qed.
Lemma nth_lt : forall {A} (l : list A) i x, nth_error l i = Some x -> i < length l.
Proof. intros A l i x H. apply nth_error_Some. congruence. Qed.
Lemma rd_eq : forall {A} (l : list A) i x, nth_error l i = Some x -> rd l i = Ok x.
Proof. intros A l i x H. unfold rd. rewrite H. reflexivity. Qed.

(** * Length *)
Lemma length_loop : forall l pre fuel, terminated l -> length l < fuel ->
  string_length_loop fuel (pre ++ l) (length pre) = Ok (length pre + length (text l)).
Proof.
  induction l as [|ch l IH]; intros pre fuel T L; [destruct T|].
  destruct fuel as [|fuel]; [lia|]. cbn [string_length_loop].
  rewrite (rd_eq (pre ++ ch :: l) _ ch) by (rewrite nth_error_app2, Nat.sub_diag by lia; reflexivity).
  cbn [bind text]. destruct (ch =? 0)%Z eqn:E; [cbn [length]; f_equal; lia|].
  specialize (IH (pre ++ [ch]) fuel). rewrite <- app_assoc in IH. cbn [app] in IH. rewrite app_length in IH. cbn [length] in *.
  replace (S (length pre)) with (length pre + 1) by lia. rewrite IH; [f_equal; lia| |lia].
  destruct T as [T|T]; [|exact T]. subst ch. discriminate.
Qed.
Lemma get_live : forall m a b, nth_error m a = Some b -> b_live b = true -> get_buf m (Some a) = Ok b.
Proof. intros m a b H L. cbn. rewrite (rd_eq _ _ _ H). cbn. rewrite L. reflexivity. Qed.
Lemma c_of_ok : forall m a b, nth_error m a = Some b -> b_live b = true -> terminated (b_chars b) ->
  c_of m (Some a) = Ok (CStr (Some a) (length (text (b_chars b))) false).
Proof.
  intros m a b H L T. unfold c_of, string_length. rewrite (get_live _ _ _ H L). cbn [bind].
  pose proof (length_loop (b_chars b) [] (S (length (b_chars b))) T (Nat.lt_succ_diag_r _)) as E.
  cbn [app length] in E. rewrite E. reflexivity.
Qed.
Lemma c_of_bad : forall m a, length m <= a -> c_of m (Some a) = UB.
Proof. intros m a H. unfold c_of, string_length, get_buf, rd. apply nth_error_None in H. rewrite H. reflexivity. Qed.

(** * Variables *)
Lemma views_nth : forall m vs xs x, views m vs xs ->
  match nth_error vs x, nth_error xs x with
  | Some v, Some y => view_of m v y
  | None, None => True
  | _, _ => False
  end.
Proof.
  intros m vs xs x H. revert x. induction H as [|v y vs xs A B IH]; intros [|x]; cbn; auto. apply IH.
Qed.
Lemma views_upd : forall m vs xs x v y, views m vs xs -> view_of m v y -> views m (upd vs x v) (upd xs x y).
Proof.
  intros m vs xs x v y H. revert x. induction H as [|v' y' vs xs A B IH]; intros [|x] W; cbn; constructor; auto. apply IH, W.
Qed.
Lemma view_move : forall m s p, view_of m (Some s) (Some p) -> view_of m (Some (c_move s)) (Some p).
Proof. intros m [d n l] p H. exact H. Qed.

Lemma n_step_ok : forall m vs xs o, strings m -> views m vs xs -> borrowing o ->
  match n_step (length m) xs o with
  | Some ys => exists ws, c_step (m, vs) o = Ok (m, ws) /\ views m ws ys
  | None => c_step (m, vs) o = UB
  end.
Proof.
  intros m vs xs o M H B.
  assert (N := fun x => views_nth m vs xs x H).
  destruct o as [x a|x|x y|x y|x y|x|x|x]; cbn [n_step c_step]; try (destruct B; fail); unfold fresh, obj, rd.
  - specialize (N x). destruct (nth_error vs x) as [[s|]|]; destruct (nth_error xs x) as [[p|]|]; try (destruct N; fail); cbn [bind andb]; try reflexivity.
    destruct (a <? length m) eqn:E.
    + apply Nat.ltb_lt in E. destruct (nth_error m a) as [b|] eqn:F; [|apply nth_error_None in F; lia].
      pose proof M as MM. unfold strings in MM. rewrite Forall_forall in MM. destruct (MM b (nth_error_In _ _ F)) as [L T].
      rewrite (c_of_ok m a b F L T). cbn [bind]. eexists. split; [reflexivity|]. apply views_upd; [exact H|].
      cbn. rewrite F. repeat split; [discriminate|]. intros a' Q. injection Q as <-. exact E.
    + apply Nat.ltb_ge in E. rewrite c_of_bad by exact E. reflexivity.
  - specialize (N x). destruct (nth_error vs x) as [[s|]|]; destruct (nth_error xs x) as [[p|]|]; try (destruct N; fail); cbn [bind]; try reflexivity.
    eexists. split; [reflexivity|]. apply views_upd; [exact H|]. cbn. repeat split. discriminate.
  - pose proof (N x) as Nx. pose proof (N y) as Ny.
    destruct (nth_error vs x) as [[s|]|]; destruct (nth_error xs x) as [[p|]|]; try (destruct Nx; fail);
    destruct (nth_error vs y) as [[t|]|]; destruct (nth_error xs y) as [[q|]|]; try (destruct Ny; fail); cbn [bind]; try reflexivity.
    eexists. split; [reflexivity|]. apply views_upd; [exact H|]. apply view_move, Ny.
  - pose proof (N x) as Nx. pose proof (N y) as Ny.
    destruct (nth_error vs x) as [[s|]|]; destruct (nth_error xs x) as [[p|]|]; try (destruct Nx; fail);
    destruct (nth_error vs y) as [[t|]|]; destruct (nth_error xs y) as [[q|]|]; try (destruct Ny; fail); cbn [bind]; try reflexivity.
    eexists. split; [reflexivity|]. apply views_upd; [exact H|]. apply view_move, Ny.
  - pose proof (N x) as Nx. pose proof (N y) as Ny.
    destruct (nth_error vs x) as [[s|]|]; destruct (nth_error xs x) as [[p|]|]; try (destruct Nx; fail);
    destruct (nth_error vs y) as [[t|]|]; destruct (nth_error xs y) as [[q|]|]; try (destruct Ny; fail); cbn [bind c_swap]; try reflexivity.
    eexists. split; [reflexivity|]. apply views_upd; [apply views_upd; [exact H|]|]; apply view_move; assumption.
  - specialize (N x). destruct (nth_error vs x) as [[s|]|]; destruct (nth_error xs x) as [[p|]|]; try (destruct N; fail); cbn [bind]; try reflexivity.
    eexists. split; [reflexivity|]. apply views_upd; [exact H|]. cbn. repeat split; discriminate.
  - specialize (N x). destruct (nth_error vs x) as [[s|]|]; destruct (nth_error xs x) as [[p|]|]; try (destruct N; fail); cbn [bind]; try reflexivity.
    destruct N as [D [Z [L _]]]. unfold c_destroy.
    assert (Q : (match c_data s with Some a => if c_local s then delete_array m a else Ok m | None => Ok m end) = Ok m).
    { rewrite D. destruct p as [a|]; [|reflexivity]. destruct (c_local s); [specialize (L eq_refl); discriminate|reflexivity]. }
    rewrite Q. cbn [bind]. eexists. split; [reflexivity|]. apply views_upd; [exact H|]. constructor.
Qed.
Lemma n_run_ok : forall m os vs xs, strings m -> views m vs xs -> Forall borrowing os ->
  match n_run (length m) xs os with
  | Some ys => exists ws, c_run (m, vs) os = Ok (m, ws) /\ views m ws ys
  | None => c_run (m, vs) os = UB
  end.
Proof.
  intros m os. induction os as [|o os IH]; intros vs xs M H B; cbn [n_run c_run]; [exists vs; split; [reflexivity|exact H]|].
  inversion B as [|? ? B1 B2]; subst. pose proof (n_step_ok m vs xs o M H B1) as E. destruct (n_step (length m) xs o) as [ys|].
  - destruct E as [ws [E W]]. rewrite E. cbn [bind]. apply IH; assumption.
  - rewrite E. reflexivity.
Qed.

(** * Observers *)
Lemma text_prefix : forall l, text l = firstn (length (text l)) l.
Proof. induction l as [|ch l IH]; cbn; [reflexivity|]. destruct (ch =? 0)%Z; cbn; [reflexivity|]. f_equal. exact IH. Qed.
Lemma text_le : forall l, length (text l) <= length l.
Proof. induction l as [|ch l IH]; cbn; [lia|]. destruct (ch =? 0)%Z; cbn; lia. Qed.
Lemma text_nth : forall l i c, nth_error (text l) i = Some c -> nth_error l i = Some c.
Proof.
  induction l as [|ch l IH]; intros i c; cbn; [destruct i; discriminate|]. destruct (ch =? 0)%Z; [destruct i; discriminate|].
  destruct i as [|i]; cbn; [auto|apply IH].
Qed.
Lemma text_end : forall l, terminated l -> nth_error l (length (text l)) = Some 0%Z.
Proof.
  induction l as [|ch l IH]; intros T; [destruct T|]. cbn. destruct (ch =? 0)%Z eqn:E; cbn; [apply Z.eqb_eq in E; subst; reflexivity|].
  apply IH. destruct T as [T|T]; [subst; discriminate|exact T].
Qed.
Lemma observe_ok : forall m s p, strings m -> view_of m (Some s) (Some p) ->
  c_to_string m s = Ok (pointee m p) /\ c_size s = length (pointee m p) /\
  (c_is_null s = true <-> p = None) /\ (c_empty s = true <-> pointee m p = []) /\ c_bool s = negb (c_empty s).
Proof.
  intros m [d n l] p M [D [N [L A]]]. cbn in D, N, L. subst d n. unfold c_to_string, c_bool, c_empty, c_is_null. cbn [c_data c_size].
  destruct p as [a|].
  - specialize (A a eq_refl). destruct (nth_error m a) as [b|] eqn:F; [|apply nth_error_None in F; lia].
    pose proof M as MM. unfold strings in MM. rewrite Forall_forall in MM. destruct (MM b (nth_error_In _ _ F)) as [V T].
    cbn [pointee]. rewrite F. split; [|split; [reflexivity|split; [split; discriminate|split; [|reflexivity]]]].
    + destruct (length (text (b_chars b))) as [|k] eqn:E; [destruct (text (b_chars b)); [reflexivity|discriminate]|].
      rewrite (get_live _ _ _ F V). cbn [bind]. rewrite <- E.
      replace (length (text (b_chars b)) <=? length (b_chars b)) with true by (symmetry; apply Nat.leb_le, text_le).
      rewrite <- text_prefix. reflexivity.
    + cbn [orb]. rewrite Nat.eqb_eq. split; [apply length_zero_iff_nil|intros ->; reflexivity].
  - cbn. repeat split; auto.
Qed.
Lemma at_ok : forall m s a b i, nth_error m a = Some b -> b_live b = true -> terminated (b_chars b) -> view_of m (Some s) (Some (Some a)) ->
  (forall c, nth_error (text (b_chars b)) i = Some c -> c_at m s i = Ok c) /\ c_at m s (c_size s) = Ok 0%Z.
Proof.
  intros m [d n l] a b i F V T [D [N _]]. cbn in D, N. subst d n. unfold c_at. cbn [c_data c_size]. rewrite (get_live _ _ _ F V). cbn [bind].
  split; [intros c H; apply rd_eq, text_nth, H|]. rewrite F. apply rd_eq, text_end, T.
Qed.

(** * Ownership *)
Lemma delete_ok : forall m a b, nth_error m a = Some b -> b_live b = true -> b_heap b = true -> delete_array m a = Ok (upd m a (dead b)).
Proof. intros m a b H L P. unfold delete_array. rewrite (get_live _ _ _ H L). cbn [bind]. rewrite P. unfold dead. rewrite P. reflexivity. Qed.
Lemma obj_ok : forall vs x s, nth_error vs x = Some (Some s) -> obj vs x = Ok s.
Proof. intros vs x s H. unfold obj. rewrite (rd_eq _ _ _ H). reflexivity. Qed.
Lemma fresh_ok : forall vs x, nth_error vs x = Some None -> fresh vs x = Ok tt.
Proof. intros vs x H. unfold fresh. rewrite (rd_eq _ _ _ H). reflexivity. Qed.
Lemma map_upd : forall {A B} (f : A -> B) l i x, map f (upd l i x) = upd (map f l) i (f x).
Proof. induction l as [|a l IH]; intros [|i] x; cbn; try reflexivity. rewrite IH. reflexivity. Qed.
Lemma holds_nth : forall vs x, nth_error (map holds vs) x = match nth_error vs x with Some v => Some (holds v) | None => None end.
Proof. intros vs x. rewrite nth_error_map. destruct (nth_error vs x); reflexivity. Qed.
(** Changing a variable to something that points nowhere, or to what it pointed to. *)
Lemma excl_upd : forall m vs x v s, exclusive m vs -> nth_error vs x = Some s ->
  (forall t a, v = Some t -> c_data t = Some a -> exists s', s = Some s' /\ c_data s' = Some a) -> exclusive m (upd vs x v).
Proof.
  intros m vs x v s [U L] X H. pose proof (nth_lt _ _ _ X) as XL. apply Nat.ltb_lt in XL.
  assert (K : forall y t a, nth_error (upd vs x v) y = Some (Some t) -> c_data t = Some a -> exists t', nth_error vs y = Some (Some t') /\ c_data t' = Some a).
  { intros y t a Y D. rewrite nth_upd, XL, andb_true_r in Y. destruct (x =? y) eqn:E.
    - apply Nat.eqb_eq in E. subst y. injection Y as ->. destruct (H t a eq_refl D) as [s' [-> Q]]. exists s'. split; assumption.
    - exists t. split; assumption. }
  split.
  - intros y z t u a Y Z D E. destruct (K y t a Y D) as [t' [Y' D']]. destruct (K z u a Z E) as [u' [Z' E']].
    exact (U y z t' u' a Y' Z' D' E').
  - intros y t a Y D. destruct (K y t a Y D) as [t' [Y' D']]. exact (L y t' a Y' D').
Qed.
Lemma excl_swap : forall m vs x y s t, exclusive m vs -> nth_error vs x = Some (Some s) -> nth_error vs y = Some (Some t) ->
  exclusive m (upd (upd vs x (Some (c_move t))) y (Some (c_move s))).
Proof.
  intros m vs x y s t [U L] X Y. pose proof (nth_lt _ _ _ X) as XL. pose proof (nth_lt _ _ _ Y) as YL. apply Nat.ltb_lt in XL, YL.
  set (sw := fun z => if z =? y then x else if z =? x then y else z).
  assert (K : forall z u a, nth_error (upd (upd vs x (Some (c_move t))) y (Some (c_move s))) z = Some (Some u) -> c_data u = Some a ->
    exists u', nth_error vs (sw z) = Some (Some u') /\ c_data u' = Some a).
  { intros z u a Z D. rewrite nth_upd, upd_len, YL, andb_true_r in Z. unfold sw. rewrite (Nat.eqb_sym z y), (Nat.eqb_sym z x).
    destruct (y =? z) eqn:E; [injection Z as <-; exists s; split; [exact X|exact D]|].
    rewrite nth_upd, XL, andb_true_r in Z. destruct (x =? z) eqn:F; [injection Z as <-; exists t; split; [exact Y|exact D]|].
    exists u. split; assumption. }
  assert (J : forall z w, sw z = sw w -> z = w).
  { intros z w. unfold sw. destruct (Nat.eqb_spec z y), (Nat.eqb_spec w y), (Nat.eqb_spec z x), (Nat.eqb_spec w x); lia. }
  split.
  - intros z w u v a Z W D E. destruct (K z u a Z D) as [u' [Z' D']]. destruct (K w v a W E) as [v' [W' E']].
    apply J. exact (U _ _ u' v' a Z' W' D' E').
  - intros z u a Z D. destruct (K z u a Z D) as [u' [Z' D']]. exact (L _ u' a Z' D').
Qed.
Lemma excl_free : forall m vs x s a b, exclusive m vs -> nth_error vs x = Some (Some s) -> c_data s = Some a ->
  exclusive (upd m a b) (upd vs x None).
Proof.
  intros m vs x s a b [U L] X D. pose proof (nth_lt _ _ _ X) as XL. apply Nat.ltb_lt in XL.
  assert (K : forall y t, nth_error (upd vs x None) y = Some (Some t) -> nth_error vs y = Some (Some t) /\ y <> x).
  { intros y t Y. rewrite nth_upd, XL, andb_true_r in Y. destruct (Nat.eqb_spec x y); [discriminate|]. split; [exact Y|lia]. }
  split.
  - intros y z t u c Y Z E F. apply K in Y, Z. exact (U y z t u c (proj1 Y) (proj1 Z) E F).
  - intros y t c Y E. apply K in Y. destruct Y as [Y N]. destruct (L y t c Y E) as [b' [B P]]. exists b'. split; [|exact P].
    rewrite nth_upd. destruct (Nat.eqb_spec a c); [|exact B]. subst c. exfalso. apply N. exact (U y x t s a Y X E D).
Qed.

Lemma o_step_ok : forall m vs o, exclusive m vs -> moves_nothing o ->
  match o_step (map holds vs) o with
  | Some (ys, freed) => exists m' ws, c_step (m, vs) o = Ok (m', ws) /\ map holds ws = ys /\ exclusive m' ws /\
      NoDup freed /\ after_freeing freed m m'
  | None => c_step (m, vs) o = UB
  end.
Proof.
  assert (AF : forall m : list buf, after_freeing [] m m) by (intros m; split; [reflexivity|]; split; [intros a b _ []|reflexivity]).
  intros m vs o X MN. destruct o as [x a|x|x y|x y|x y|x|x|x]; try (destruct MN; fail); cbn [o_step c_step]; rewrite ?holds_nth.
  - unfold fresh, rd. destruct (nth_error vs x) as [[s|]|] eqn:E; cbn [holds bind]; try reflexivity.
    do 2 eexists. split; [reflexivity|]. split; [rewrite map_upd; reflexivity|]. split; [|split; [constructor|apply AF]].
    apply (excl_upd m vs x _ None X E). intros t a Q. injection Q as <-. discriminate.
  - unfold obj, rd. destruct (nth_error vs x) as [[s|]|] eqn:E; cbn [holds bind]; try reflexivity.
    destruct (nth_error vs y) as [[t|]|] eqn:F; cbn [holds bind]; try reflexivity.
    do 2 eexists. split; [reflexivity|]. split; [rewrite !map_upd; reflexivity|]. split; [|split; [constructor|apply AF]].
    exact (excl_swap m vs x y s t X E F).
  - unfold obj, rd. destruct (nth_error vs x) as [[s|]|] eqn:E; cbn [holds bind]; try reflexivity.
    do 2 eexists. split; [reflexivity|]. split; [rewrite !map_upd; reflexivity|]. split; [|split; [constructor|apply AF]].
    apply (excl_upd m vs x _ _ X E). intros t a Q. injection Q as <-. discriminate.
  - unfold obj, rd. destruct (nth_error vs x) as [[s|]|] eqn:E; cbn [holds bind]; try reflexivity.
    do 2 eexists. split; [reflexivity|]. split; [rewrite !map_upd; reflexivity|]. split; [|split; [constructor|apply AF]].
    apply (excl_upd m vs x _ _ X E). intros t a Q D. injection Q as <-. exists s. split; [reflexivity|exact D].
  - unfold obj, rd. destruct (nth_error vs x) as [[s|]|] eqn:E; cbn [holds bind]; try reflexivity.
    unfold c_destroy. destruct (c_data s) as [a|] eqn:D; [destruct (c_local s) eqn:L|]; cbn [bind].
    + destruct (proj2 X x s a E D) as [b [B [V P]]]. rewrite (delete_ok m a b B V P). cbn [bind].
      do 2 eexists. split; [reflexivity|]. split; [rewrite map_upd; reflexivity|]. split; [exact (excl_free m vs x s a _ X E D)|].
      split; [repeat constructor; intros []|]. pose proof (nth_lt _ _ _ B) as AL. apply Nat.ltb_lt in AL.
      split; [apply upd_len|]. split.
      * intros c d C [<-|[]]. rewrite nth_upd, Nat.eqb_refl, AL. cbn. rewrite C in B. injection B as ->. split; [exact V|reflexivity].
      * intros c N. rewrite nth_upd. destruct (Nat.eqb_spec a c); [|reflexivity]. subst c. exfalso. apply N. left. reflexivity.
    + do 2 eexists. split; [reflexivity|]. split; [rewrite map_upd; reflexivity|]. split; [|split; [constructor|apply AF]].
      apply (excl_upd m vs x _ _ X E). intros t c Q. discriminate.
    + do 2 eexists. split; [reflexivity|]. split; [rewrite map_upd; reflexivity|]. split; [|split; [constructor|apply AF]].
      apply (excl_upd m vs x _ _ X E). intros t c Q. discriminate.
Qed.
Lemma after_trans : forall f g m1 m2 m3, NoDup f -> NoDup g -> after_freeing f m1 m2 -> after_freeing g m2 m3 ->
  (forall a, In a g -> a < length m2) -> NoDup (f ++ g) /\ after_freeing (f ++ g) m1 m3.
Proof.
  intros f g m1 m2 m3 F G [L1 [A1 B1]] [L2 [A2 B2]] K.
  assert (DJ : forall a, In a f -> In a g -> False).
  { intros a X Y. pose proof (K a Y) as AL. rewrite L1 in AL. apply nth_error_Some in AL.
    destruct (nth_error m1 a) as [b|] eqn:E; [|congruence]. destruct (A1 a b E X) as [_ Q]. destruct (A2 a (dead b) Q Y) as [Z _]. discriminate. }
  split.
  - clear - F G DJ. induction f as [|a f IH]; [exact G|]. cbn. inversion F; subst. constructor.
    + rewrite in_app_iff. intros [Q|Q]; [contradiction|]. apply (DJ a); [left; reflexivity|exact Q].
    + apply IH; [assumption|]. intros c Q. apply DJ. right. exact Q.
  - split; [congruence|]. split.
    + intros a b E Q. apply in_app_iff in Q. destruct Q as [Q|Q].
      * destruct (A1 a b E Q) as [V W]. split; [exact V|]. rewrite B2; [exact W|]. intros R. exact (DJ a Q R).
      * assert (N : ~ In a f) by (intros R; exact (DJ a R Q)). rewrite <- (B1 a N) in E. exact (A2 a b E Q).
    + intros a N. rewrite in_app_iff in N. rewrite B2, B1; tauto.
Qed.
Lemma freed_lt : forall m vs o ys freed a, exclusive m vs -> o_step (map holds vs) o = Some (ys, freed) -> In a freed -> a < length m.
Proof.
  intros m vs o ys freed a X E Q. destruct o as [x c|x|x y|x y|x y|x|x|x]; cbn [o_step] in E; rewrite ?holds_nth in E.
  all: try discriminate.
  - destruct (nth_error vs x) as [[s|]|]; cbn in E; try discriminate. injection E as <- <-. destruct Q.
  - destruct (nth_error vs x) as [[s|]|]; cbn in E; try discriminate. destruct (nth_error vs y) as [[t|]|]; cbn in E; try discriminate.
    injection E as <- <-. destruct Q.
  - destruct (nth_error vs x) as [[s|]|]; cbn in E; try discriminate. injection E as <- <-. destruct Q.
  - destruct (nth_error vs x) as [[s|]|]; cbn in E; try discriminate. injection E as <- <-. destruct Q.
  - destruct (nth_error vs x) as [[s|]|] eqn:F; cbn in E; try discriminate. destruct (c_data s) as [c|] eqn:D; [destruct (c_local s)|];
    injection E as <- <-; try (destruct Q; fail). destruct Q as [<-|[]]. destruct (proj2 X x s c F D) as [b [B _]]. exact (nth_lt _ _ _ B).
Qed.
Lemma o_run_ok : forall os m vs, exclusive m vs -> Forall moves_nothing os ->
  match o_run (map holds vs) os with
  | Some (ys, freed) => exists m' ws, c_run (m, vs) os = Ok (m', ws) /\ map holds ws = ys /\ exclusive m' ws /\
      NoDup freed /\ after_freeing freed m m' /\ (forall a, In a freed -> a < length m)
  | None => c_run (m, vs) os = UB
  end.
Proof.
  induction os as [|o os IH]; intros m vs X F; cbn [o_run c_run].
  - exists m, vs. split; [reflexivity|]. split; [reflexivity|]. split; [exact X|]. split; [constructor|]. split; [|intros a []].
    split; [reflexivity|]. split; [intros a b _ []|reflexivity].
  - inversion F as [|? ? F1 F2]; subst. pose proof (o_step_ok m vs o X F1) as E. destruct (o_step (map holds vs) o) as [[ys fr]|] eqn:OS.
    + destruct E as [m' [ws [E [H [X' [N A]]]]]]. subst ys. rewrite E. cbn [bind]. specialize (IH m' ws X' F2).
      destruct (o_run (map holds ws) os) as [[zs fr']|]; [|exact IH].
      destruct IH as [m2 [us [E2 [H2 [X2 [N2 [A2 L2]]]]]]]. exists m2, us. split; [exact E2|]. split; [exact H2|]. split; [exact X2|].
      destruct (after_trans fr fr' m m' m2 N N2 A A2 L2) as [P Q]. split; [exact P|]. split; [exact Q|].
      intros a R. apply in_app_iff in R. destruct R as [R|R]; [exact (freed_lt m vs o _ fr a X OS R)|]. rewrite <- (proj1 A). exact (L2 a R).
    + rewrite E. reflexivity.
Qed.

(** * Owners that are swapped and destroyed *)
Definition hp (h : option (option nat * bool)) : list nat := match h with Some (Some a, _) => [a] | _ => [] end.
Lemma pointers_holds : forall vs, pointers vs = flat_map hp (map holds vs).
Proof. unfold pointers. induction vs as [|[s|] vs IH]; cbn; [reflexivity| |exact IH]. rewrite IH. destruct (c_data s); reflexivity. Qed.
Lemma pointer_in : forall vs x s a, nth_error vs x = Some (Some s) -> c_data s = Some a -> In a (pointers vs).
Proof.
  intros vs x s a X D. unfold pointers. apply in_flat_map. exists (Some s). split; [exact (nth_error_In _ _ X)|]. rewrite D. left. reflexivity.
Qed.
Lemma excl_of_nodup : forall m vs, NoDup (pointers vs) -> (forall a, In a (pointers vs) -> exists b, nth_error m a = Some b /\ b_live b = true /\ b_heap b = true) ->
  exclusive m vs.
Proof.
  intros m vs N L. split.
  - clear L. induction vs as [|v vs IH]; intros x y s t a X Y D E; [destruct x; discriminate|].
    cbn [pointers flat_map] in N. fold (pointers vs) in N.
    assert (N2 : NoDup (pointers vs)) by (clear - N; destruct v as [s|]; [destruct (c_data s)|]; cbn in N; try (inversion N; assumption); exact N).
    destruct x as [|x], y as [|y]; cbn in X, Y; try reflexivity.
    + injection X as ->. rewrite D in N. cbn in N. inversion N as [|? ? N1 _]; subst. exfalso. apply N1. exact (pointer_in vs y t a Y E).
    + injection Y as ->. rewrite E in N. cbn in N. inversion N as [|? ? N1 _]; subst. exfalso. apply N1. exact (pointer_in vs x s a X D).
    + f_equal. exact (IH N2 x y s t a X Y D E).
  - intros x s a X D. apply L. exact (pointer_in vs x s a X D).
Qed.
Definition owner (h : option (option nat * bool)) : Prop := exists a, h = Some (Some a, true).
Lemma owner_nth : forall xs x, Forall owner xs -> x < length xs -> exists a, nth_error xs x = Some (Some (Some a, true)).
Proof.
  intros xs x F L. apply nth_error_Some in L. destruct (nth_error xs x) as [h|] eqn:E; [|congruence].
  rewrite Forall_forall in F. destruct (F h (nth_error_In _ _ E)) as [a ->]. exists a. reflexivity.
Qed.
Lemma owner_upd : forall xs x a, Forall owner xs -> Forall owner (upd xs x (Some (Some a, true))).
Proof.
  intros xs. induction xs as [|h xs IH]; intros [|x] a F; cbn; try constructor; inversion F; subst; auto. exists a. reflexivity.
Qed.
Lemma split_nth : forall {A} (l : list A) i x, nth_error l i = Some x -> exists l1 l2, l = l1 ++ x :: l2 /\ length l1 = i.
Proof. intros A l i x H. destruct (nth_error_split l i H) as [l1 [l2 [E L]]]. exists l1, l2. split; assumption. Qed.
Lemma upd_mid : forall {A} (l1 l2 : list A) x y, upd (l1 ++ x :: l2) (length l1) y = l1 ++ y :: l2.
Proof. induction l1 as [|a l1 IH]; intros l2 x y; cbn; [reflexivity|]. rewrite IH. reflexivity. Qed.
Lemma swap_perm : forall {A} (l : list A) x y a b, nth_error l x = Some a -> nth_error l y = Some b ->
  Permutation (upd (upd l x b) y a) l.
Proof.
  intros A l. induction l as [|h l IH]; intros x y a b X Y; [destruct x; discriminate|].
  destruct x as [|x], y as [|y]; cbn in X, Y |- *.
  - injection X as ->. injection Y as ->. reflexivity.
  - injection X as ->. destruct (split_nth l y b Y) as [l1 [l2 [-> L]]]. subst y. rewrite upd_mid.
    rewrite <- (Permutation_middle l1 l2 a), <- (Permutation_middle l1 l2 b). apply perm_swap.
  - injection Y as ->. destruct (split_nth l x a X) as [l1 [l2 [-> L]]]. subst x. rewrite upd_mid.
    rewrite <- (Permutation_middle l1 l2 a), <- (Permutation_middle l1 l2 b). apply perm_swap.
  - constructor. exact (IH x y a b X Y).
Qed.
Lemma run_app : forall os os' xs, o_run xs (os ++ os') = match o_run xs os with
  | Some (ys, f) => match o_run ys os' with Some (zs, g) => Some (zs, f ++ g) | None => None end | None => None end.
Proof.
  induction os as [|o os IH]; intros os' xs; cbn [app o_run].
  - destruct (o_run xs os') as [[zs g]|]; reflexivity.
  - destruct (o_step xs o) as [[ys f]|]; [|reflexivity]. rewrite IH. destruct (o_run ys os) as [[zs g]|]; [|reflexivity].
    destruct (o_run zs os') as [[us h]|]; [|reflexivity]. rewrite app_assoc. reflexivity.
Qed.
Lemma swaps_run : forall ps xs, Forall owner xs -> Forall (fun p => fst p < length xs /\ snd p < length xs) ps ->
  exists ys, o_run xs (map (fun p => CSwap (fst p) (snd p)) ps) = Some (ys, []) /\ Forall owner ys /\ length ys = length xs /\ Permutation ys xs.
Proof.
  induction ps as [|[x y] ps IH]; intros xs F P; cbn [map o_run].
  - exists xs. repeat split; auto.
  - inversion P as [|? ? [P1 P2] P3]; subst. cbn [fst snd] in P1, P2 |- *. cbn [o_step].
    destruct (owner_nth xs x F P1) as [a A]. destruct (owner_nth xs y F P2) as [b B]. rewrite A, B.
    destruct (IH (upd (upd xs x (Some (Some b, true))) y (Some (Some a, true)))) as [ys [E [O [L Q]]]].
    + apply owner_upd, owner_upd, F.
    + rewrite !upd_len. exact P3.
    + rewrite E. exists ys. split; [reflexivity|]. split; [exact O|]. rewrite !upd_len in L. split; [exact L|].
      rewrite Q. apply swap_perm; assumption.
Qed.
Lemma destroy_run : forall xs k, Forall owner xs ->
  o_run (repeat None k ++ xs) (map CDestroy (seq k (length xs))) = Some (repeat None (k + length xs), flat_map hp xs).
Proof.
  induction xs as [|h xs IH]; intros k F; cbn [length seq map o_run].
  - rewrite app_nil_r, Nat.add_0_r. reflexivity.
  - inversion F as [|? ? [a ->] F2]; subst. cbn [o_step].
    assert (L : length (repeat (@None (option nat * bool)) k) = k) by apply repeat_length.
    rewrite nth_error_app2, L, Nat.sub_diag by lia. cbn [nth_error].
    rewrite <- L at 2. rewrite upd_mid.
    replace (repeat None k ++ None :: xs) with (repeat (@None (option nat * bool)) (S k) ++ xs).
    + rewrite (IH (S k) F2). cbn [flat_map hp app]. do 2 f_equal. f_equal. lia.
    + replace (S k) with (k + 1) by lia. rewrite repeat_app, <- app_assoc. reflexivity.
Qed.
Lemma list_ext : forall {A} (l k : list A), (forall i, nth_error l i = nth_error k i) -> l = k.
Proof.
  intros A. induction l as [|a l IH]; intros [|b k] H; [reflexivity|specialize (H 0); discriminate|specialize (H 0); discriminate|].
  pose proof (H 0) as E. injection E as ->. f_equal. apply IH. intros i. exact (H (S i)).
Qed.
Lemma all_dead : forall m m' freed, after_freeing freed m m' -> Permutation freed (seq 0 (length m)) -> m' = map dead m.
Proof.
  intros m m' freed [L [A _]] P. apply list_ext. intros i. rewrite nth_error_map.
  destruct (nth_error m i) as [b|] eqn:E.
  - apply (A i b E). apply (Permutation_in _ (Permutation_sym P)). apply in_seq. pose proof (nth_lt _ _ _ E). lia.
  - apply nth_error_None in E. apply nth_error_None. lia.
Qed.
Lemma scope_end : forall m vs ps, Forall owns vs -> Permutation (pointers vs) (seq 0 (length m)) ->
  Forall (fun b => b_live b = true /\ b_heap b = true) m ->
  Forall (fun p => fst p < length vs /\ snd p < length vs) ps ->
  exists ws, c_run (m, vs) (map (fun p => CSwap (fst p) (snd p)) ps ++ map CDestroy (seq 0 (length vs))) = Ok (map dead m, ws) /\
    Forall (fun v => v = None) ws.
Proof.
  intros m vs ps O P M PS.
  assert (X : exclusive m vs).
  { apply excl_of_nodup; [exact (Permutation_NoDup (Permutation_sym P) (seq_NoDup _ _))|].
    intros a Q. apply (Permutation_in _ P), in_seq in Q. destruct (nth_error m a) as [b|] eqn:E; [|apply nth_error_None in E; lia].
    exists b. split; [reflexivity|]. rewrite Forall_forall in M. exact (M b (nth_error_In _ _ E)). }
  assert (OW : Forall owner (map holds vs)).
  { apply Forall_map. eapply Forall_impl; [|exact O]. intros v [a [n ->]]. exists a. reflexivity. }
  destruct (swaps_run ps (map holds vs) OW) as [ys [E [OY [LY Q]]]]; [rewrite map_length; exact PS|].
  pose proof (destroy_run ys 0 OY) as D. cbn [repeat app Nat.add] in D. rewrite LY, map_length in D.
  pose proof (o_run_ok (map (fun p => CSwap (fst p) (snd p)) ps ++ map CDestroy (seq 0 (length vs))) m vs X) as R.
  rewrite run_app, E, D in R. cbn [app] in R.
  destruct R as [m' [ws [R1 [R2 [_ [_ [R3 _]]]]]]].
  - apply Forall_app. split; apply Forall_map; apply Forall_forall; intros; exact Logic.I.
  - exists ws. assert (FP : Permutation (flat_map hp ys) (seq 0 (length m))).
    { rewrite <- P, pointers_holds. apply Permutation_flat_map, Q. }
    rewrite R1, (all_dead m m' _ R3 FP). split; [reflexivity|].
    clear - R2. revert R2. generalize (length vs) as n. induction ws as [|w ws IH]; intros n R2; [constructor|].
    destruct n as [|n]; [discriminate|]. cbn in R2. injection R2 as W R2. constructor; [destruct w; [discriminate|reflexivity]|exact (IH n R2)].
Qed.

(** * Moves of owners *)
Lemma double_delete : forall m a b, nth_error m a = Some b -> b_live b = true -> b_heap b = true -> terminated (b_chars b) ->
  c_run (m, [None; None]) [COf 0 a; COwn 0; CMoveTo 1 0; CDestroy 1] = Ok (upd m a (dead b), [Some (CStr (Some a) (length (text (b_chars b))) true); None]) /\
  c_run (m, [None; None]) [COf 0 a; COwn 0; CMoveTo 1 0; CDestroy 1; CDestroy 0] = UB.
Proof.
  intros m a b E V P T. pose proof (c_of_ok m a b E V T) as C. pose proof (delete_ok m a b E V P) as D.
  cbn [c_run c_step fresh obj rd nth_error bind upd c_move c_own c_data c_size c_local]. rewrite C.
  cbn [c_run c_step fresh obj rd nth_error bind upd c_move c_own c_data c_size c_local c_destroy]. rewrite D.
  cbn [c_run c_step fresh obj rd nth_error bind upd c_move c_own c_data c_size c_local c_destroy]. split; [reflexivity|].
  unfold delete_array, get_buf, rd. rewrite nth_upd, Nat.eqb_refl. pose proof (nth_lt _ _ _ E) as L. apply Nat.ltb_lt in L. rewrite L. reflexivity.
Qed.
Lemma assign_leak : forall m a b c d, nth_error m a = Some b -> b_live b = true -> terminated (b_chars b) ->
  nth_error m c = Some d -> b_live d = true -> terminated (b_chars d) ->
  c_run (m, [None; None]) [COf 0 a; COwn 0; COf 1 c; CAssign 0 1; CDestroy 0; CDestroy 1] = Ok (m, [None; None]).
Proof.
  intros m a b c d E V T F W U. pose proof (c_of_ok m a b E V T) as C. pose proof (c_of_ok m c d F W U) as D.
  cbn [c_run c_step fresh obj rd nth_error bind upd c_move c_own c_data c_size c_local c_destroy]. rewrite C.
  cbn [c_run c_step fresh obj rd nth_error bind upd c_move c_own c_data c_size c_local c_destroy]. rewrite D. reflexivity.
Qed.

(** * Comparisons *)
Lemma strcmp_ok : forall s t p q fuel, terminated s -> terminated t -> length p = length q -> length s < fuel -> bytes s -> bytes t ->
  exists v, strcmp_loop fuel (p ++ s) (q ++ t) (length p) = Ok v /\
    ((v < 0)%Z /\ before (text s) (text t) \/ v = 0%Z /\ text s = text t \/ (v > 0)%Z /\ before (text t) (text s)).
Proof.
  induction s as [|x s IH]; intros t p q fuel S T L F BS BT; [destruct S|]. destruct t as [|y t]; [destruct T|].
  destruct fuel as [|fuel]; [lia|]. cbn [strcmp_loop].
  rewrite (rd_eq (p ++ x :: s) _ x) by (rewrite nth_error_app2, Nat.sub_diag by lia; reflexivity).
  rewrite (rd_eq (q ++ y :: t) _ y) by (rewrite L, nth_error_app2, Nat.sub_diag by lia; reflexivity). cbn [bind text].
  inversion BS as [|? ? X BS2]; subst. inversion BT as [|? ? Y BT2]; subst.
  destruct (Z.eqb_spec x y) as [->|N].
  - destruct (Z.eqb_spec y 0) as [->|Z0]; [exists 0%Z; split; [reflexivity|right; left; split; reflexivity]|].
    destruct (IH t (p ++ [y]) (q ++ [y]) fuel) as [v [E C]].
    + destruct S as [S|S]; [congruence|exact S].
    + destruct T as [T|T]; [congruence|exact T].
    + rewrite !app_length. cbn. lia.
    + cbn in F. lia.
    + exact BS2.
    + exact BT2.
    + rewrite <- !app_assoc, app_length, Nat.add_1_r in E. cbn [app] in E. exists v. split; [exact E|].
      destruct C as [[V C]|[[V C]|[V C]]]; [left|right; left|right; right]; (split; [exact V|]); [constructor; exact C|congruence|constructor; exact C].
  - exists (x - y)%Z. split; [reflexivity|]. destruct (Z.eqb_spec x 0) as [->|X0], (Z.eqb_spec y 0) as [->|Y0]; try congruence.
    + left. split; [lia|constructor].
    + right. right. split; [lia|constructor].
    + destruct (Z.lt_ge_cases x y) as [G|G]; [left; split; [lia|constructor; exact G]|right; right; split; [lia|constructor; lia]].
Qed.
Lemma before_irrefl : forall s, ~ before s s.
Proof. induction s as [|x s IH]; intros H; inversion H; subst; [lia|contradiction]. Qed.
Lemma before_asym : forall s t, before s t -> before t s -> False.
Proof. intros s t H. induction H; intros K; inversion K; subst; try lia. auto. Qed.
Lemma compare_ok : forall m l r p q o, strings m -> view_of m (Some l) (Some (Some p)) -> view_of m (Some r) (Some (Some q)) ->
  Forall (fun b => bytes (b_chars b)) m ->
  exists v, c_op o m l r = Ok v /\ (v = true <-> says o (pointee m (Some p)) (pointee m (Some q))).
Proof.
  intros m l r p q o M [D1 [_ [_ A1]]] [D2 [_ [_ A2]]] B. specialize (A1 p eq_refl). specialize (A2 q eq_refl).
  cbn [pointee]. destruct (nth_error m p) as [s|] eqn:F; [|apply nth_error_None in F; lia].
  destruct (nth_error m q) as [t|] eqn:G; [|apply nth_error_None in G; lia].
  unfold strings in M. rewrite Forall_forall in M, B. destruct (M s (nth_error_In _ _ F)) as [V T]. destruct (M t (nth_error_In _ _ G)) as [W U].
  unfold c_op, c_compare. rewrite D1, D2, (get_live _ _ _ F V), (get_live _ _ _ G W). cbn [bind].
  destruct (strcmp_ok (b_chars s) (b_chars t) [] [] (S (length (b_chars s))) T U eq_refl (Nat.lt_succ_diag_r _)
    (B s (nth_error_In _ _ F)) (B t (nth_error_In _ _ G))) as [v [E C]].
  cbn [app length] in E. rewrite E. cbn [bind]. eexists. split; [reflexivity|].
  assert (IR := before_irrefl). assert (AS := before_asym).
  destruct C as [[K C]|[[K C]|[K C]]].
  - assert (N1 : text (b_chars s) <> text (b_chars t)) by (intros Q; rewrite Q in C; exact (IR _ C)).
    assert (N2 : ~ before (text (b_chars t)) (text (b_chars s))) by (intros Q; exact (AS _ _ C Q)).
    destruct o; cbn [says]; rewrite ?negb_true_iff, ?Z.eqb_eq, ?Z.eqb_neq, ?Z.ltb_lt, ?Z.gtb_lt, ?Z.leb_le, ?Z.geb_le; split; intros H; try tauto; try lia.
  - subst v. rewrite C. specialize (IR (text (b_chars t))).
    destruct o; cbn [says]; cbn; split; intros H; try tauto; try discriminate; try reflexivity.
  - assert (N1 : text (b_chars s) <> text (b_chars t)) by (intros Q; rewrite Q in C; exact (IR _ C)).
    assert (N2 : ~ before (text (b_chars s)) (text (b_chars t))) by (intros Q; exact (AS _ _ C Q)).
    destruct o; cbn [says]; rewrite ?negb_true_iff, ?Z.eqb_eq, ?Z.eqb_neq, ?Z.ltb_lt, ?Z.gtb_lt, ?Z.leb_le, ?Z.geb_le; split; intros H; try tauto; try lia.
Qed.

(** * generate_n *)
Section Calls.
Context {S V : Type} (call : S -> V * S).
Lemma g_for_ok : forall k n f g p fuel, p + k = n -> k < fuel -> g_for call fuel (Git p f) (Git n g) = Ok (results call k f).
Proof.
  induction k as [|k IH]; intros n f g p fuel P F; (destruct fuel as [|fuel]; [lia|]); cbn [g_for]; unfold g_eq; cbn [g_pos].
  - replace (p =? n) with true by (symmetry; apply Nat.eqb_eq; lia). reflexivity.
  - replace (p =? n) with false by (symmetry; apply Nat.eqb_neq; lia). unfold g_deref. cbn [g_fn g_pos].
    cbn [results]. destruct (call f) as [v f'] eqn:E. unfold g_inc. cbn [g_fn g_pos fst snd]. rewrite (IH n f' g (Datatypes.S p) fuel) by lia. reflexivity.
Qed.
Lemma g_while_ok : forall k n f g p fuel, p + k = n -> k < fuel -> g_while call fuel (Git p f) (Git n g) = Ok (repeat (fst (call f)) k).
Proof.
  induction k as [|k IH]; intros n f g p fuel P F; (destruct fuel as [|fuel]; [lia|]); cbn [g_while]; unfold g_eq; cbn [g_pos].
  - replace (p =? n) with true by (symmetry; apply Nat.eqb_eq; lia). reflexivity.
  - replace (p =? n) with false by (symmetry; apply Nat.eqb_neq; lia). unfold g_post_inc, g_deref. cbn [g_fn g_pos].
    rewrite (IH n f g (Datatypes.S p) fuel) by lia. cbn [repeat]. destruct (call f) as [v f'] eqn:E. reflexivity.
Qed.
Lemma after_S : forall k f, after call (k + 1) f = snd (call (after call k f)).
Proof. induction k as [|k IH]; intros f; [reflexivity|]. cbn [Nat.add after]. rewrite IH. reflexivity. Qed.
Notation conc := (counted call).
Lemma wr_map : forall f its x y, wr (map (conc f) its) x (conc f y) = if x <? length its then Ok (map (conc f) (upd its x y)) else UB.
Proof.
  intros f its x y. unfold wr. rewrite map_length, map_upd. reflexivity.
Qed.
Lemma rd_map : forall f its x, rd (map (conc f) its) x = match nth_error its x with Some y => Ok (conc f y) | None => UB end.
Proof. intros f its x. unfold rd. rewrite nth_error_map. destruct (nth_error its x); reflexivity. Qed.
Lemma k_step_ok : forall n f its o, g_step call n f (map (conc f) its) o = match k_step its o with
  | Some (js, ks) => Ok (map (conc f) js, map (fun k => fst (call (after call k f))) ks)
  | None => UB end.
Proof.
  intros n f its o. destruct o as [x|x y|x|x|x y]; cbn [g_step k_step].
  - change (g_begin n f) with (conc f (0, 0)). rewrite wr_map. destruct (x <? length its); reflexivity.
  - rewrite rd_map. destruct (nth_error its y) as [it|]; [|reflexivity]. cbn [bind]. rewrite wr_map. destruct (x <? length its); reflexivity.
  - rewrite rd_map. destruct (nth_error its x) as [[p k]|] eqn:E; [|reflexivity]. cbn [bind]. unfold g_deref, conc at 1. cbn [g_fn g_pos fst snd].
    destruct (call (after call k f)) as [v f'] eqn:C.
    replace (Git (g_pos (conc f (p, k))) f') with (conc f (p, k + 1)) by (unfold conc; cbn [fst snd]; rewrite after_S, C; reflexivity).
    rewrite wr_map. pose proof (nth_lt _ _ _ E) as L. apply Nat.ltb_lt in L. rewrite L. cbn [bind map]. rewrite C. reflexivity.
  - rewrite rd_map. destruct (nth_error its x) as [[p k]|] eqn:E; [|reflexivity]. cbn [bind].
    replace (g_inc (conc f (p, k))) with (conc f (p + 1, k)) by (unfold conc, g_inc; cbn [fst snd g_pos g_fn]; rewrite Nat.add_1_r; reflexivity).
    rewrite wr_map. pose proof (nth_lt _ _ _ E) as L. apply Nat.ltb_lt in L. rewrite L. reflexivity.
  - rewrite rd_map. destruct (nth_error its y) as [[p k]|] eqn:E; [|reflexivity]. cbn [bind]. unfold g_post_inc.
    replace (Git (Datatypes.S (g_pos (conc f (p, k)))) (g_fn (conc f (p, k)))) with (conc f (p + 1, k))
      by (unfold conc; cbn [fst snd g_pos g_fn]; rewrite Nat.add_1_r; reflexivity).
    rewrite wr_map. pose proof (nth_lt _ _ _ E) as L. apply Nat.ltb_lt in L. rewrite L. cbn [bind]. rewrite wr_map, upd_len.
    destruct (x <? length its); reflexivity.
Qed.
Lemma k_run_ok : forall n f os its, g_run call n f (map (conc f) its) os = match k_run its os with
  | Some (js, ks) => Ok (map (conc f) js, map (fun k => fst (call (after call k f))) ks)
  | None => UB end.
Proof.
  intros n f. induction os as [|o os IH]; intros its; cbn [g_run k_run]; [reflexivity|].
  rewrite k_step_ok. destruct (k_step its o) as [[js ks]|]; [|reflexivity]. cbn [bind]. rewrite IH.
  destruct (k_run js os) as [[ls ms]|]; [|reflexivity]. cbn [bind]. rewrite map_app. reflexivity.
Qed.
Lemma nth_result : forall n f k, k < n -> nth_error (results call n f) k = Some (fst (call (after call k f))).
Proof. induction n as [|n IH]; intros f [|k] L; cbn; try lia; [reflexivity|]. apply IH. lia. Qed.
End Calls.

Lemma loop_bad : forall l pre fuel, ~ terminated l -> length l < fuel -> string_length_loop fuel (pre ++ l) (length pre) = UB.
Proof.
  induction l as [|ch l IH]; intros pre fuel T L; (destruct fuel as [|fuel]; [lia|]); cbn [string_length_loop].
  - unfold rd. rewrite app_nil_r. replace (nth_error pre (length pre)) with (@None Z) by (symmetry; apply nth_error_None; lia). reflexivity.
  - rewrite (rd_eq (pre ++ ch :: l) _ ch) by (rewrite nth_error_app2, Nat.sub_diag by lia; reflexivity). cbn [bind].
    destruct (Z.eqb_spec ch 0) as [->|N]; [exfalso; apply T; left; reflexivity|].
    specialize (IH (pre ++ [ch]) fuel). rewrite <- app_assoc, app_length, Nat.add_1_r in IH. cbn [app length] in *. apply IH; [|lia].
    intros Q. apply T. right. exact Q.
Qed.
Lemma c_of_unterminated : forall m a b, nth_error m a = Some b -> b_live b = true -> ~ terminated (b_chars b) -> c_of m (Some a) = UB.
Proof.
  intros m a b E V T. unfold c_of, string_length. rewrite (get_live _ _ _ E V). cbn [bind].
  pose proof (loop_bad (b_chars b) [] (S (length (b_chars b))) T (Nat.lt_succ_diag_r _)) as Q. cbn [app length] in Q. rewrite Q. reflexivity.
Qed.
Lemma before_order : forall s t u : list Z, ~ before s s /\ (before s t -> before t u -> before s u) /\ (before s t \/ s = t \/ before t s).
Proof.
  intros s t u. split; [apply before_irrefl|]. split.
  - intros H. revert u. induction H; intros u K; inversion K; subst; try (constructor; fail); try (apply before_here; lia).
    apply before_later. auto.
  - clear u. revert t. induction s as [|x s IH]; intros [|y t]; [right; left; reflexivity|left; constructor|right; right; constructor|].
    destruct (Z.lt_trichotomy x y) as [L|[->|L]]; [left; constructor; exact L| |right; right; constructor; exact L].
    destruct (IH t) as [H|[->|H]]; [left; apply before_later, H|right; left; reflexivity|right; right; apply before_later, H].
Qed.
Lemma compare_null : forall m l r o, c_data l = None -> c_op o m l r = UB.
Proof. intros m l r o H. unfold c_op, c_compare. rewrite H. reflexivity. Qed.
Lemma results_length : forall {S V : Type} (call : S -> V * S) n f, length (results call n f) = n.
Proof. induction n as [|n IH]; intros f; cbn; [reflexivity|]. rewrite IH. reflexivity. Qed.
Lemma deref_twice : forall {S V : Type} (call : S -> V * S) n f it, exists its,
  g_run call n f [it] [GBegin 0; GDeref 0; GDeref 0] = Ok (its, results call 2 f).
Proof.
  intros S V call n f it. cbn. unfold g_deref, g_begin. cbn. destruct (call f) as [v f1] eqn:E. cbn. unfold g_deref. cbn.
  destruct (call f1) as [v2 f2] eqn:F. cbn. eexists. reflexivity.
Qed.

(** * The statements of the properties *)

Lemma c334_history :
  forall m os vs xs, strings m -> views m vs xs -> Forall borrowing os ->
  match n_run (length m) xs os with
  | Some ys => exists ws, c_run (m, vs) os = Ok (m, ws) /\ views m ws ys
  | None => c_run (m, vs) os = UB
  end.
Proof.
  intros m os vs xs. apply n_run_ok.
Qed.

Lemma c334_observers :
  forall m s p, strings m -> view_of m (Some s) (Some p) ->
  c_to_string m s = Ok (pointee m p) /\ c_size s = length (pointee m p) /\
  (c_is_null s = true <-> p = None) /\ (c_empty s = true <-> pointee m p = []) /\ c_bool s = negb (c_empty s).
Proof.
  intros m s p. apply observe_ok.
Qed.

Lemma c334_index :
  forall m s a b i, nth_error m a = Some b -> b_live b = true -> terminated (b_chars b) -> view_of m (Some s) (Some (Some a)) ->
  (forall c, nth_error (text (b_chars b)) i = Some c -> c_at m s i = Ok c) /\ c_at m s (c_size s) = Ok 0%Z.
Proof.
  intros m s a b i. apply at_ok.
Qed.

Lemma c334_no_nul :
  forall m a b, nth_error m a = Some b -> b_live b = true -> ~ terminated (b_chars b) -> c_of m (Some a) = UB.
Proof.
  intros m a b. apply c_of_unterminated.
Qed.

Lemma c335_exclusive_partial :
  forall os m vs, exclusive m vs -> Forall moves_nothing os ->
  match o_run (map holds vs) os with
  | Some (ys, freed) => exists m' ws, c_run (m, vs) os = Ok (m', ws) /\ map holds ws = ys /\ exclusive m' ws /\
      NoDup freed /\ after_freeing freed m m' /\ (forall a, In a freed -> a < length m)
  | None => c_run (m, vs) os = UB
  end.
Proof.
  intros os m vs. apply o_run_ok.
Qed.

Lemma c335_scope_end_partial :
  forall m vs ps, Forall owns vs -> Permutation (pointers vs) (seq 0 (length m)) ->
  Forall (fun b => b_live b = true /\ b_heap b = true) m ->
  Forall (fun p => fst p < length vs /\ snd p < length vs) ps ->
  exists ws, c_run (m, vs) (map (fun p => CSwap (fst p) (snd p)) ps ++ map CDestroy (seq 0 (length vs))) = Ok (map dead m, ws) /\
    Forall (fun v => v = None) ws.
Proof.
  intros m vs ps. apply scope_end.
Qed.

Lemma c335_double_delete_refuted :
  forall m a b, nth_error m a = Some b -> b_live b = true -> b_heap b = true -> terminated (b_chars b) ->
  c_run (m, [None; None]) [COf 0 a; COwn 0; CMoveTo 1 0; CDestroy 1] = Ok (upd m a (dead b), [Some (CStr (Some a) (length (text (b_chars b))) true); None]) /\
  c_run (m, [None; None]) [COf 0 a; COwn 0; CMoveTo 1 0; CDestroy 1; CDestroy 0] = UB.
Proof.
  intros m a b. apply double_delete.
Qed.

Lemma c335_leak_refuted :
  forall m a b c d, nth_error m a = Some b -> b_live b = true -> terminated (b_chars b) ->
  nth_error m c = Some d -> b_live d = true -> terminated (b_chars d) ->
  c_run (m, [None; None]) [COf 0 a; COwn 0; COf 1 c; CAssign 0 1; CDestroy 0; CDestroy 1] = Ok (m, [None; None]).
Proof.
  intros m a b c d. apply assign_leak.
Qed.

Lemma c336_operators :
  forall m l r p q o, strings m -> view_of m (Some l) (Some (Some p)) -> view_of m (Some r) (Some (Some q)) ->
  Forall (fun b => bytes (b_chars b)) m ->
  exists v, c_op o m l r = Ok v /\ (v = true <-> says o (pointee m (Some p)) (pointee m (Some q))).
Proof.
  intros m l r p q o. apply compare_ok.
Qed.

Lemma c336_order :
  forall s t u : list Z, ~ before s s /\ (before s t -> before t u -> before s u) /\ (before s t \/ s = t \/ before t s).
Proof.
  intros s t u. apply before_order.
Qed.

Lemma c336_null_refuted :
  forall m l r o, c_data l = None -> c_op o m l r = UB.
Proof.
  intros m l r o. apply compare_null.
Qed.

Lemma c337_values :
  forall (S V : Type) (call : S -> V * S) n f, generate_n call n f = Ok (results call n f) /\ length (results call n f) = n.
Proof.
  intros S V call n f. split; [apply g_for_ok; lia|]. apply results_length.
Qed.

Lemma c337_history :
  forall (S V : Type) (call : S -> V * S) n f os its, g_run call n f (map (counted call f) its) os = match k_run its os with
  | Some (js, ks) => Ok (map (counted call f) js, map (fun k => fst (call (after call k f))) ks)
  | None => UB
  end.
Proof.
  intros S V call n f os its. apply k_run_ok.
Qed.

Lemma c337_calls :
  forall (S V : Type) (call : S -> V * S) n f k, k < n -> nth_error (results call n f) k = Some (fst (call (after call k f))).
Proof.
  intros S V call n f k. apply nth_result.
Qed.

Lemma c337_twice_refuted :
  forall (S V : Type) (call : S -> V * S) n f it, exists its, g_run call n f [it] [GBegin 0; GDeref 0; GDeref 0] = Ok (its, results call 2 f).
Proof.
  intros S V call n f it. apply deref_twice.
Qed.

Lemma c337_post_increment_refuted :
  forall (S V : Type) (call : S -> V * S) n f, generate_post call n f = Ok (repeat (fst (call f)) n).
Proof.
  intros S V call n f. apply g_while_ok; lia.
Qed.

Lemma c335_literal_l :
  forall m a b, nth_error m a = Some b -> b_live b = true -> b_heap b = false -> terminated (b_chars b) ->
  c_run (m, [None]) [COf 0 a; CDestroy 0] = Ok (m, [None]) /\ c_run (m, [None]) [COf 0 a; COwn 0; CDestroy 0] = UB.
Proof.
  intros m a b E V P T. pose proof (c_of_ok m a b E V T) as C.
  cbn [c_run c_step fresh obj rd nth_error bind upd]. rewrite C.
  cbn [c_run c_step fresh obj rd nth_error bind upd c_own c_data c_size c_local c_destroy]. split; [reflexivity|].
  unfold delete_array. rewrite (get_live _ _ _ E V). cbn [bind]. rewrite P. reflexivity.
Qed.
