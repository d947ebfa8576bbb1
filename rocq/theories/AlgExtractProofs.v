(** Proofs about consume_if, extract_* and the predicate objects. *)
From Verif Require Import Common CommonProofs AlgSearch AlgSearchProofs AlgModify AlgModifyProofs AlgExtract SpecAlgExtract.

Lemma consume_loop_spec {A} (pred : A -> bool) : forall fuel first i last (arr log : list A),
  match remove_if_loop fuel pred first i last arr with
  | Ok (f, r) => exists l, consume_if_loop fuel pred first i last arr log = Ok (f, r, l)
  | e => consume_if_loop fuel pred first i last arr log = match e with Ok _ => OutOfFuel | UB => UB | Throw => Throw | OutOfFuel => OutOfFuel end
  end.
Proof.
  induction fuel as [|fuel IH]; intros first i last arr log; cbn [remove_if_loop consume_if_loop]; [reflexivity|].
  destruct (i =? last); [eauto|]. destruct (rd arr i) as [x| | |]; cbn [bind]; try reflexivity.
  destruct (negb (pred x)); [|apply IH].
  destruct (wr arr first x) as [arr'| | |]; cbn [bind]; try reflexivity. apply IH.
Qed.

(** The log: writes are behind the reads. *)
Lemma consume_loop_log {A} (pred : A -> bool) : forall fuel first i last (arr log : list A) r,
  first < i -> consume_if_loop fuel pred first i last arr log = Ok r ->
  i <= last /\ snd r = log ++ filter (fun x => negb (pred x)) (firstn (last - i) (skipn i arr)).
Proof.
  induction fuel as [|fuel IH]; intros first i last arr log r L E; cbn [consume_if_loop] in E; [discriminate|].
  destruct (Nat.eqb_spec i last) as [-> | NE].
  - injection E as <-. rewrite Nat.sub_diag. cbn. rewrite app_nil_r. auto.
  - destruct (nth_error arr i) as [x|] eqn:N.
    2:{ unfold rd in E. rewrite N in E. discriminate. }
    rewrite (rd_some arr i x N) in E. cbn [bind] in E.
    assert (SK : skipn i arr = x :: skipn (S i) arr).
    { clear - N. revert i N. induction arr as [|y arr IH]; intros [|i] N; cbn in *; try discriminate; [congruence|]. now apply IH. }
    destruct (negb (pred x)) eqn:P.
    + assert (LF : first < length arr) by (apply nth_error_some_lt in N; lia).
      rewrite wr_ok in E by assumption. cbn [bind] in E.
      apply IH in E; [|lia]. destruct E as (E1 & ->). split; [lia|].
      assert (SU : skipn (S i) (upd arr first x) = skipn (S i) arr).
      { clear - L. revert first i L. induction arr as [|y arr IH]; intros [|first] [|i] L; cbn; try lia; try reflexivity.
        cbn in IH. destruct i; [lia|]. apply (IH first (S i)). lia. }
      rewrite SU, SK. replace (last - i) with (S (last - S i)) by lia. cbn [firstn filter]. rewrite P, <- app_assoc. reflexivity.
    + apply IH in E; [|lia]. destruct E as (E1 & ->). split; [lia|].
      rewrite SK. replace (last - i) with (S (last - S i)) by lia. cbn [firstn filter]. now rewrite P.
Qed.

Lemma after_first_find {A} (p : A -> bool) l : after_first p l = skipn (S (find_if p l)) l.
Proof.
  induction l as [|x l IH]; [reflexivity|]. cbn [after_first find_if]. destruct (p x); [reflexivity|]. exact IH.
Qed.

Lemma consume_if_spec {A} (pred : A -> bool) pre mid post :
  exists rest,
    consume_if pred (length pre) (length pre + length mid) (pre ++ mid ++ post) =
      Ok (length pre + length (filter (fun x => negb (pred x)) mid),
          pre ++ filter (fun x => negb (pred x)) mid ++ rest ++ post,
          filter (fun x => negb (pred x)) (after_first pred mid)) /\
    length rest + length (filter (fun x => negb (pred x)) mid) = length mid.
Proof.
  destruct (remove_if_spec pred pre mid post) as (rest & E & L). exists rest. split; [|exact L].
  unfold consume_if, remove_if in *. cbv zeta in *.
  replace (length pre + length mid - length pre) with (length mid) in * by lia.
  rewrite skipn_app, skipn_all, Nat.sub_diag in *. cbn [skipn app] in *.
  rewrite firstn_app, firstn_all, Nat.sub_diag in *. cbn [firstn] in *. rewrite app_nil_r in *.
  rewrite after_first_find.
  destruct (Nat.eqb_spec (length pre + find_if pred mid) (length pre + length mid)) as [H|H]; cbn [negb] in *.
  - injection E as E1 E2. rewrite E2, E1. rewrite skipn_all2 by lia. reflexivity.
  - match type of E with remove_if_loop ?a ?b ?c ?d ?e ?f = _ =>
      pose proof (consume_loop_spec pred a c d e f []) as Q; rewrite E in Q end.
    destruct Q as (l & Q). rewrite Q. do 2 f_equal.
    apply consume_loop_log in Q; [|lia]. destruct Q as (Q1 & Q2). cbn [snd app] in Q2. rewrite Q2. f_equal.
    rewrite skipn_app. rewrite (skipn_all2 pre) by lia. cbn [app]. rewrite skipn_app.
    replace (S (length pre + find_if pred mid) - length pre) with (S (find_if pred mid)) by lia.
    replace (length pre + length mid - S (length pre + find_if pred mid)) with (length mid - S (find_if pred mid)) by lia.
    rewrite firstn_app, skipn_length. rewrite Nat.sub_diag. cbn [firstn]. rewrite app_nil_r.
    apply firstn_all2. rewrite skipn_length. lia.
Qed.

Section Extract.
  Context {K V : Type}.
  Variable eqb : K -> K -> bool.
  Implicit Types (from to : list (K * V)).

  Lemma take_key_spec k from :
    match take_key eqb k from with
    | None => with_key eqb k from = [] /\ without_key eqb k from = from
    | Some (n, from') => eqb (fst n) k = true /\ with_key eqb k from = n :: with_key eqb k from' /\
        without_key eqb k from = without_key eqb k from' /\ length from = S (length from')
    end.
  Proof.
    unfold with_key, without_key. induction from as [|n from IH]; cbn [take_key filter]; [auto|].
    destruct (eqb (fst n) k) eqn:E; cbn [negb]; [auto|].
    destruct (take_key eqb k from) as [[m from']|].
    - destruct IH as (I1 & I2 & I3 & I4). cbn [filter]. rewrite E. cbn [negb length]. rewrite I2, I3, I4. auto.
    - destruct IH as (I1 & I2). rewrite I1, I2. auto.
  Qed.

  Lemma room_cons uniq to n l : room eqb uniq to (n :: l) ->
    insert_node eqb uniq to n = to ++ [n] /\ room eqb uniq (to ++ [n]) l.
  Proof.
    unfold insert_node. intros [-> | (O & D)]; [split; [reflexivity | now left]|].
    inversion O as [|? ? F O']; subst. split.
    - replace (existsb (fun m => eqb (fst m) (fst n)) to) with false; [now rewrite andb_false_r|].
      symmetry. apply not_true_is_false. intros X. apply existsb_exists in X. destruct X as (m & Hm & X).
      rewrite (D m n) in X; [discriminate | assumption | now left].
    - right. split; [assumption|]. intros m x Hm Hx. apply in_app_iff in Hm. destruct Hm as [Hm | [<- | []]].
      + apply D; [assumption | now right].
      + rewrite Forall_forall in F. auto.
  Qed.

  Lemma extract_to_ok uniq k : forall fuel from to, length from < fuel -> room eqb uniq to (with_key eqb k from) ->
    extract_to eqb fuel uniq k from to = Ok (without_key eqb k from, to ++ with_key eqb k from).
  Proof.
    induction fuel as [|fuel IH]; intros from to L R; [lia|]. cbn [extract_to].
    pose proof (take_key_spec k from) as Q. destruct (take_key eqb k from) as [[n from']|].
    - destruct Q as (Q1 & Q2 & Q3 & Q4). rewrite Q2 in R. apply room_cons in R. destruct R as (-> & R).
      rewrite IH; [|lia|assumption]. rewrite Q3, Q2, <- app_assoc. reflexivity.
    - destruct Q as (Q1 & Q2). rewrite Q1, Q2, app_nil_r. reflexivity.
  Qed.

  Lemma extract_all_ok uniq : forall fuel from to, length from < fuel -> room eqb uniq to from ->
    extract_all eqb fuel uniq from to = Ok ([], to ++ from).
  Proof.
    induction fuel as [|fuel IH]; intros from to L R; [lia|]. cbn [extract_all]. destruct from as [|n from].
    - now rewrite app_nil_r.
    - apply room_cons in R. destruct R as (-> & R). cbn in L. rewrite IH; [|lia|assumption].
      now rewrite <- app_assoc.
  Qed.

  Lemma extract_to_lost k : (forall x y, eqb x k = true -> eqb y k = true -> eqb x y = true) ->
    forall fuel from to, length from < fuel -> with_key eqb k to <> [] ->
    extract_to eqb fuel true k from to = Ok (without_key eqb k from, to).
  Proof.
    intros TR. induction fuel as [|fuel IH]; intros from to L W; [lia|]. cbn [extract_to].
    pose proof (take_key_spec k from) as Q. destruct (take_key eqb k from) as [[n from']|].
    - destruct Q as (Q1 & Q2 & Q3 & Q4).
      replace (insert_node eqb true to n) with to.
      { rewrite IH; [|lia|assumption]. now rewrite Q3. }
      unfold insert_node. cbn [andb]. replace (existsb (fun m => eqb (fst m) (fst n)) to) with true; [reflexivity|].
      symmetry. apply existsb_exists. destruct (with_key eqb k to) as [|m w] eqn:WK; [congruence|].
      assert (Hm : In m (with_key eqb k to)) by (rewrite WK; now left). apply filter_In in Hm.
      exists m. split; [apply Hm|]. apply TR; [apply Hm | assumption].
    - destruct Q as (Q1 & Q2). now rewrite Q2.
  Qed.

  Lemma extract_all_lost : forall fuel from to, length from < fuel ->
    exists to', extract_all eqb fuel true from to = Ok ([], to') /\
      (forall m, In m to -> In m to') /\
      forall n, In n from -> ~ In n to -> (exists m, In m to /\ eqb (fst m) (fst n) = true) -> ~ In n to'.
  Proof.
    induction fuel as [|fuel IH]; intros from to L; [lia|]. cbn [extract_all]. destruct from as [|n from].
    - exists to. split; [reflexivity|]. split; [auto|]. intros n [].
    - cbn in L. destruct (IH from (insert_node eqb true to n)) as (to' & E & I1 & I2); [lia|].
      exists to'. split; [exact E|]. unfold insert_node in *. cbn [andb] in *.
      destruct (existsb (fun m => eqb (fst m) (fst n)) to) eqn:X.
      + split; [exact I1|]. intros x [<- | Hx] NI (m & Hm & Em); [|apply I2; eauto].
        clear IH. intros C. revert C. 
        assert (G : forall f l t t', extract_all eqb f true l t = Ok ([], t') -> In n t' ->
                     (exists m, In m t /\ eqb (fst m) (fst n) = true) -> In n t).
        { clear. induction f as [|f IH]; intros l t t' E H W; cbn in E; [discriminate|].
          destruct l as [|y l]; [injection E as <-; assumption|].
          destruct W as (m & Hm & Em).
          apply IH in E; [|assumption|].
          - unfold insert_node in E. cbn [andb] in E. destruct (existsb _ t) eqn:X; [assumption|].
            apply in_app_iff in E. destruct E as [E | [<- | []]]; [assumption|]. exfalso.
            assert (existsb (fun m => eqb (fst m) (fst y)) t = true); [|congruence].
            apply existsb_exists. eauto.
          - exists m. split; [|assumption]. unfold insert_node. destruct (_ && _); [assumption|]. apply in_app_iff. auto. }
        intros C. apply NI. exact (G _ _ _ _ E C (ex_intro _ m (conj Hm Em))).
      + split; [intros m Hm; apply I1, in_app_iff; auto|].
        intros x Hx NI (m & Hm & Em). destruct Hx as [<- | Hx].
        * exfalso. assert (existsb (fun m => eqb (fst m) (fst n)) to = true); [|congruence]. apply existsb_exists. eauto.
        * destruct (existsb (fun m => eqb (fst m) (fst x)) to) eqn:XX.
          2:{ exfalso. assert (existsb (fun m => eqb (fst m) (fst x)) to = true); [|congruence]. apply existsb_exists. eauto. }
          intros C. assert (NN : ~ In x (to ++ [n])).
          { intros Q. apply in_app_iff in Q. destruct Q as [Q | [<- | []]]; [contradiction|].
            assert (existsb (fun m => eqb (fst m) (fst n)) to = true); [|congruence]. apply existsb_exists. eauto. }
          revert C. apply I2; [assumption | assumption|]. exists m. split; [apply in_app_iff; auto | assumption].
  Qed.
End Extract.

Section Matching.
  Context {E : Type}.
  Implicit Types (from : list (nat * E)).

  Lemma take_node_spec it : forall from, NoDup (map fst from) -> forall e, In (it, e) from ->
    exists from', take_node it from = Ok (e, from') /\ ~ In it (map fst from').
  Proof.
    induction from as [|[j x] from IH]; intros N e H; [destruct H|]. cbn [take_node fst snd]. cbn [map fst] in N.
    inversion N as [|? ? N1 N2]; subst.
    destruct (Nat.eqb_spec j it) as [-> | NE].
    - destruct H as [H | H]; [injection H as <-; eauto|]. exfalso. apply N1. apply in_map_iff. exists (it, e). auto.
    - destruct H as [H | H]; [congruence|]. destruct (IH N2 e H) as (from' & -> & Q). cbn [bind].
      exists ((j, x) :: from'). split; [reflexivity|]. cbn. intros [? | ?]; contradiction.
  Qed.

  Lemma take_node_gone it : forall from, ~ In it (map fst from) -> take_node it from = UB.
  Proof.
    induction from as [|[j x] from IH]; intros N; [reflexivity|]. cbn [take_node fst snd]. cbn in N.
    destruct (Nat.eqb_spec j it) as [-> | NE]; [tauto|]. rewrite IH by tauto. reflexivity.
  Qed.

  Lemma extract_matching_none fuel (pred : E -> bool) from to :
    (forall n, In n from -> pred (snd n) = false) -> extract_matching fuel pred from to = Ok (from, to).
  Proof.
    unfold extract_matching. intros H0.
    assert (G : forall todo, (forall n, In n todo -> pred (snd n) = false) ->
      extract_matching_loop fuel pred todo from to = Ok (from, to)); [|now apply G].
    clear H0. induction todo as [|[j x] todo IH]; intros H; [reflexivity|].
    cbn [extract_matching_loop]. pose proof (H (j, x) (or_introl eq_refl)) as Q. cbn [snd] in Q. rewrite Q. apply IH. intros n Hn. apply H. now right.
  Qed.

  Lemma extract_matching_some fuel (pred : E -> bool) from to : 2 <= fuel -> NoDup (map fst from) ->
    (exists n, In n from /\ pred (snd n) = true) -> extract_matching fuel pred from to = UB.
  Proof.
    intros L N. unfold extract_matching.
    assert (G : forall todo, (forall n, In n todo -> In n from) -> (exists n, In n todo /\ pred (snd n) = true) ->
      extract_matching_loop fuel pred todo from to = UB).
    { induction todo as [|[j x] todo IH]; intros S (n & Hn & P); [destruct Hn|]. cbn [extract_matching_loop].
      destruct (pred x) eqn:PX.
      - destruct (take_node_spec j from N x (S _ (or_introl eq_refl))) as (from' & T & G).
        destruct fuel as [|[|fuel]]; try lia. cbn [extract_to_it]. rewrite T. cbn [bind].
        rewrite (take_node_gone j from' G). reflexivity.
      - apply IH; [intros; apply S; now right|]. destruct Hn as [<- | Hn]; [cbn in P; congruence|]. eauto. }
    apply G. auto.
  Qed.
End Matching.

(** * The statements of the properties *)

Lemma c341_moved_partial :
  forall (K V : Type) (eqb : K -> K -> bool) uniq k fuel (from to : list (K * V)),
  length from < fuel -> room eqb uniq to (with_key eqb k from) ->
  extract_to eqb fuel uniq k from to = Ok (without_key eqb k from, to ++ with_key eqb k from).
Proof.
  intros K V eqb uniq k fuel from to. apply extract_to_ok.
Qed.

Lemma c341_all_partial :
  forall (K V : Type) (eqb : K -> K -> bool) uniq fuel (from to : list (K * V)),
  length from < fuel -> room eqb uniq to from ->
  extract_all eqb fuel uniq from to = Ok ([], to ++ from).
Proof.
  intros K V eqb uniq fuel from to. apply extract_all_ok.
Qed.

Lemma c341_lost_refuted :
  forall (K V : Type) (eqb : K -> K -> bool) k,
  (forall x y, eqb x k = true -> eqb y k = true -> eqb x y = true) ->
  forall fuel (from to : list (K * V)), length from < fuel -> with_key eqb k to <> [] ->
  extract_to eqb fuel true k from to = Ok (without_key eqb k from, to).
Proof.
  intros K V eqb k H fuel from to. now apply extract_to_lost.
Qed.

Lemma c341_all_lost_refuted :
  forall (K V : Type) (eqb : K -> K -> bool) fuel (from to : list (K * V)), length from < fuel ->
  exists to', extract_all eqb fuel true from to = Ok ([], to') /\ (forall m, In m to -> In m to') /\
    forall n, In n from -> ~ In n to -> (exists m, In m to /\ eqb (fst m) (fst n) = true) -> ~ In n to'.
Proof.
  intros K V eqb fuel from to. apply extract_all_lost.
Qed.

Lemma c342_none_partial :
  forall (E : Type) fuel (pred : E -> bool) (from : list (nat * E)) to,
  (forall n, In n from -> pred (snd n) = false) -> extract_matching fuel pred from to = Ok (from, to).
Proof.
  intros E fuel pred from to. apply extract_matching_none.
Qed.

Lemma c342_refuted :
  forall (E : Type) fuel (pred : E -> bool) (from : list (nat * E)) to, 2 <= fuel -> NoDup (map fst from) ->
  (exists n, In n from /\ pred (snd n) = true) -> extract_matching fuel pred from to = UB.
Proof.
  intros E fuel pred from to. apply extract_matching_some.
Qed.

Lemma c343_removes_partial :
  forall (A : Type) (pred : A -> bool) pre mid post,
  exists rest log,
    consume_if pred (length pre) (length pre + length mid) (pre ++ mid ++ post) =
      Ok (length pre + length (filter (fun x => negb (pred x)) mid),
          pre ++ filter (fun x => negb (pred x)) mid ++ rest ++ post, log) /\
    length rest + length (filter (fun x => negb (pred x)) mid) = length mid.
Proof.
  intros A pred pre mid post. destruct (consume_if_spec pred pre mid post) as (rest & E & L). eauto.
Qed.

Lemma c343_called_refuted :
  forall (A : Type) (pred : A -> bool) pre mid post,
  exists first arr,
    consume_if pred (length pre) (length pre + length mid) (pre ++ mid ++ post) =
      Ok (first, arr, filter (fun x => negb (pred x)) (after_first pred mid)).
Proof.
  intros A pred pre mid post. destruct (consume_if_spec pred pre mid post) as (rest & E & L). eauto.
Qed.

Lemma c344_temporaries_partial :
  forall (T : Type) (env env' : nat -> T) le op lo hi v x,
  (in_range_make env (fun v => v) le (Rv lo) (Rv hi) = if le lo hi then Ok (Own lo, Own hi) else Throw) /\
  in_range_call env' le (Own lo, Own hi) x = le lo x && le x hi /\
  cmp_call env' op (cmp_make (Rv v)) x = op x v.
Proof.
  intros T env env' le op lo hi v x. auto.
Qed.

Lemma c344_variables_refuted :
  forall (T : Type) (env env' : nat -> T) mv le op a b x,
  (le (env a) (env b) = true -> exists r, in_range_make env mv le (Lv a) (Lv b) = Ok r /\
     in_range_call env' le r x = le (env' a) x && le x (env' b)) /\
  cmp_call env' op (cmp_make (Lv a)) x = op x (env' a).
Proof.
  intros T env env' mv le op a b x. split; [|reflexivity]. intros H. unfold in_range_make. cbn. rewrite H. eexists. split; reflexivity.
Qed.

Lemma c344_moved_from_refuted :
  forall (T : Type) (env : nat -> T) (e : T) le lo hi, le e e = true ->
  in_range_make env (fun _ => e) le (Rv lo) (Rv hi) = Ok (Own lo, Own hi).
Proof.
  intros T env e le lo hi H. unfold in_range_make. cbn. now rewrite H.
Qed.
