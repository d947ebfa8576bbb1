(** Proofs about daw_parse_args.h. *)
From Verif Require Import Common CommonProofs Ints StringView StringPop SpecString StringViewProofs StringOtherProofs StringPopProofs StringMoreProofs StringZtProofs ParseArgs SpecParseArgs.
From Coq Require Import ZifyNat.
Open Scope Z_scope.
Local Arguments Z.pow : simpl never.

Lemma chars_nil_iff v : valid v -> (vempty v = true <-> chars v = []).
Proof.
  intros V. unfold vempty. pose proof (chars_length v V) as L. rewrite Z.eqb_eq. destruct (chars v); simpl in L; split; intros; try congruence; lia.
Qed.
Section P.
  Variables dbg runtime : bool.
  Lemma arg_value_ok v : valid v -> exists v', arg_value dbg v = Ok v' /\ valid v' /\
    (chars v <> [quote] -> unquoted (chars v) (chars v')) /\ (chars v = [quote] -> chars v' = []).
  Proof.
    intros V. unfold arg_value. destruct (starts_with_char_ok dbg v 34 V) as (b & -> & B). cbn [bind]. destruct b.
    - destruct (proj1 B eq_refl) as (r & Er). destruct (ends_with_char_ok dbg v 34 V) as (e & -> & Ee). cbn [bind]. destruct e.
      + destruct (proj1 Ee eq_refl) as (q & Eq). destruct (prefix_suffix v 1 V ltac:(lia)) as (v' & -> & V' & _ & C' & _). cbn [bind].
        destruct (prefix_suffix v' 1 V' ltac:(lia)) as (_ & _ & _ & V2 & _ & C2).
        eexists. split; [reflexivity|]. split; [exact V2|]. rewrite C2, C', Er. change (Z.to_nat 1) with 1%nat. cbn [skipn]. split.
        * intros N. left. rewrite Er in Eq. destruct q as [|c q]; [destruct N; exact Eq|]. cbn [app] in Eq. inversion Eq; subst.
          rewrite app_length. cbn [length]. replace (length q + 1 - 1)%nat with (length q) by lia. rewrite firstn_app, Nat.sub_diag, firstn_all, firstn_O, app_nil_r. reflexivity.
        * intros E. inversion E. reflexivity.
      + exists v. split; auto. split; auto. split.
        * intros _. right. split; auto. intros m Em. assert (false = true); [|discriminate]. apply Ee. exists ([quote] ++ m). rewrite Em, app_assoc. reflexivity.
        * intros E. assert (false = true); [|discriminate]. apply Ee. exists []. exact E.
    - exists v. split; auto. split; auto. assert (H : forall r, chars v <> 34 :: r) by (intros r E; assert (false = true) by (apply B; eauto); discriminate). split.
      + intros _. right. split; auto. intros m. apply H.
      + intros E. destruct (H [] E).
  Qed.
  Lemma dashes_view : exists w, v_literal dbg [45; 45; 0] = Ok w /\ valid w /\ chars w = dashes.
  Proof. destruct (literal_zt dbg [45; 45]) as (w & E & (W & _) & _ & C); [cbn [length]; lia|]. exists w. auto. Qed.
  Lemma v_null_valid : valid v_null. Proof. split; reflexivity. Qed.
  Lemma cut_eq s n r : cut_first (char_is s (fun x => x = equals)) 1 s n r ->
    (s = n ++ [equals] ++ r /\ ~ In equals n) \/ (~ In equals s /\ n = s /\ r = []).
  Proof.
    intros [(d & E & L & Q & N) | (N & E1 & E2)].
    - left. destruct d as [|c [|? ?]]; try discriminate. destruct Q as (c' & Nc & ->). rewrite E, nth_error_app2, Nat.sub_diag in Nc by lia. cbn [app nth_error] in Nc.
      inversion Nc; subst c. split; [exact E|]. intros H. apply In_nth_error in H. destruct H as (j & Hj).
      assert (j < length n)%nat by (apply nth_error_Some; congruence). apply (N j); auto. exists equals. split; auto. rewrite E, nth_error_app1 by auto. exact Hj.
    - right. split; auto. intros H. apply In_nth_error in H. destruct H as (j & Hj). apply (N j). exists equals. auto.
  Qed.
  Lemma quoted_cons s : unquoted s [] -> s <> [quote]. 
  Proof. intros [E | (_ & E)] F; subst; discriminate. Qed.
  Lemma parse_ok lo v : valid v -> bytes lo (61 :: chars v) -> exists a, parse_argument dbg runtime v = Ok a /\ arg_valid a /\
    (~ lone_quote (chars v) -> means (chars v) (chars (a_name a)) (chars (a_value a))) /\ (lone_quote (chars v) -> chars (a_value a) = []).
  Proof.
    intros V B. unfold parse_argument. destruct dashes_view as (w & -> & W & CW). cbn [bind].
    destruct (starts_with_ok dbg v w V W) as (b & -> & Hb). cbn [bind]. rewrite CW in Hb. destruct b.
    - destruct (proj1 Hb eq_refl) as (r & Er). destruct (prefix_suffix v 2 V ltac:(lia)) as (v1 & -> & V1 & _ & C1 & _). cbn [bind].
      assert (Er1 : chars v1 = r) by (rewrite C1, Er; reflexivity).
      destruct (pop_until_char dbg runtime lo v1 61 V1) as ((p & v2 & -> & Vp & V2 & Cut) & _).
      { intros _. inversion B as [|? ? B1 B2]; subst. constructor; auto. rewrite Er in B2. apply Forall_app in B2. rewrite Er1 || idtac. apply B2. }
      cbn [bind]. rewrite Er1 in Cut. apply cut_eq in Cut.
      destruct (vempty v2) eqn:Em.
      + apply (chars_nil_iff v2 V2) in Em. eexists. split; [reflexivity|]. cbn [a_name a_value]. split; [split; auto using v_null_valid|]. change (chars v_null) with (@nil Z). split; auto.
        intros _. rewrite Er. destruct Cut as [(E & N) | (N & E & _)].
        * rewrite Em in E. apply (MeansNamed _ _ []); [rewrite E; reflexivity|auto|]. right. split; auto. discriminate.
        * rewrite E. apply MeansFlag; auto.
      + assert (Nz : chars v2 <> []) by (intros E; apply (chars_nil_iff v2 V2) in E; congruence).
        destruct Cut as [(E & N) | (_ & _ & E)]; [|congruence].
        destruct (arg_value_ok v2 V2) as (v3 & -> & V3 & U & L). cbn [bind]. eexists. split; [reflexivity|]. cbn [a_name a_value]. split; [split; auto|]. split.
        * intros Nl. apply (MeansNamed _ _ (chars v2)); [rewrite Er, E; reflexivity|auto|]. apply U. intros Q. apply Nl. right. exists (chars p). split; auto. rewrite Er, E, Q. reflexivity.
        * intros [Q | (n & Nn & Q)]; [rewrite Er in Q; discriminate|]. apply L. rewrite Er in Q. apply app_inv_head in Q. rewrite E in Q.
          assert (H : chars p = n).
          { clear - Q N Nn. revert Q. generalize (chars v2). intros t Q. revert n Nn Q N. induction (chars p) as [|x l IH]; intros [|y n] Nn Q N; cbn [app] in Q; auto.
            - inversion Q. subst y. destruct Nn. left. reflexivity.
            - inversion Q. subst x. destruct N. left. reflexivity.
            - inversion Q. f_equal. apply IH; auto; intros F; [apply Nn|apply N]; right; auto. }
          subst n. apply app_inv_head in Q. cbn [app] in Q. congruence.
    - assert (H : forall m, chars v <> dashes ++ m) by (intros m E; assert (false = true) by (apply Hb; eauto); discriminate).
      destruct (arg_value_ok v V) as (v' & -> & V' & U & L). cbn [bind]. eexists. split; [reflexivity|]. cbn [a_name a_value]. split; [split; auto using v_null_valid|]. split.
      + intros Nl. change (chars v_null) with (@nil Z). apply MeansValue; auto. apply U. intros Q. apply Nl. left. auto.
      + intros [Q | (n & _ & Q)]; [auto|]. destruct (H _ Q).
  Qed.
End P.

Definition reads (t : list Z) (a : argument) : Prop :=
  arg_valid a /\ (~ lone_quote t -> means t (chars (a_name a)) (chars (a_value a))) /\ (lone_quote t -> chars (a_value a) = []).
Section Q.
  Variables dbg runtime : bool.
  Variable lo : Z.
  Hypothesis Lo : lo = -128 \/ lo = 0.
  Lemma text_view p t : shows_text lo p t -> exists v, v_cstr dbg p 0 = Ok v /\ valid v /\ chars v = t /\ bytes lo (61 :: t).
  Proof.
    destruct p as [l|]; cbn [shows_text].
    - intros ((b & ->) & N & L & B). destruct (cstr_ok dbg [] t b N L) as (v & E & (V & _) & _ & C). exists v. repeat (split; auto). constructor; auto. lia.
    - intros ->. exists v_null. destruct (null_ok dbg) as ((V & _) & C & E). repeat (split; auto). constructor; [lia|constructor].
  Qed.
  Lemma loop_ok argv texts : Forall2 (shows_text lo) argv texts -> forall fuel n, (n + fuel <= length argv)%nat ->
    exists args, args_loop dbg runtime fuel n argv = Ok args /\ Forall2 reads (firstn fuel (skipn n texts)) args.
  Proof.
    intros F. induction fuel as [|fuel IH]; intros n L; cbn [args_loop].
    - exists []. split; constructor.
    - destruct (nth_error_ex argv n) as (p & Ep); [lia|]. unfold rd. rewrite Ep. cbn [bind].
      assert (T : exists t, nth_error texts n = Some t /\ shows_text lo p t).
      { clear - F Ep. revert n Ep. induction F as [|x y l l' H F IH]; intros [|n] Ep; try discriminate; cbn in *; [inversion Ep; subst; eauto|auto]. }
      destruct T as (t & Et & St). destruct (text_view p t St) as (v & -> & V & C & B). cbn [bind].
      destruct (parse_ok dbg runtime lo v V) as (a & -> & A & M & Q); [rewrite C; exact B|]. cbn [bind]. rewrite C in M, Q.
      destruct (IH (S n)) as (args & -> & FA); [lia|]. cbn [bind]. exists (a :: args). split; auto.
      assert (K : skipn n texts = t :: skipn (S n) texts).
      { clear - Et. revert n Et. induction texts as [|x l IH]; intros [|n] Et; try discriminate; cbn in *; [congruence|]. rewrite IH by auto. reflexivity. }
      rewrite K. cbn [firstn]. constructor; [split; auto|exact FA].
  Qed.
  Lemma loop_ub argv texts : Forall2 (shows_text lo) argv texts -> forall fuel n, (n <= length argv)%nat -> (length argv < n + fuel)%nat ->
    args_loop dbg runtime fuel n argv = UB.
  Proof.
    intros F. induction fuel as [|fuel IH]; intros n Ln L; [lia|]. cbn [args_loop]. unfold rd.
    destruct (nth_error argv n) as [p|] eqn:Ep; [|reflexivity]. cbn [bind].
    assert (T : exists t, shows_text lo p t).
    { clear - F Ep. revert n Ep. induction F as [|x y l l' H F IH]; intros [|n] Ep; try discriminate; cbn in *; [inversion Ep; subst; eauto|eauto]. }
    destruct T as (t & St). destruct (text_view p t St) as (v & -> & V & C & B). cbn [bind].
    destruct (parse_ok dbg runtime lo v V) as (a & -> & _); [rewrite C; exact B|]. cbn [bind].
    assert (n < length argv)%nat by (apply nth_error_Some; congruence). rewrite IH by lia. reflexivity.
  Qed.
  Lemma empty_view : exists w, v_literal dbg [0] = Ok w /\ valid w /\ chars w = [].
  Proof. destruct (literal_zt dbg []) as (w & E & (W & _) & _ & C); [cbn [length]; lia|]. exists w. auto. Qed.
  Lemma arguments_ok argv texts argc : Forall2 (shows_text lo) argv texts -> argc <= Z.of_nat (length argv) ->
    exists prog args, arguments dbg runtime argc argv = Ok (prog, args) /\ valid prog /\
      chars prog = match firstn (Z.to_nat argc) texts with t :: _ => t | [] => [] end /\
      Forall2 reads (skipn 1 (firstn (Z.to_nat argc) texts)) args.
  Proof.
    intros F L. unfold arguments. destruct empty_view as (w & -> & W & CW). cbn [bind].
    assert (K : exists prog, (if 0 <? argc then p <- rd argv 0 ;; match p with None => Ok w | Some _ => v_cstr dbg p 0 end else Ok w) = Ok prog /\ valid prog /\
      chars prog = match firstn (Z.to_nat argc) texts with t :: _ => t | [] => [] end).
    { destruct (Z.ltb_spec 0 argc) as [H|H].
      - destruct F as [|p t argv texts Sp F]; [cbn in L; lia|]. unfold rd. cbn [nth_error bind].
        destruct (Z.to_nat argc) eqn:Ea; [lia|]. cbn [firstn]. destruct p as [l|].
        + destruct (text_view _ _ Sp) as (v & -> & V & C & _). exists v. auto.
        + cbn in Sp. subst t. exists w. auto.
      - replace (Z.to_nat argc) with 0%nat by lia. exists w. auto. }
    destruct K as (prog & -> & V & C). cbn [bind].
    destruct (Z_le_gt_dec argc 1) as [H|H].
    - replace (Z.to_nat (argc - 1)) with 0%nat by lia. cbn [args_loop bind]. exists prog, []. split; auto. split; auto. split; auto.
      assert (E : skipn 1 (firstn (Z.to_nat argc) texts) = []); [|rewrite E; constructor].
      destruct (Z.to_nat argc) as [|[|k]] eqn:E; [reflexivity| |lia]. destruct texts; reflexivity.
    - destruct (loop_ok argv texts F (Z.to_nat (argc - 1)) 1) as (args & -> & FA); [lia|]. cbn [bind]. exists prog, args. split; auto. split; auto. split; auto.
      rewrite firstn_skipn_comm in FA. replace (1 + Z.to_nat (argc - 1))%nat with (Z.to_nat argc) in FA by lia. exact FA.
  Qed.
  Lemma arguments_ub argv texts argc : Forall2 (shows_text lo) argv texts -> Z.of_nat (length argv) < argc -> arguments dbg runtime argc argv = UB.
  Proof.
    intros F L. unfold arguments. destruct empty_view as (w & -> & W & CW). cbn [bind].
    destruct (Z.ltb_spec 0 argc) as [H|H]; [|lia]. destruct F as [|p t argv texts Sp F]; [reflexivity|]. unfold rd. cbn [nth_error bind].
    assert (K : exists v, match p with None => Ok w | Some _ => v_cstr dbg p 0 end = Ok v).
    { destruct p; eauto. destruct (text_view _ _ Sp) as (v & -> & _). eauto. }
    destruct K as (v & ->). cbn [bind]. cbn [length] in L. rewrite (loop_ub _ (t :: texts)); [reflexivity|constructor; auto| |]; cbn [length]; lia.
  Qed.
End Q.

(** * The meaning is unique *)
Lemma split_eq a b r s : ~ In equals a -> ~ In equals b -> a ++ [equals] ++ r = b ++ [equals] ++ s -> a = b /\ r = s.
Proof.
  revert b. induction a as [|x a IH]; intros [|y b] Na Nb E; cbn [app] in E.
  - inversion E. auto.
  - inversion E. subst y. destruct Nb. left. auto.
  - inversion E. subst x. destruct Na. left. auto.
  - inversion E. subst y. destruct (IH b) as (-> & ->); auto; intros H'; [apply Na|apply Nb]; right; auto.
Qed.
Lemma unquoted_fun s v w : unquoted s v -> unquoted s w -> v = w.
Proof.
  intros [Ev | (Nv & ->)] [Ew | (Nw & ->)]; auto.
  - subst s. apply app_inv_head in Ew. apply app_inv_tail in Ew. auto.
  - destruct (Nw _ Ev).
  - destruct (Nv _ Ew).
Qed.
Lemma means_fun s n v n' v' : means s n v -> means s n' v' -> n = n' /\ v = v'.
Proof.
  intros M M'. destruct M as [n r v E N U | n E N | v N U]; destruct M' as [n' r' v' E' N' U' | n' E' N' | v' N' U'].
  - rewrite E in E'. apply app_inv_head in E'. destruct (split_eq _ _ _ _ N N' E') as (-> & ->). split; auto. eapply unquoted_fun; eauto.
  - rewrite E in E'. apply app_inv_head in E'. subst n'. destruct N'. apply in_or_app. right. left. auto.
  - destruct (N' _ E).
  - rewrite E in E'. apply app_inv_head in E'. subst n. destruct N. apply in_or_app. right. left. auto.
  - rewrite E in E'. apply app_inv_head in E'. auto.
  - destruct (N' _ E).
  - destruct (N _ E').
  - destruct (N _ E').
  - split; auto. eapply unquoted_fun; eauto.
Qed.
Lemma lone_means s n v : lone_quote s -> means s n v -> v = [quote].
Proof.
  intros L M.
  assert (U : forall w, unquoted [quote] w -> w = [quote]).
  { intros w [E | (_ & ->)]; auto. destruct w; discriminate. }
  destruct L as [-> | (m & Nm & ->)]; destruct M as [n r v E N Uv | n E N | v N Uv]; try discriminate; auto.
  - apply app_inv_head in E. change ([equals; quote]) with ([equals] ++ [quote]) in E. destruct (split_eq _ _ _ _ Nm N E) as (_ & <-). auto.
  - apply app_inv_head in E. subst n. destruct N. apply in_or_app. right. left. auto.
  - destruct (N (m ++ [equals; quote])). auto.
Qed.

(** * Lookups *)
Lemma find_arg_ok pred (P : argument -> Prop) args : (forall a, In a args -> exists b, pred a = Ok b /\ (b = true <-> P a)) -> forall n,
  exists r, find_arg pred n args = Ok (option_map (fun i => n + i)%nat r) /\ first_arg P args r.
Proof.
  induction args as [|a args IH]; intros H n; cbn [find_arg].
  - exists None. split; auto. intros a [].
  - destruct (H a (or_introl eq_refl)) as (b & -> & B). cbn [bind]. destruct b.
    + exists (Some 0%nat). cbn [option_map]. rewrite Nat.add_0_r. split; auto. exists a. split; auto. split; [apply B; auto|]. intros; lia.
    + destruct (IH (fun x h => H x (or_intror h)) (S n)) as (r & -> & R). exists (option_map S r). split; [destruct r; cbn [option_map]; do 2 f_equal; lia|].
      assert (Na : ~ P a) by (intros Pa; apply B in Pa; discriminate).
      destruct r as [i|]; cbn [first_arg option_map] in *.
      * destruct R as (x & Ex & Px & N). exists x. split; auto. split; auto. intros [|j] y L E; [cbn in E; congruence|]. apply (N j); [lia|exact E].
      * intros x [->|I]; auto.
Qed.
Lemma position_ok args name : Forall arg_valid args -> valid name ->
  exists r, find_argument_position args name = Ok r /\ first_arg (fun a => chars (a_name a) = chars name) args r.
Proof.
  intros F V. unfold find_argument_position.
  destruct (find_arg_ok (fun a => sv_eq (a_name a) name) (fun a => chars (a_name a) = chars name) args) with (n := 0%nat) as (r & E & R).
  { intros a I. rewrite Forall_forall in F. destruct (F a I) as (Va & _). destruct (rel_ops (a_name a) name Va V) as (e & _ & _ & _ & _ & _ & E & _ & _ & _ & _ & _ & B & _). eauto. }
  exists r. rewrite E. split; auto. destruct r; reflexivity.
Qed.
Lemma named_ok args name : Forall arg_valid args -> valid name ->
  exists r, first_arg (fun a => chars (a_name a) = chars name) args r /\
    args_named args name = Ok (match r with Some i => match nth_error args i with Some a => Some (a_value a) | None => None end | None => None end).
Proof.
  intros F V. unfold args_named. destruct (position_ok args name F V) as (r & -> & R). cbn [bind]. exists r. split; auto.
  destruct r as [i|]; auto. destruct R as (a & E & _). unfold rd. rewrite E. reflexivity.
Qed.
Lemma first_named_ok args : Forall arg_valid args ->
  exists r, first_named_argument args = Ok r /\ first_arg (fun a => chars (a_name a) <> []) args r /\
    has_named_argument args = Ok (match r with Some _ => true | None => false end).
Proof.
  intros F. unfold has_named_argument, first_named_argument.
  destruct (find_arg_ok (fun a => Ok (negb (vempty (a_name a)))) (fun a => chars (a_name a) <> []) args) with (n := 0%nat) as (r & E & R).
  { intros a I. rewrite Forall_forall in F. destruct (F a I) as (Va & _). eexists. split; [reflexivity|].
    pose proof (chars_nil_iff _ Va) as K. destruct (vempty (a_name a)); cbn [negb]; split; intros H; try discriminate; auto.
    - destruct H. apply K. auto.
    - intros E. apply K in E. discriminate. }
  exists r. rewrite E. split; [destruct r; reflexivity|]. split; auto. destruct r; reflexivity.
Qed.

(** * The statements of the properties *)

Lemma first_split {T} (P : T -> Prop) (l : list T) i x : nth_error l i = Some x -> exists a b, l = a ++ x :: b /\ length a = i.
Proof. intros E. apply nth_error_split in E. destruct E as (a & b & -> & L). eauto. Qed.
Lemma command_line_named : forall dbg runtime lo argv texts argc name, lo = -128 \/ lo = 0 -> Forall2 (shows_text lo) argv texts -> 0 < argc <= Z.of_nat (length argv) ->
  Forall (fun t => ~ lone_quote t) texts -> valid name ->
  exists prog args r, arguments dbg runtime argc argv = Ok (prog, args) /\ args_size args = Z.to_nat (argc - 1) /\ args_named args name = Ok r /\
    match r with
    | Some v => exists a t b, firstn (Z.to_nat argc) texts = a ++ t :: b /\ (0 < length a)%nat /\ valid v /\ means t (chars name) (chars v) /\
        forall u w, In u (skipn 1 a) -> ~ means u (chars name) w
    | None => forall u w, In u (skipn 1 (firstn (Z.to_nat argc) texts)) -> ~ means u (chars name) w
    end.
Proof.
  intros dbg runtime lo argv texts argc name Lo F L Q V. destruct (arguments_ok dbg runtime lo Lo argv texts argc F ltac:(lia)) as (prog & args & E & _ & _ & R).
  assert (Lt : length argv = length texts) by (clear - F; induction F; cbn [length]; lia).
  assert (Lf : length (firstn (Z.to_nat argc) texts) = Z.to_nat argc) by (rewrite firstn_length; lia).
  assert (Q' : Forall (fun t => ~ lone_quote t) (firstn (Z.to_nat argc) texts)).
  { apply Forall_forall. intros t I. rewrite Forall_forall in Q. apply Q. rewrite <- (firstn_skipn (Z.to_nat argc) texts). apply in_or_app. auto. }
  destruct (firstn (Z.to_nat argc) texts) as [|t0 ts] eqn:Ef; [cbn [length] in Lf; lia|]. cbn [skipn] in *. inversion Q' as [|? ? _ Q2]; subst.
  assert (M : Forall2 (fun t a => arg_valid a /\ means t (chars (a_name a)) (chars (a_value a))) ts args).
  { clear - R Q2. induction R as [|t a ts args (A & M & _) R IH]; [constructor|]. inversion Q2; subst. constructor; auto. }
  assert (Lm : length ts = length args) by (clear - M; induction M; cbn [length]; lia).
  assert (FA : Forall arg_valid args) by (clear - M; induction M as [|? ? ? ? (A & _)]; constructor; auto).
  destruct (named_ok args name FA V) as (r & R' & En). exists prog, args. eexists. split; [exact E|]. split; [unfold args_size; cbn [length] in Lf; lia|]. split; [exact En|].
  assert (G : forall j u, nth_error ts j = Some u -> exists b, nth_error args j = Some b /\ arg_valid b /\ means u (chars (a_name b)) (chars (a_value b))).
  { clear - M. induction M as [|t a ts args (A & H) M IH]; intros [|j] u Eu; try discriminate; cbn in *; [inversion Eu; subst; eauto|auto]. }
  destruct r as [i|]; cbn [first_arg] in R'.
  - destruct R' as (a & Ea & Ca & N). rewrite Ea. assert (i < length ts)%nat by (rewrite Lm; apply nth_error_Some; congruence).
    destruct (nth_error_ex ts i) as (t & Et); [auto|]. destruct (G i t Et) as (b & Eb & (_ & Vb) & Mb). rewrite Ea in Eb. inversion Eb; subst b.
    destruct (nth_error_split _ _ Et) as (x & y & Exy & Lx). exists (t0 :: x), t, y. split; [rewrite Exy; reflexivity|]. split; [cbn [length]; lia|]. split; auto.
    split; [rewrite <- Ca; auto|]. cbn [skipn]. intros u w Iu Mu. apply In_nth_error in Iu. destruct Iu as (j & Ej).
    assert (j < length x)%nat by (apply nth_error_Some; congruence).
    assert (Ej' : nth_error ts j = Some u) by (rewrite Exy, nth_error_app1; auto).
    destruct (G j u Ej') as (b & Eb' & _ & Mb'). destruct (means_fun _ _ _ _ _ Mu Mb') as (En' & _). apply (N j b); auto. lia.
  - intros u w Iu Mu. apply In_nth_error in Iu. destruct Iu as (j & Ej). destruct (G j u Ej) as (b & Eb & _ & Mb). destruct (means_fun _ _ _ _ _ Mu Mb) as (En' & _).
    apply (R' b); auto. eapply nth_error_In; eauto.
Qed.

Lemma c251_meaning_partial :
  forall dbg runtime lo argv texts argc, lo = -128 \/ lo = 0 -> Forall2 (shows_text lo) argv texts -> argc <= Z.of_nat (length argv) ->
  Forall (fun t => ~ lone_quote t) texts ->
  exists prog args, arguments dbg runtime argc argv = Ok (prog, args) /\ valid prog /\
    chars prog = match firstn (Z.to_nat argc) texts with t :: _ => t | [] => [] end /\
    Forall2 (fun t a => exists n v, means t n v /\ arg_is a n v) (skipn 1 (firstn (Z.to_nat argc) texts)) args.
Proof.
  intros dbg runtime lo argv texts argc Lo F L Q. destruct (arguments_ok dbg runtime lo Lo argv texts argc F L) as (prog & args & E & V & C & R).
  exists prog, args. split; auto. split; auto. split; auto.
  assert (Q' : Forall (fun t => ~ lone_quote t) (skipn 1 (firstn (Z.to_nat argc) texts))).
  { apply Forall_forall. intros t I. rewrite Forall_forall in Q. apply Q. rewrite <- (firstn_skipn (Z.to_nat argc) texts). apply in_or_app. left.
    rewrite <- (firstn_skipn 1 (firstn (Z.to_nat argc) texts)). apply in_or_app. right. exact I. }
  clear - R Q'. induction R as [|t a ts args (A & M & _) R IH]; [constructor|]. inversion Q'; subst. constructor; auto.
  exists (chars (a_name a)), (chars (a_value a)). split; auto. destruct A. split; auto.
Qed.

Lemma c251_quote_refuted :
  forall dbg runtime lo argv texts argc, lo = -128 \/ lo = 0 -> Forall2 (shows_text lo) argv texts -> argc <= Z.of_nat (length argv) ->
  exists prog args, arguments dbg runtime argc argv = Ok (prog, args) /\
    forall i t a, nth_error (skipn 1 (firstn (Z.to_nat argc) texts)) i = Some t -> nth_error args i = Some a -> lone_quote t ->
    chars (a_value a) = [] /\ forall n v, means t n v -> v = [quote].
Proof.
  intros dbg runtime lo argv texts argc Lo F L. destruct (arguments_ok dbg runtime lo Lo argv texts argc F L) as (prog & args & E & V & C & R).
  exists prog, args. split; auto. intros i t a Et Ea Q. split; [|intros n v; apply lone_means; auto].
  clear - R Et Ea Q. revert i Et Ea. induction R as [|x y ts args (_ & _ & H) R IH]; intros [|i] Et Ea; try discriminate; cbn in Et, Ea; [inversion Et; inversion Ea; subst; auto|eauto].
Qed.

Lemma c251_unique :
  forall s n v n' v', means s n v -> means s n' v' -> n = n' /\ v = v'.
Proof.
  exact means_fun.
Qed.

Lemma c251_argc :
  forall dbg runtime lo argv texts argc, lo = -128 \/ lo = 0 -> Forall2 (shows_text lo) argv texts -> Z.of_nat (length argv) < argc ->
  arguments dbg runtime argc argv = UB.
Proof.
  intros dbg runtime lo argv texts argc Lo. exact (arguments_ub dbg runtime lo Lo argv texts argc).
Qed.

Lemma c252_by_name :
  forall args name, Forall arg_valid args -> valid name ->
  exists r, find_argument_position args name = Ok r /\ first_arg (fun a => chars (a_name a) = chars name) args r /\
    args_named args name = Ok (match r with Some i => option_map a_value (nth_error args i) | None => None end).
Proof.
  intros args name F V. destruct (named_ok args name F V) as (r & R & E). destruct (position_ok args name F V) as (r' & E' & R').
  exists r'. split; auto. split; auto. unfold args_named. rewrite E'. cbn [bind]. destruct r' as [i|]; auto. destruct R' as (a & Ea & _). unfold rd. rewrite Ea. reflexivity.
Qed.

Lemma c252_first_named :
  forall args, Forall arg_valid args ->
  exists r, first_named_argument args = Ok r /\ first_arg (fun a => chars (a_name a) <> []) args r /\
    has_named_argument args = Ok (match r with Some _ => true | None => false end).
Proof.
  exact first_named_ok.
Qed.

Lemma c252_command_line :
  forall dbg runtime lo argv texts argc name, lo = -128 \/ lo = 0 -> Forall2 (shows_text lo) argv texts -> 0 < argc <= Z.of_nat (length argv) ->
  Forall (fun t => ~ lone_quote t) texts -> valid name ->
  exists prog args r, arguments dbg runtime argc argv = Ok (prog, args) /\ args_size args = Z.to_nat (argc - 1) /\ args_named args name = Ok r /\
    match r with
    | Some v => exists a t b, firstn (Z.to_nat argc) texts = a ++ t :: b /\ (0 < length a)%nat /\ valid v /\ means t (chars name) (chars v) /\
        forall u w, In u (skipn 1 a) -> ~ means u (chars name) w
    | None => forall u w, In u (skipn 1 (firstn (Z.to_nat argc) texts)) -> ~ means u (chars name) w
    end.
Proof.
  exact command_line_named.
Qed.

Lemma c252_by_position_l :
  forall args idx, (args_empty args = true <-> args = []) /\ args_size args = length args /\
  (forall a, nth_error args idx = Some a -> args_at args idx = Ok a) /\ ((length args <= idx)%nat -> args_at args idx = UB).
Proof.
  intros args idx. split; [unfold args_empty, args_size; destruct args; cbn; split; congruence|]. split; [reflexivity|]. unfold args_at, rd. split.
  - intros a H. now rewrite H.
  - intros H. apply nth_error_None in H. now rewrite H.
Qed.
