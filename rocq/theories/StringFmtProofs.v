(** Proofs about StringFmt.v. *)
From Verif Require Import Common CommonProofs Ints BitsModel Math SeqContainers SeqProofs StringView SpecString StringViewProofs.
From Verif Require Import StringOtherProofs StringPop StringPopProofs SpecParse ParserHelper ParserHelperProofs.
From Verif Require Import StringView1 SpecStringView1 StringView1Proofs TextUtil TextUtilProofs.
From Verif Require Import SpecBits SpecOldString StringFmt SpecStringFmt.
From Verif Require OldStringProofs.
Open Scope Z_scope.

(** * The split range *)
Lemma occurs_tail pre rest d i : occurs (pre ++ rest) d i -> (length pre <= i)%nat ->
  exists a b, rest = a ++ d ++ b /\ i = (length pre + length a)%nat.
Proof.
  intros (a & b & E & L) H. assert (P : pre = firstn (length pre) a).
  { assert (Q : firstn (length pre) (pre ++ rest) = pre).
    { rewrite firstn_app, firstn_all, Nat.sub_diag. cbn. apply app_nil_r. }
    rewrite <- Q at 1. rewrite E, firstn_app. replace (length pre - length a)%nat with 0%nat by lia. cbn. now rewrite app_nil_r. }
  pose proof (firstn_skipn (length pre) a) as F. rewrite <- P in F. rewrite <- F, <- app_assoc in E.
  apply app_inv_head in E. exists (skipn (length pre) a), b. split; auto.
  rewrite skipn_length. lia.
Qed.

Lemma first_tail v w pre rest d : sh v (pre ++ rest) -> sh w d -> d <> [] ->
  exists r, si_find_next (SI v w (Z.of_nat (length pre))) = Ok r /\
    ((r = npos /\ ~ part_of d rest) \/
     (exists a b, rest = a ++ d ++ b /\ r = Z.of_nat (length pre + length a) /\
        forall a' b', rest = a' ++ d ++ b' -> (length a <= length a')%nat)).
Proof.
  intros V W N. unfold si_find_next. cbn [si_str si_delim si_pos]. rewrite (sh_empty v _ V).
  destruct (pre ++ rest) as [|c t] eqn:E.
  - exists npos. split; auto. left. split; auto. apply app_eq_nil in E. destruct E as (-> & ->).
    intros (a & b & H). symmetry in H. apply app_eq_nil in H. destruct H as (_ & H). apply app_eq_nil in H. tauto.
  - rewrite <- E in *. clear c t E.
    destruct (find1_ok v w (pre ++ rest) d (Z.of_nat (length pre)) V W) as (r & Er & F).
    { rewrite app_length. lia. }
    exists r. split; auto. destruct F as [(-> & A)|(i & -> & (B & C) & D)].
    + left. split; auto. intros (a & b & H). apply (A (length pre + length a)%nat). split; [lia|].
      exists (pre ++ a), b. rewrite H, <- app_assoc, app_length. auto.
    + right. destruct (occurs_tail _ _ _ _ C ltac:(lia)) as (a & b & H & ->). exists a, b. split; auto. split; auto.
      intros a' b' H'. destruct (Nat.le_gt_cases (length a) (length a')) as [|L]; auto. exfalso.
      apply (D (length pre + length a')%nat); [lia|]. split; [lia|].
      exists (pre ++ a'), b'. rewrite H', <- app_assoc, app_length. auto.
Qed.

Lemma not_end v w p s : sh v s -> 0 <= p < npos -> si_equal (SI v w p) si_end = Ok false.
Proof.
  intros V P. unfold si_equal, si_end. cbn [si_str si_delim si_pos]. rewrite Z.eqb_refl.
  destruct (Z.eqb_spec p npos) as [C|C]; [lia|]. cbn [andb].
  assert (N : sh null1 []) by (split; cbn; auto). unfold eq1. rewrite (compare1_ok v null1 s [] V N). cbn [bind].
  destruct (Z.eqb_spec p npos); [lia|]. destruct (lexc s [] =? 0); reflexivity.
Qed.

Lemma at_end v w fuel : si_collect fuel (SI v w npos) = Ok [].
Proof. destruct fuel; cbn [si_collect]; unfold si_equal; cbn; reflexivity. Qed.

Lemma sz_id n : 0 <= n < 2 ^ 64 -> sz n = n.
Proof. intros H. unfold sz, wrap. apply Z.mod_small. exact H. Qed.

Lemma deref_ok v w pre rest d : sh v (pre ++ rest) -> sh w d -> d <> [] ->
  exists p, si_deref (SI v w (Z.of_nat (length pre))) = Ok p /\
    ((~ part_of d rest /\ sh p rest) \/
     (exists a b, rest = a ++ d ++ b /\ sh p a /\
        forall a' b', rest = a' ++ d ++ b' -> (length a <= length a')%nat)).
Proof.
  intros V W N. pose proof (sh_bound v _ V) as (B & _). rewrite app_length in B.
  destruct (first_tail v w pre rest d V W N) as (r & Er & F). unfold si_deref. cbn [si_str si_delim si_pos].
  destruct (remove_prefix1_ok v _ (Z.of_nat (length pre)) V ltac:(lia)) as (v' & Ev & V' & _).
  rewrite Ev. cbn [bind]. rewrite Er. cbn [bind].
  rewrite Nat2Z.id, skipn_app, skipn_all, Nat.sub_diag in V'. cbn [skipn app] in V'.
  destruct F as [(-> & A)|(a & b & H & -> & D)].
  - destruct (substr1_ok v' rest 0 (sz (npos - Z.of_nat (length pre))) V') as (p & Ep & P); [lia| |].
    { unfold sz, wrap. apply Z.mod_pos_bound. lia. }
    exists p. split; auto. left. split; auto. rewrite sz_id in P by (rewrite npos_val; lia).
    cbn [Z.to_nat skipn] in P. rewrite firstn_all2 in P by (rewrite npos_val; lia). exact P.
  - assert (L : length rest = (length a + (length d + length b))%nat) by (rewrite H, !app_length; lia).
    rewrite sz_id by lia.
    destruct (substr1_ok v' rest 0 (Z.of_nat (length pre + length a) - Z.of_nat (length pre)) V') as (p & Ep & P); [lia|lia|].
    exists p. split; auto. right. exists a, b. split; auto. split; auto.
    replace (Z.to_nat (Z.of_nat (length pre + length a) - Z.of_nat (length pre))) with (length a) in P by lia.
    cbn [Z.to_nat skipn] in P. rewrite H, firstn_app, Nat.sub_diag, firstn_all in P. cbn in P. rewrite app_nil_r in P. exact P.
Qed.

Lemma part_of_first d rest a b : rest = a ++ d ++ b -> part_of d rest.
Proof. intros ->. exists a, b. auto. Qed.

Lemma collect_ok v w d : sh w d -> d <> [] -> forall n rest pre, sh v (pre ++ rest) -> (length rest <= n)%nat ->
  exists ps, si_collect (S n) (SI v w (Z.of_nat (length pre))) = Ok ps /\ Forall valid1 ps /\ cut_text d rest (map chars1 ps).
Proof.
  intros W N. induction n as [n IH] using lt_wf_ind. intros rest pre V L.
  pose proof (sh_bound v _ V) as (B & _). rewrite app_length in B.
  cbn [si_collect]. rewrite (not_end v w _ _ V) by (rewrite npos_val; lia). cbn [bind].
  destruct (deref_ok v w pre rest d V W N) as (p & Ep & P). rewrite Ep. cbn [bind].
  unfold si_move_next. destruct (first_tail v w pre rest d V W N) as (r & Er & F). rewrite Er. cbn [bind si_str si_delim si_pos].
  destruct F as [(-> & A)|(a & b & H & -> & D)].
  - rewrite Z.eqb_refl. cbn [bind]. rewrite at_end. cbn [bind]. exists [p].
    destruct P as [(_ & P)|(a & b & H & _)]; [|destruct A; eapply part_of_first; eauto].
    apply sh_iff in P. destruct P as (P1 & P2). split; auto. split; auto. cbn [map]. rewrite P2. now constructor.
  - destruct P as [(A & _)|(a' & b' & H' & P & D')]; [destruct A; eapply part_of_first; eauto|].
    assert (LL : length rest = (length a + (length d + length b))%nat) by (rewrite H, !app_length; lia).
    assert (a' = a /\ b' = b) as (-> & ->).
    { assert (length a' = length a) by (apply Nat.le_antisymm; [eapply D'|eapply D]; eauto).
      assert (E : a' ++ d ++ b' = a ++ d ++ b) by congruence.
      assert (G : a' = a).
      { pose proof (f_equal (firstn (length a)) E) as G. rewrite !firstn_app, Nat.sub_diag, firstn_all in G.
        replace (length a - length a')%nat with 0%nat in G by lia. rewrite firstn_all2 in G by lia. cbn in G.
        now rewrite !app_nil_r in G. }
      split; auto. subst a'. apply app_inv_head in E. now apply app_inv_head in E. }
    rewrite (sh_size w d W). destruct (Z.eqb_spec (Z.of_nat (length pre + length a)) npos) as [C|_]; [rewrite npos_val in C; lia|].
    assert (0 < length d)%nat by (destruct d; [congruence|cbn; lia]).
    assert (LB : Z.of_nat (length b) < 2 ^ 63) by lia.
    rewrite sz_id by lia. cbn [bind].
    destruct n as [|n]; [lia|].
    destruct (IH n ltac:(lia) b (pre ++ a ++ d)) as (ps & E & PV & C).
    { rewrite <- !app_assoc. rewrite H in V. exact V. }
    { lia. }
    replace (Z.of_nat (length (pre ++ a ++ d))) with (Z.of_nat (length pre + length a) + Z.of_nat (length d)) in E
      by (rewrite !app_length; lia).
    rewrite E. cbn [bind]. exists (p :: ps). apply sh_iff in P. destruct P as (P1 & P2).
    split; auto. split; [now constructor|]. cbn [map]. rewrite P2, H. constructor; auto.
    intros x y Q. apply (D x y). congruence.
Qed.

Lemma split_string_ok v w d s : sh v s -> sh w d -> d <> [] -> forall fuel, (length s < fuel)%nat ->
  exists ps, split_string fuel v w = Ok ps /\ Forall valid1 ps /\ cut_text d s (map chars1 ps).
Proof.
  intros V W N [|n] L; [lia|]. apply (collect_ok v w d W N n s []); auto. lia.
Qed.

Lemma cut_text_unique d s ps qs : d <> [] -> cut_text d s ps -> cut_text d s qs -> ps = qs.
Proof.
  intros N H. revert qs. induction H as [s A|pre post ps A H IH]; intros qs Q.
  - inversion Q as [|pre post ps' B C]; subst; auto. destruct A. exists pre, post. auto.
  - inversion Q as [s' B|pre' post' ps' B C E]; subst.
    + destruct B. exists pre, post. auto.
    + assert (L : length pre = length pre') by (apply Nat.le_antisymm; [eapply A|eapply B]; eauto).
      assert (pre = pre').
      { pose proof (f_equal (firstn (length pre)) E) as F. rewrite L in F at 1.
        rewrite !firstn_app, L, !Nat.sub_diag, firstn_all in F. rewrite <- L, firstn_all in F. cbn in F.
        now rewrite !app_nil_r in F. }
      subst pre'. apply app_inv_head in E. apply app_inv_head in E. subst post'. f_equal. auto.
Qed.

Lemma cut_text_joined d s ps : cut_text d s ps -> joined d ps = s /\ ps <> [].
Proof.
  induction 1 as [s A|pre post ps A H (IH & E)].
  - split; [reflexivity|discriminate].
  - split; [|discriminate]. destruct ps as [|p ps]; [congruence|]. cbn [joined]. cbn [joined] in IH. now rewrite IH.
Qed.

Lemma split_empty_delim v w s : sh v s -> sh w [] -> s <> [] -> forall fuel, split_string fuel v w = OutOfFuel.
Proof.
  intros V W N fuel. unfold split_string, si_begin. pose proof (sh_bound v _ V) as (B & _).
  induction fuel as [|fuel IH]; cbn [si_collect]; rewrite (not_end v w 0 s V) by (rewrite npos_val; lia); cbn [bind]; auto.
  assert (E : si_find_next (SI v w 0) = Ok 0).
  { unfold si_find_next. cbn [si_str si_delim si_pos]. rewrite (sh_empty v s V). destruct s; [congruence|].
    exact (find1_beyond_empty v w _ 0 V W). }
  unfold si_deref, si_move_next. rewrite E. cbn [bind si_str si_delim si_pos].
  destruct (remove_prefix1_ok v s 0 V ltac:(lia)) as (v' & Ev & V' & _). rewrite Ev. cbn [bind].
  destruct (substr1_ok v' _ 0 (sz (0 - 0)) V') as (p & Ep & _); [lia|cbn; lia|]. rewrite Ep. cbn [bind].
  rewrite (sh_size w [] W). cbn [length]. change (0 =? npos) with false. cbn [bind].
  change (sz (0 + Z.of_nat 0)) with 0. rewrite IH. reflexivity.
Qed.

Lemma equal_ok v w p v' w' p' s d s' d' : sh v s -> sh w d -> sh v' s' -> sh w' d' ->
  si_equal (SI v w p) (SI v' w' p') =
    Ok (((p =? npos) && (p' =? npos)) || ((lexc s s' =? 0) && (p =? p') && (lexc d d' =? 0))).
Proof.
  intros V W V' W'. unfold si_equal. cbn [si_str si_delim si_pos]. destruct ((p =? npos) && (p' =? npos)); auto.
  unfold eq1. rewrite (compare1_ok v v' s s' V V'), (compare1_ok w w' d d' W W'). cbn [bind orb].
  destruct (lexc s s' =? 0); cbn [negb andb]; auto. destruct (p =? p'); reflexivity.
Qed.

(** * The formatter of version 1 *)
Lemma vread_ok v : valid v -> vread v = Ok (chars v).
Proof. intros V. unfold vread. rewrite (chars_len v V). apply read_n_ok. now apply chars_hold. Qed.

Lemma nempty_spec v : valid v -> vempty v = match chars v with [] => true | _ => false end.
Proof. intros V. now apply vempty_spec. Qed.

Lemma cut_char_found c s p r t rest : cut_first (char_is s (fun x => x = c)) 1 s p r ->
  s = t ++ c :: rest -> ~ In c t -> p = t /\ r = rest.
Proof.
  intros H E N. assert (Q : char_is s (fun x => x = c) (length t)).
  { exists c. split; auto. rewrite E, nth_error_app2, Nat.sub_diag by lia. reflexivity. }
  destruct H as [(d & Hs & L & (x & X & ->) & F)|(F & _)]; [|destruct (F _ Q)].
  assert (LE : (length t <= length p)%nat).
  { destruct (Nat.le_gt_cases (length t) (length p)) as [|G]; auto. exfalso. apply N.
    rewrite E, nth_error_app1 in X by lia. eapply nth_error_In; eauto. }
  assert (length p = length t) as L2.
  { apply Nat.le_antisymm; auto. destruct (Nat.le_gt_cases (length p) (length t)) as [|G]; auto. destruct (F _ G Q). }
  rewrite E in Hs. assert (G : t = p).
  { pose proof (f_equal (firstn (length p)) Hs) as G. rewrite !firstn_app, L2, !Nat.sub_diag, firstn_all in G.
    rewrite <- L2, firstn_all in G. cbn in G. now rewrite !app_nil_r in G. }
  subst p. split; auto. apply app_inv_head in Hs. destruct d as [|d [|]]; cbn in L; try lia. cbn in Hs. congruence.
Qed.

Lemma cut_char_none c s p r : cut_first (char_is s (fun x => x = c)) 1 s p r -> ~ In c s -> p = s /\ r = [].
Proof.
  intros [(d & Hs & L & (x & X & ->) & F)|(_ & A & B)] N; auto. destruct N. eapply nth_error_In; eauto.
Qed.

Lemma cut_char_shorter c s p r : cut_first (char_is s (fun x => x = c)) 1 s p r -> s <> [] -> (length r < length s)%nat.
Proof.
  intros [(d & -> & L & _)|(_ & A & ->)] N; [rewrite !app_length; lia|]. destruct s; [congruence|cbn; lia].
Qed.

(** What the two views of pop_front_until have in common with the first. *)
Lemma until_mem dbg runtime v c p v' l : vmem v = Some l -> pop_front_until_char dbg runtime v c = Ok (p, v') ->
  vmem p = Some l /\ voff p = voff v.
Proof.
  intros M E. unfold pop_front_until_char in E. destruct (sv_find_char dbg runtime v c 0) as [pos| | |]; try discriminate.
  cbn [bind] in E. unfold pop_front, substr, chk in E. destruct (dbg && negb (0 <=? vsize v)); try discriminate. cbn [bind] in E.
  rewrite M in E. destruct (padd (Some l) (voff v) 0) as [f| | |] eqn:F; try discriminate. cbn [bind] in E.
  destruct (padd (Some l) f (Z.min pos (sz (vsize v - 0)))) as [g| | |]; try discriminate. cbn [bind] in E.
  destruct (remove_prefix v pos) as [v1| | |]; try discriminate. cbn [bind] in E.
  destruct (remove_prefix v1 1) as [v2| | |]; try discriminate. cbn [bind] in E. inversion E. subst.
  cbn [v_between vmem voff]. split; auto. unfold padd in F. destruct (_ && _); inversion F. lia.
Qed.

Lemma unsigned_loop_nonneg count a l : forall f r g x, 0 <= r -> unsigned_loop u8 count a f l r = Ok (g, x) -> 0 <= x.
Proof.
  induction count as [|n IH]; intros f r g x R E; cbn [unsigned_loop] in E; [inversion E; subst; auto|].
  destruct (f =? l)%nat; [inversion E; subst; auto|]. unfold assign_op in E.
  destruct (calc (promote u8) (r * 10)) as [y| | |]; try discriminate. cbn [bind] in E.
  destruct (rd a f) as [c| | |]; try discriminate. cbn [bind] in E.
  destruct (calc (promote u8) (conv u8 y + from_num_char u8 c)) as [z| | |]; try discriminate. cbn [bind] in E.
  eapply IH; [|exact E]. unfold conv, u8, wrap. cbn [signed width]. apply Z.mod_pos_bound. lia.
Qed.

Section V1Proofs.
  Variables dbg runtime : bool.
  Variable args : list (list Z).
  Hypothesis few : (length args <= 255)%nat.
  Notation okb s := (runtime = true -> bytes (-128) s).

  Lemma okb_app s a b : s = a ++ b -> okb s -> okb a /\ okb b.
  Proof. clear few. intros -> H. split; intros R; specialize (H R); apply Forall_app in H; tauto. Qed.

  Lemma until_ok v c : valid v -> -128 <= c < 128 -> okb (chars v) ->
    exists p v', pop_front_until_char dbg runtime v c = Ok (p, v') /\ valid p /\ valid v' /\
      cut_first (char_is (chars v) (fun x => x = c)) 1 (chars v) (chars p) (chars v').
  Proof. clear few.
    intros V C B. apply (pop_front_until_char_ok dbg runtime (-128)); auto. intros R. constructor; [lia|exact (B R)].
  Qed.

  Lemma until_found v c t rest : valid v -> -128 <= c < 128 -> okb (chars v) -> chars v = t ++ c :: rest -> ~ In c t ->
    exists p v', pop_front_until_char dbg runtime v c = Ok (p, v') /\ valid p /\ valid v' /\ chars p = t /\ chars v' = rest.
  Proof. clear few.
    intros V C B E N. destruct (until_ok v c V C B) as (p & v' & Ep & P & V' & H). exists p, v'.
    destruct (cut_char_found _ _ _ _ _ _ H E N). auto.
  Qed.
  Lemma until_none v c : valid v -> -128 <= c < 128 -> okb (chars v) -> ~ In c (chars v) ->
    exists p v', pop_front_until_char dbg runtime v c = Ok (p, v') /\ valid p /\ valid v' /\ chars p = chars v /\ chars v' = [].
  Proof. clear few.
    intros V C B N. destruct (until_ok v c V C B) as (p & v' & Ep & P & V' & H). exists p, v'.
    destruct (cut_char_none _ _ _ _ H N). auto.
  Qed.

  Lemma get_arg_impl_ok l : forall cnt idx, 0 <= cnt <= idx -> cnt + Z.of_nat (length l) <= 255 ->
    get_arg_impl cnt idx l = match nth_error l (Z.to_nat (idx - cnt)) with Some a => Ok a | None => Throw end.
  Proof. clear few.
    induction l as [|a l IH]; intros cnt idx H B; cbn [get_arg_impl].
    - destruct (Z.to_nat (idx - cnt)); reflexivity.
    - cbn [length] in B. destruct (Z.eqb_spec cnt idx) as [->|D].
      + rewrite Z.sub_diag. reflexivity.
      + assert (W : wrap 8 (cnt + 1) = cnt + 1) by (unfold wrap; apply Z.mod_small; lia). rewrite W, IH by lia.
        replace (Z.to_nat (idx - cnt)) with (S (Z.to_nat (idx - (cnt + 1)))) by lia. reflexivity.
  Qed.
  Lemma get_arg_ok idx : 0 <= idx ->
    get_arg args idx = match nth_error args (Z.to_nat idx) with Some a => Ok a | None => Throw end.
  Proof. intros H. unfold get_arg. rewrite get_arg_impl_ok by lia. now rewrite Z.sub_0_r. Qed.

  Lemma digits_no c ds : Forall digit_char ds -> ~ digit_char c -> ~ In c ds.
  Proof. clear few. intros F N H. rewrite Forall_forall in F. auto. Qed.
  Lemma not_digit_125 : ~ digit_char 125. Proof. clear few. unfold digit_char. lia. Qed.
  Lemma not_digit_123 : ~ digit_char 123. Proof. clear few. unfold digit_char. lia. Qed.

  Lemma index_value v : valid v -> Forall digit_char (chars v) -> chars v <> [] ->
    view_unsigned_int u8 v = if (length (chars v) <=? 2)%nat then Ok (number (chars v)) else Throw.
  Proof. clear few. intros V F N. apply (view_unsigned_ok u8 v); auto. unfold std_width. cbn. lia. Qed.
  Lemma number_pos ds : Forall digit_char ds -> 0 <= number ds.
  Proof. apply OldStringProofs.number_nonneg. Qed.

  Definition behind (R : list Z) : list Z := match R with [] => [] | _ :: X => X end.
  (** What starts a new placeholder, or nothing. *)
  Definition starts (R : list Z) : Prop := R = [] \/ exists X, R = 123 :: X.

  Lemma until_brace v t R : valid v -> okb (chars v) -> chars v = t ++ R -> ~ In 123 t -> starts R ->
    exists p v', pop_front_until_char dbg runtime v 123 = Ok (p, v') /\ valid p /\ valid v' /\ chars p = t /\ chars v' = behind R.
  Proof. clear few.
    intros V B E N [-> | (X & ->)].
    - rewrite app_nil_r in E. destruct (until_none v 123 V ltac:(lia) B) as (p & v' & Ep & H); [now rewrite E|].
      exists p, v'. rewrite E in H. auto.
    - exact (until_found v 123 t X V ltac:(lia) B E N).
  Qed.

  (** One round of the loop on an index [ds]. *)
  Lemma fmt1_step fuel sv result ds t R n : valid sv -> okb (chars sv) -> chars sv = ds ++ 125 :: t ++ R ->
    ~ In 125 ds -> ~ In 123 t -> starts R ->
    (forall p, valid p -> chars p = ds -> (ds = [] -> vmem p = vmem sv /\ voff p = voff sv) -> view_unsigned_int u8 p = Ok n) -> 0 <= n ->
    match nth_error args (Z.to_nat n) with
    | None => fmt1_loop dbg runtime args (S fuel) sv result = Throw
    | Some a => exists sv', valid sv' /\ chars sv' = behind R /\
        fmt1_loop dbg runtime args (S fuel) sv result = fmt1_loop dbg runtime args fuel sv' (result ++ a ++ t)
    end.
  Proof.
    intros V B E N1 N2 S H P. cbn [fmt1_loop]. rewrite (nempty_spec sv V).
    replace (match chars sv with [] => true | _ => false end) with false by (rewrite E; destruct ds; reflexivity).
    destruct (until_found sv 125 ds (t ++ R) V ltac:(lia) B E N1) as (p & sv1 & Ep & Vp & V1 & Cp & C1).
    rewrite Ep. cbn [bind]. rewrite (H p Vp Cp).
    2:{ intros D. destruct (vmem sv) as [l|] eqn:M; [exact (until_mem _ _ _ _ _ _ _ M Ep)|].
        exfalso. unfold chars in E. rewrite M in E. destruct ds; discriminate. }
    cbn [bind]. rewrite (get_arg_ok n P). destruct (nth_error args (Z.to_nat n)) as [a|]; cbn [bind]; auto.
    assert (B1 : okb (chars sv1)).
    { rewrite C1. apply (okb_app (chars sv) (ds ++ [125]) (t ++ R)); auto. rewrite E, <- app_assoc. reflexivity. }
    destruct (until_brace sv1 t R V1 B1 C1 N2 S) as (q & sv2 & Eq & Vq & V2 & Cq & C2). rewrite Eq. cbn [bind].
    rewrite (vread_ok q Vq), Cq. cbn [bind]. exists sv2. auto.
  Qed.

  (** The text behind the first brace of a format. *)
  Definition items_text (items : list (list Z * list Z)) : list Z :=
    List.concat (map (fun i => braced (fst i) ++ snd i) items).
  Definition items_value (items : list (list Z * list Z)) : list Z :=
    List.concat (map (fun i => arg_text args (number (fst i)) ++ snd i) items).
  Definition iok (i : list Z * list Z) : Prop :=
    fst i <> [] /\ (length (fst i) <= 2)%nat /\ Forall digit_char (fst i) /\ Forall (fun c => ~ In c [123]) (snd i).

  Lemma no_bad (bad : list Z) c t : In c bad -> Forall (fun c => ~ In c bad) t -> ~ In c t.
  Proof. intros H F I. rewrite Forall_forall in F. exact (F c I H). Qed.

  Lemma items_starts items R : starts R -> starts (items_text items ++ R).
  Proof.
    destruct items as [|(ds, t) items]; auto. intros _. right. eexists. unfold items_text, braced. cbn. reflexivity.
  Qed.

  Lemma nth_arg_text n : 0 <= n < Z.of_nat (length args) -> nth_error args (Z.to_nat n) = Some (arg_text args n).
  Proof. intros H. apply nth_error_nth'. lia. Qed.

  Lemma fmt1_items items R : starts R -> Forall iok items -> in_range (length args) items -> forall k sv result,
    valid sv -> okb (chars sv) -> chars sv = behind (items_text items ++ R) ->
    exists sv', valid sv' /\ chars sv' = behind R /\ okb (chars sv') /\
      fmt1_loop dbg runtime args (length items + k) sv result = fmt1_loop dbg runtime args k sv' (result ++ items_value items).
  Proof.
    intros SR. induction items as [|(ds, t) items IH]; intros F G k sv result V B E.
    - exists sv. cbn. rewrite app_nil_r. auto.
    - inversion F as [|? ? (F1 & F2 & F3 & F4) F5]; subst. inversion G as [|? ? G1 G2]; subst. cbn [fst snd] in *.
      assert (E' : chars sv = ds ++ 125 :: t ++ (items_text items ++ R)).
      { rewrite E. unfold items_text, braced. cbn. rewrite <- !app_assoc. reflexivity. }
      pose proof (number_pos ds F3) as NP.
      pose proof (fmt1_step (length items + k) sv result ds t (items_text items ++ R) (number ds) V B E'
        (digits_no 125 ds F3 not_digit_125) (no_bad [123] 123 t ltac:(now left) F4) (items_starts items R SR)) as ST.
      rewrite nth_arg_text in ST by lia. destruct ST as (sv1 & V1 & C1 & E1); auto.
      { intros p Vp Cp _. rewrite index_value; rewrite ?Cp; auto. replace (length ds <=? 2)%nat with true by (symmetry; apply Nat.leb_le; lia). reflexivity. }
      assert (B1 : okb (chars sv1)).
      { rewrite C1. destruct (items_text items ++ R) as [|x X] eqn:EX; [intros _; constructor|]. cbn [behind].
        apply (okb_app (chars sv) (ds ++ 125 :: t ++ [x]) X); auto. rewrite E', <- !app_assoc. cbn. rewrite <- ?app_assoc, ?EX. reflexivity. }
      destruct (IH F5 G2 k sv1 (result ++ arg_text args (number ds) ++ t) V1 B1 C1) as (sv2 & V2 & C2 & B2 & E2).
      exists sv2. split; auto. split; auto. split; auto. cbn [length Nat.add]. rewrite E1, E2. f_equal.
      unfold items_value. cbn. rewrite <- !app_assoc. reflexivity.
  Qed.

  Lemma string_view_ok f : Z.of_nat (length f) + 1 < 2 ^ 63 ->
    exists sv, v_range_zt dbg (Some (std_string f)) 0 (Z.of_nat (length f)) = Ok sv /\ valid sv /\ chars sv = f.
  Proof. clear few.
    intros L. unfold v_range_zt, set_zt, std_string. unfold zt_offset.
    destruct (Z.leb_spec (2 ^ 63) (Z.of_nat (length f))); [lia|].
    assert (R : rdp (Some (f ++ [0])) (0 + Z.of_nat (length f)) = Ok 0).
    { unfold rdp. destruct (Z.ltb_spec (0 + Z.of_nat (length f)) 0); [lia|]. rewrite Z.add_0_l, Nat2Z.id. unfold rd.
      rewrite nth_error_app2, Nat.sub_diag by lia. reflexivity. }
    rewrite R. assert (S : sz (Z.of_nat (length f) + 2 ^ 63) = Z.of_nat (length f) + 2 ^ 63) by (apply sz_id; lia).
    rewrite S. set (sv := View (Some (f ++ [0])) 0 (Z.of_nat (length f) + 2 ^ 63)).
    assert (SZ : vsize sv = Z.of_nat (length f)).
    { rewrite vsize_mod. cbn [sv vlast]. replace (Z.of_nat (length f) + 2 ^ 63) with (Z.of_nat (length f) + 1 * 2 ^ 63) by lia.
      rewrite Z.mod_add by lia. apply Z.mod_small. lia. }
    exists sv. split; [destruct dbg; reflexivity|]. split.
    - unfold valid. rewrite SZ. cbn [sv vmem voff vlast]. rewrite app_length. cbn [length]. lia.
    - unfold chars. rewrite SZ. cbn [sv vmem voff]. cbn [Z.to_nat skipn]. rewrite Nat2Z.id, firstn_app, Nat.sub_diag, firstn_all.
      apply app_nil_r.
  Qed.

  Lemma fmt1_start f t0 R : Z.of_nat (length f) + 1 < 2 ^ 63 -> okb f -> f = t0 ++ R -> ~ In 123 t0 -> starts R ->
    exists sv, valid sv /\ chars sv = behind R /\ okb (chars sv) /\
      fmt1 dbg runtime args f = fmt1_loop dbg runtime args (length f) sv t0.
  Proof.
    intros L B E N S. unfold fmt1. destruct (string_view_ok f L) as (sv & Es & V & C). rewrite Es. cbn [bind].
    destruct (until_brace sv t0 R V) as (p & sv1 & Ep & Vp & V1 & Cp & C1); rewrite ?C; auto.
    rewrite Ep. cbn [bind]. rewrite (vread_ok p Vp), Cp. cbn [bind]. exists sv1. split; auto. split; auto. split; auto.
    rewrite C1. destruct R as [|x X]; [intros _; constructor|]. cbn [behind].
    apply (okb_app f (t0 ++ [x]) X); auto. rewrite E, <- app_assoc. reflexivity.
  Qed.

  Lemma items_length items : Forall iok items -> (length items <= length (items_text items))%nat.
  Proof.
    induction 1 as [|(ds, t) items H F IH]; auto. unfold items_text in *. cbn [map List.concat length fst snd].
    rewrite !app_length. unfold braced in *. cbn [length]. lia.
  Qed.

  Lemma fmt1_good t0 items : format_ok 2 [123] t0 items -> in_range (length args) items ->
    Z.of_nat (length (format_of t0 items)) + 1 < 2 ^ 63 -> okb (format_of t0 items) ->
    fmt1 dbg runtime args (format_of t0 items) = Ok (format_value (arg_text args) t0 items).
  Proof.
    intros (F0 & F) G L B. pose proof (items_length items F) as IL.
    assert (E : format_of t0 items = t0 ++ (items_text items ++ [])) by (unfold format_of, items_text; now rewrite app_nil_r).
    destruct (fmt1_start _ t0 _ L B E (no_bad [123] 123 t0 ltac:(now left) F0) (items_starts items [] ltac:(now left)))
      as (sv & V & C & B1 & E1).
    rewrite E1. replace (length (format_of t0 items)) with (length items + (length (format_of t0 items) - length items))%nat.
    2:{ rewrite E, app_nil_r, app_length. lia. }
    destruct (fmt1_items items [] ltac:(now left) F G (length (format_of t0 items) - length items) sv t0 V B1 C) as (sv' & V' & C' & _ & E2).
    rewrite E2. destruct (length (format_of t0 items) - length items)%nat; cbn [fmt1_loop]; rewrite (nempty_spec sv' V'), C'; reflexivity.
  Qed.

  (** A bad placeholder after good ones. *)
  Lemma fmt1_bad t0 items ds rest : format_ok 2 [123] t0 items -> in_range (length args) items ->
    ds <> [] -> Forall digit_char ds -> (2 < length ds)%nat \/ Z.of_nat (length args) <= number ds ->
    Z.of_nat (length (format_of t0 items ++ braced ds ++ rest)) + 1 < 2 ^ 63 -> okb (format_of t0 items ++ braced ds ++ rest) ->
    fmt1 dbg runtime args (format_of t0 items ++ braced ds ++ rest) = Throw.
  Proof.
    intros (F0 & F) G D1 D2 D3 L B. pose proof (items_length items F) as IL.
    set (f := format_of t0 items ++ braced ds ++ rest) in *.
    assert (E : f = t0 ++ (items_text items ++ braced ds ++ rest)) by (unfold f, format_of, items_text; now rewrite <- app_assoc).
    assert (SR : starts (braced ds ++ rest)) by (right; eexists; unfold braced; cbn; reflexivity).
    destruct (fmt1_start _ t0 _ L B E (no_bad [123] 123 t0 ltac:(now left) F0) (items_starts items _ SR))
      as (sv & V & C & B1 & E1).
    rewrite E1. assert (K : exists k, length f = (length items + S k)%nat).
    { exists (length f - length items - 1)%nat. rewrite E, !app_length. unfold braced. cbn [length]. lia. }
    destruct K as (k & ->).
    destruct (fmt1_items items _ SR F G (S k) sv t0 V B1 C) as (sv' & V' & C' & B' & E2).
    rewrite E2. assert (C2 : chars sv' = ds ++ 125 :: rest).
    { rewrite C'. unfold braced. cbn. now rewrite <- app_assoc. }
    cbn [fmt1_loop]. rewrite (nempty_spec sv' V').
    replace (match chars sv' with [] => true | _ => false end) with false by (rewrite C2; destruct ds; reflexivity).
    destruct (until_found sv' 125 ds rest V' ltac:(lia) B' C2 (digits_no 125 ds D2 not_digit_125)) as (p & sv1 & Ep & Vp & V1 & Cp & C1).
    rewrite Ep. cbn [bind]. rewrite index_value; rewrite ?Cp; auto.
    destruct (Nat.leb_spec (length ds) 2) as [H|H]; cbn [bind]; auto.
    rewrite get_arg_ok by (apply number_pos; auto). destruct D3 as [D3|D3]; [lia|].
    replace (nth_error args (Z.to_nat (number ds))) with (@None (list Z)); auto.
    symmetry. apply nth_error_None. pose proof (number_pos ds D2). lia.
  Qed.

  (** An empty placeholder is number 0. *)
  Lemma fmt1_empty_index t0 t : ~ In 123 t0 -> ~ In 123 t -> okb (t0 ++ [123; 125] ++ t) ->
    Z.of_nat (length (t0 ++ [123; 125] ++ t)) + 1 < 2 ^ 63 ->
    fmt1 dbg runtime args (t0 ++ [123; 125] ++ t) =
      match args with [] => Throw | a :: _ => Ok (t0 ++ a ++ t) end.
  Proof.
    intros N0 N B L.
    destruct (fmt1_start _ t0 ([123; 125] ++ t) L B eq_refl N0 ltac:(right; eexists; reflexivity)) as (sv & V & C & B1 & E1).
    rewrite E1. assert (K : exists k, length (t0 ++ [123; 125] ++ t) = S (S k)).
    { exists (length t0 + length t)%nat. rewrite !app_length. cbn [length]. lia. }
    destruct K as (k & ->). cbn [behind app] in C.
    pose proof (fmt1_step (S k) sv t0 [] t [] 0 V B1) as ST. rewrite app_nil_r in ST.
    specialize (ST C ltac:(auto) N ltac:(now left)). cbn [Z.to_nat] in ST.
    assert (H : forall p, valid p -> chars p = [] -> (@nil Z = [] -> vmem p = vmem sv /\ voff p = voff sv) -> view_unsigned_int u8 p = Ok 0).
    { intros p Vp Cp HM. destruct (HM eq_refl) as (M & O). unfold view_unsigned_int.
      destruct (vmem sv) as [l|] eqn:Ml; [|unfold chars in C; rewrite Ml in C; discriminate].
      rewrite M. pose proof (chars_length p Vp) as SZ. rewrite Cp in SZ. cbn in SZ. rewrite <- SZ, Z.add_0_r.
      rewrite unsigned_empty by (unfold std_width; cbn; lia). rewrite O.
      destruct (view_segment sv l V Ml) as (pre & post & EL & LP & _). rewrite C in EL. rewrite <- LP, EL.
      rewrite nth_error_app2, Nat.sub_diag by lia. reflexivity. }
    specialize (ST H ltac:(lia)). destruct args as [|a l]; cbn [nth_error] in ST; auto.
    destruct ST as (sv' & V' & C' & E2). rewrite E2. cbn [fmt1_loop]. rewrite (nempty_spec sv' V'), C'. reflexivity.
  Qed.

  (** No format is undefined behaviour. *)
  Lemma index_any v l t : valid v -> vmem v = Some l -> nth_error l (Z.to_nat (voff v)) = Some t ->
    (exists n, view_unsigned_int u8 v = Ok n /\ 0 <= n) \/ view_unsigned_int u8 v = Throw.
  Proof.
    intros V M E. unfold view_unsigned_int. rewrite M.
    assert (W : std_width (width u8)) by (unfold std_width; cbn; lia).
    pose proof (view_segment v l V M) as SG. unfold range_unsigned_int, rd. rewrite E. cbn [bind].
    destruct (t =? 45); auto.
    destruct (unsigned_loop_any u8 W ltac:(left; reflexivity) (digits10 u8) (chars v) l _ _ 0 SG) as (x & EX).
    { unfold fits, u8. cbn. lia. }
    assert (FX : 0 <= x).
    { eapply unsigned_loop_nonneg; [|exact EX]. lia. }
    rewrite EX. cbn [bind]. destruct (_ =? _)%nat; eauto.
  Qed.

  Lemma fmt1_loop_safe : forall n sv result, valid sv -> okb (chars sv) -> (length (chars sv) <= n)%nat ->
    (exists r, fmt1_loop dbg runtime args n sv result = Ok r) \/ fmt1_loop dbg runtime args n sv result = Throw.
  Proof.
    induction n as [|n IH]; intros sv result V B L.
    - destruct (chars sv) as [|c s] eqn:E; [|cbn in L; lia]. cbn [fmt1_loop]. rewrite (nempty_spec sv V), E. eauto.
    - cbn [fmt1_loop]. rewrite (nempty_spec sv V). destruct (chars sv) as [|c s] eqn:E; [eauto|]. rewrite <- E in *.
      destruct (until_ok sv 125 V ltac:(lia) B) as (p & sv1 & Ep & Vp & V1 & C1). rewrite Ep. cbn [bind].
      destruct (vmem sv) as [l|] eqn:M; [|unfold chars in E; rewrite M in E; discriminate].
      destruct (until_mem _ _ _ _ _ _ _ M Ep) as (Mp & Op).
      assert (RD : nth_error l (Z.to_nat (voff p)) = Some c).
      { rewrite Op. destruct (view_segment sv l V M) as (pre & post & EL & LP & _). rewrite E in EL. rewrite <- LP, EL.
        rewrite nth_error_app2, Nat.sub_diag by lia. reflexivity. }
      destruct (index_any p l c Vp Mp RD) as [(i & -> & Hi)| ->]; cbn [bind]; auto.
      rewrite (get_arg_ok i Hi). destruct (nth_error args (Z.to_nat i)) as [a|]; cbn [bind]; auto.
      assert (SB : okb (chars sv1)).
      { destruct C1 as [(d & H & _)|(_ & _ & ->)]; [|intros _; constructor].
        apply (okb_app (chars sv) (chars p ++ d) (chars sv1)); auto. now rewrite <- app_assoc. }
      pose proof (cut_char_shorter _ _ _ _ C1) as L1. rewrite E in L1 at 1. specialize (L1 ltac:(discriminate)).
      destruct (until_ok sv1 123 V1 ltac:(lia) SB) as (q & sv2 & Eq & Vq & V2 & C2). rewrite Eq. cbn [bind].
      rewrite (vread_ok q Vq). cbn [bind]. apply IH; auto.
      + destruct C2 as [(d & H & _)|(_ & _ & ->)]; [|intros _; constructor].
        apply (okb_app (chars sv1) (chars q ++ d) (chars sv2)); auto. now rewrite <- app_assoc.
      + assert (length (chars sv2) <= length (chars sv1))%nat.
        { destruct C2 as [(d & H & _)|(_ & _ & ->)]; [|cbn; lia]. rewrite H, !app_length. lia. }
        lia.
  Qed.

  Lemma fmt1_safe f : Z.of_nat (length f) + 1 < 2 ^ 63 -> okb f ->
    (exists r, fmt1 dbg runtime args f = Ok r) \/ fmt1 dbg runtime args f = Throw.
  Proof.
    intros L B. unfold fmt1. destruct (string_view_ok f L) as (sv & Es & V & C). rewrite Es. cbn [bind].
    destruct (until_ok sv 123 V ltac:(lia)) as (p & sv1 & Ep & Vp & V1 & C1); [now rewrite C|]. rewrite Ep. cbn [bind].
    rewrite (vread_ok p Vp). cbn [bind]. rewrite C in C1. apply fmt1_loop_safe; auto.
    - destruct C1 as [(d & H & _)|(_ & _ & ->)]; [|intros _; constructor].
      apply (okb_app f (chars p ++ d) (chars sv1)); auto. now rewrite <- app_assoc.
    - destruct C1 as [(d & H & _)|(_ & _ & ->)]; [|cbn; lia]. apply (f_equal (@length Z)) in H. rewrite !app_length in H. lia.
  Qed.
End V1Proofs.

(** * The formatter of version 2 *)
Section V2Proofs.
  Variables dbg runtime asserts : bool.
  Variable args : list (list Z).
  Notation okb s := (runtime = true -> bytes (-128) s).
  Notation ploop := (parse_loop dbg runtime asserts).

  (** The bounded vector [v] of capacity [cap] holds tokens that write [out]. *)
  Definition holds (cap : nat) (v : bvec token) (k : nat) (out : list Z) : Prop :=
    exists l, brep cap v l /\ length l = k /\ tokens_text args l = Ok out.

  Lemma tokens_snoc l t out a : tokens_text args l = Ok out -> token_text args t = Ok a ->
    tokens_text args (l ++ [t]) = Ok (out ++ a).
  Proof.
    revert out. induction l as [|x l IH]; intros out H E; cbn [tokens_text app] in *.
    - inversion H. subst. rewrite E. cbn [bind]. now rewrite app_nil_r.
    - destruct (token_text args x) as [b| | |]; try discriminate. cbn [bind] in *.
      destruct (tokens_text args l) as [c| | |]; try discriminate. cbn [bind] in *. inversion H; subst.
      rewrite (IH c eq_refl E). cbn [bind]. now rewrite app_assoc.
  Qed.

  Lemma add_ok cap v k out t a : holds cap v k out -> (k < cap)%nat -> token_text args t = Ok a ->
    exists v', add v t = Ok v' /\ holds cap v' (S k) (out ++ a).
  Proof.
    intros (l & R & L & T) H E. unfold add. rewrite (bemplace _ _ _ _ _ R).
    destruct (bpush _ _ _ t R ltac:(lia)) as (v' & Ev & R'). exists v'. split; auto. exists (l ++ [t]).
    split; auto. rewrite app_length. cbn [length]. split; [lia|]. now apply tokens_snoc.
  Qed.
  Lemma add_full cap v k out t : holds cap v k out -> k = cap -> add v t = UB.
  Proof. intros (l & R & L & T) H. unfold add. rewrite (bemplace _ _ _ _ _ R). apply (bpush_over _ _ _ _ R). congruence. Qed.

  Lemma holds_size cap v k out : holds cap v k out -> b_size v = Z.of_nat k /\ b_capacity v = Z.of_nat cap.
  Proof. intros (l & R & L & T). rewrite (bsize _ _ _ R), (bcap _ _ _ R), L. auto. Qed.
  Lemma room cap v k out : holds cap v k out -> (k < cap)%nat -> assert_ asserts (b_size v <? b_capacity v) = Ok tt.
  Proof.
    intros H L. destruct (holds_size _ _ _ _ H) as (-> & ->). unfold assert_.
    replace (Z.of_nat k <? Z.of_nat cap) with true by (symmetry; apply Z.ltb_lt; lia). now rewrite andb_false_r.
  Qed.
  Lemma assert_true b : b = true -> assert_ asserts b = Ok tt.
  Proof. intros ->. unfold assert_. now rewrite andb_false_r. Qed.


  Lemma take_ok cap v k out msg t R : valid msg -> chars msg = t ++ R -> holds cap v k out -> (k + text_tokens t <= cap)%nat ->
    exists msg' v', take_text dbg msg (Z.of_nat (length t)) v = Ok (msg', v') /\ valid msg' /\ chars msg' = R /\
      holds cap v' (k + text_tokens t) (out ++ t).
  Proof.
    intros V E H L. unfold take_text. destruct t as [|c t].
    - cbn. exists msg, v. rewrite app_nil_r, Nat.add_0_r. auto.
    - set (w := c :: t) in *. assert (0 < length w)%nat by (cbn; lia).
      replace (0 <? Z.of_nat (length w)) with true by (symmetry; apply Z.ltb_lt; lia).
      pose proof (chars_length msg V) as CL. pose proof (vsize_range msg). rewrite E, app_length in CL.
      destruct (pop_front_ok dbg msg (Z.of_nat (length w)) V ltac:(lia)) as (p & msg' & Ep & (Vp & _) & (V' & _) & Cp & C').
      rewrite Nat2Z.id, E, firstn_app, Nat.sub_diag, firstn_all in Cp. cbn in Cp. rewrite app_nil_r in Cp.
      rewrite Nat2Z.id, E, skipn_app, Nat.sub_diag, skipn_all in C'. cbn in C'.
      rewrite Ep. cbn [bind]. cbn [text_tokens w] in L.
      destruct (add_ok cap v k out (TText p) w H ltac:(lia)) as (v' & Ev & H').
      { cbn [token_text]. rewrite (vread_ok p Vp). now rewrite Cp. }
      rewrite Ev. cbn [bind]. exists msg', v'. split; auto. split; auto. split; auto. cbn [text_tokens w]. now rewrite Nat.add_1_r.
  Qed.

  (** The loop passes over a text without special characters. *)
  Lemma skip_text cap v k out msg t R : valid msg -> chars msg = t ++ R -> Forall (fun c => ~ In c [123; 92]) t ->
    holds cap v k out -> (t = [] \/ k < cap)%nat -> forall m n fuel, (n + m)%nat = length t ->
    ploop (m + fuel)%nat msg (Z.of_nat n) v = ploop fuel msg (Z.of_nat (length t)) v.
  Proof.
    intros V E F H K. induction m as [|m IH]; intros n fuel L.
    - rewrite Nat.add_0_r in L. now rewrite L.
    - assert (NT : (n < length t)%nat) by lia. destruct K as [->|K]; [cbn in NT; lia|].
      pose proof (chars_length msg V) as CL. rewrite E, app_length in CL.
      cbn [Nat.add parse_loop]. replace (negb (vempty msg)) with true.
      2:{ rewrite (nempty_spec msg V), E. destruct t; [cbn in NT; lia|reflexivity]. }
      replace (Z.of_nat n <? vsize msg) with true by (symmetry; apply Z.ltb_lt; lia). cbn [andb].
      rewrite (room cap v k out H K). cbn [bind].
      destruct (nth_error t n) as [c|] eqn:EN; [|apply nth_error_None in EN; lia].
      assert (EC : nth_error (chars msg) n = Some c) by (rewrite E, nth_error_app1 by lia; auto).
      rewrite (index_ok dbg msg n c V EC). cbn [bind].
      assert (NB : ~ In c [123; 92]) by (rewrite Forall_forall in F; apply F; eapply nth_error_In; eauto).
      destruct (Z.eqb_spec c 92) as [->|_]; [destruct NB; cbn; auto|].
      destruct (Z.eqb_spec c 123) as [->|_]; [destruct NB; cbn; auto|].
      pose proof (vsize_range msg). rewrite sz_id by lia. replace (Z.of_nat n + 1) with (Z.of_nat (S n)) by lia. apply IH. lia.
  Qed.

  Lemma index64 v : valid v -> Forall digit_char (chars v) -> chars v <> [] -> (length (chars v) <= 19)%nat ->
    view_unsigned_int u64 v = Ok (number (chars v)).
  Proof.
    intros V F N L. unfold u64. rewrite (view_unsigned_ok {| signed := false; width := 64 |} v); auto.
    - replace (length (chars v) <=? digits10 {| signed := false; width := 64 |})%nat with true by (symmetry; apply Nat.leb_le; exact L). reflexivity.
    - unfold std_width. cbn. lia.
  Qed.

  Lemma index_token n : 0 <= n -> token_text args (TIndex n) = Ok (arg_text args n).
  Proof.
    intros H. cbn [token_text]. rewrite pack_apply_ok. cbn [bind]. unfold arg_text.
    destruct (nth_error args (Z.to_nat n)) as [a|] eqn:E.
    - rewrite (nth_error_nth _ _ [] E). cbn. now rewrite app_nil_r.
    - rewrite nth_overflow; auto. now apply nth_error_None.
  Qed.

  (** A placeholder. *)
  Lemma parse_index cap v k out msg t ds R fuel : valid msg -> okb (chars msg) -> chars msg = t ++ 123 :: ds ++ 125 :: R ->
    holds cap v k out -> (k + text_tokens t + 1 <= cap)%nat ->
    ds <> [] -> (length ds <= 19)%nat -> Forall digit_char ds ->
    exists msg' v', valid msg' /\ chars msg' = R /\ holds cap v' (k + text_tokens t + 1) (out ++ t ++ arg_text args (number ds)) /\
      ploop (S fuel) msg (Z.of_nat (length t)) v = ploop fuel msg' 0 v'.
  Proof.
    intros V B E H L D1 D2 D3. pose proof (chars_length msg V) as CL. rewrite E, app_length in CL. cbn [length] in CL.
    cbn [parse_loop]. replace (negb (vempty msg)) with true.
    2:{ rewrite (nempty_spec msg V), E. destruct t; reflexivity. }
    replace (Z.of_nat (length t) <? vsize msg) with true by (symmetry; apply Z.ltb_lt; lia). cbn [andb].
    rewrite (room cap v k out H) by lia. cbn [bind].
    rewrite (index_ok dbg msg (length t) 123 V) by (rewrite E, nth_error_app2, Nat.sub_diag by lia; reflexivity). cbn [bind].
    change (123 =? 92) with false. change (123 =? 123) with true. cbv iota.
    destruct (take_ok cap v k out msg t _ V E H ltac:(lia)) as (msg1 & v1 & E1 & V1 & C1 & H1). rewrite E1. cbn [bind].
    destruct (prefix_i msg1 1 V1 ltac:(lia)) as (msg2 & E2 & (V2 & _) & C2). rewrite E2. cbn [bind].
    rewrite C1 in C2. cbn [Z.to_nat Pos.to_nat skipn] in C2. change (skipn (Pos.to_nat 1) (123 :: ds ++ 125 :: R)) with (ds ++ 125 :: R) in C2.
    rewrite assert_true by (rewrite (nempty_spec msg2 V2), C2; destruct ds; reflexivity). cbn [bind].
    assert (B2 : okb (chars msg2)).
    { rewrite C2. apply (okb_app runtime (chars msg) (t ++ [123]) (ds ++ 125 :: R)); auto. rewrite E, <- app_assoc. reflexivity. }
    destruct (until_found dbg runtime msg2 125 ds R V2 ltac:(lia) B2 C2 (digits_no 125 ds D3 not_digit_125)) as (p & msg3 & E3 & Vp & V3 & Cp & C3).
    rewrite E3. cbn [bind]. rewrite index64 by (rewrite ?Cp; auto). cbn [bind]. rewrite Cp.
    destruct (add_ok cap v1 _ _ (TIndex (number ds)) _ H1 ltac:(lia) (index_token _ (number_pos ds D3))) as (v2 & Ev & H2).
    rewrite Ev. cbn [bind]. exists msg3, v2. split; auto. split; auto. split; auto.
    rewrite <- app_assoc in H2. now rewrite Nat.add_1_r.
  Qed.

  (** The end. *)
  Lemma parse_rest cap v k out msg t fuel : valid msg -> chars msg = t -> holds cap v k out -> (k + text_tokens t <= cap)%nat ->
    exists v', ploop fuel msg (Z.of_nat (length t)) v = Ok v' /\ holds cap v' (k + text_tokens t) (out ++ t).
  Proof.
    intros V E H L. pose proof (chars_length msg V) as CL. rewrite E in CL.
    assert (X : ploop fuel msg (Z.of_nat (length t)) v =
      if 0 <? Z.of_nat (length t) then _ <- assert_ asserts (b_size v <? b_capacity v) ;; add v (TText msg) else Ok v).
    { destruct fuel; cbn [parse_loop]; replace (Z.of_nat (length t) <? vsize msg) with false by (symmetry; apply Z.ltb_ge; lia);
        now rewrite andb_false_r. }
    rewrite X. destruct t as [|c t].
    - exists v. cbn. rewrite app_nil_r, Nat.add_0_r. auto.
    - cbn [text_tokens] in *. replace (0 <? Z.of_nat (length (c :: t))) with true by (symmetry; apply Z.ltb_lt; cbn [length]; lia).
      rewrite (room cap v k out H) by lia. cbn [bind].
      destruct (add_ok cap v k out (TText msg) (c :: t) H ltac:(lia)) as (v' & Ev & H').
      { cbn [token_text]. rewrite (vread_ok msg V). now rewrite E. }
      exists v'. split; auto. now rewrite Nat.add_1_r.
  Qed.

  Definition iok2 (i : list Z * list Z) : Prop :=
    fst i <> [] /\ (length (fst i) <= 19)%nat /\ Forall digit_char (fst i) /\ Forall (fun c => ~ In c [123; 92]) (snd i).

  Lemma parse_items cap items : Forall iok2 items -> forall t0 v k out msg fuel,
    Forall (fun c => ~ In c [123; 92]) t0 -> valid msg -> okb (chars msg) -> chars msg = format_of t0 items ->
    holds cap v k out -> (k + text_tokens t0 + count_tokens items <= cap)%nat -> (length (chars msg) <= fuel)%nat ->
    exists v', ploop fuel msg 0 v = Ok v' /\
      holds cap v' (k + text_tokens t0 + count_tokens items) (out ++ format_value (arg_text args) t0 items).
  Proof.
    induction 1 as [|(ds, t) items (D1 & D2 & D3 & D4) F IH]; intros t0 v k out msg fuel T V B E H L LF; cbn [fst snd] in *.
    - unfold format_of, format_value in *. cbn in E. rewrite app_nil_r in E. cbn [map List.concat count_tokens] in *.
      rewrite app_nil_r. rewrite Nat.add_0_r in L |- *.
      replace fuel with (length t0 + (fuel - length t0))%nat by (rewrite E in LF; lia).
      rewrite (skip_text cap v k out msg t0 [] V) with (n := 0%nat) (m := length t0); auto.
      + apply (parse_rest cap); auto.
      + now rewrite app_nil_r.
      + destruct t0; cbn [text_tokens] in L; [auto|right; lia].
    - assert (E' : chars msg = t0 ++ 123 :: ds ++ 125 :: format_of t items).
      { rewrite E. unfold format_of, braced. cbn. rewrite <- !app_assoc. reflexivity. }
      cbn [count_tokens] in *. cbn [snd] in *.
      assert (LE : length (chars msg) = (length t0 + S (length ds + S (length (format_of t items))))%nat).
      { rewrite E', app_length. cbn [length]. rewrite app_length. cbn [length]. lia. }
      replace fuel with (length t0 + S (fuel - length t0 - 1))%nat by lia.
      rewrite (skip_text cap v k out msg t0 (123 :: ds ++ 125 :: format_of t items) V) with (n := 0%nat) (m := length t0); auto.
      2:{ right. lia. }
      destruct (parse_index cap v k out msg t0 ds (format_of t items) (fuel - length t0 - 1) V B E' H ltac:(lia) D1 D2 D3)
        as (msg' & v1 & V' & C' & H1 & E1).
      rewrite E1.
      assert (B' : okb (chars msg')).
      { rewrite C'. apply (okb_app runtime (chars msg) (t0 ++ 123 :: ds ++ [125]) (format_of t items)); auto.
        rewrite E', <- app_assoc. cbn. now rewrite <- app_assoc. }
      destruct (IH t v1 _ _ msg' (fuel - length t0 - 1)%nat D4 V' B' C' H1 ltac:(lia) ltac:(rewrite C'; lia)) as (v2 & E2 & H2).
      exists v2. split; auto.
      replace (k + text_tokens t0 + (1 + text_tokens t + count_tokens items))%nat
        with (k + text_tokens t0 + 1 + text_tokens t + count_tokens items)%nat by lia.
      unfold format_value in *. cbn [map List.concat fst snd]. rewrite <- !app_assoc in H2. rewrite <- !app_assoc. exact H2.
  Qed.

  Lemma start_holds cap : Z.of_nat cap < 2 ^ 63 -> holds cap (b_empty (TIndex 0) cap) 0 [].
  Proof. intros H. exists []. split; [now apply bempty|]. auto. Qed.

  Lemma call_ok cap v k out : holds cap v k out -> fmt2_call v args = Ok out.
  Proof.
    intros (l & R & L & T). unfold fmt2_call. pose proof (bshows _ _ _ R) as SH.
    destruct SH as (SH & _). rewrite SH. exact T.
  Qed.

  Lemma parse_good cap msg t0 items : valid msg -> okb (chars msg) -> chars msg = format_of t0 items ->
    format_ok 19 [123; 92] t0 items -> (text_tokens t0 + count_tokens items <= cap)%nat -> Z.of_nat cap < 2 ^ 63 ->
    exists v, parse_tokens dbg runtime asserts cap msg = Ok v /\ fmt2_call v args = Ok (format_value (arg_text args) t0 items).
  Proof.
    intros V B E (F0 & F) L C. unfold parse_tokens. rewrite (chars_len msg V).
    destruct (parse_items cap items F t0 (b_empty (TIndex 0) cap) 0 [] msg _ F0 V B E (start_holds cap C) L (le_n _)) as (v & Ev & H).
    exists v. split; auto. exact (call_ok _ _ _ _ H).
  Qed.

  Lemma literal_view f : Z.of_nat (length f) + 1 < 2 ^ 63 ->
    exists sv, v_literal dbg (std_string f) = Ok sv /\ valid sv /\ chars sv = f.
  Proof.
    intros L. destruct (string_view_ok dbg f L) as (sv & E & V & C). exists sv. split; auto.
    unfold v_range_zt in E. unfold v_literal, std_string in *. rewrite app_length. cbn [length].
    replace (Z.of_nat (length f + 1) - 1) with (Z.of_nat (length f)) by lia.
    assert (R : rdp (Some (f ++ [0])) (Z.of_nat (length f)) = Ok 0).
    { unfold rdp. destruct (Z.ltb_spec (Z.of_nat (length f)) 0); [lia|]. rewrite Nat2Z.id. unfold rd.
      rewrite nth_error_app2, Nat.sub_diag by lia. reflexivity. }
    rewrite R. cbn [bind]. exact E.
  Qed.

  (** A format of an array without backslashes has room for its tokens. *)
  Lemma tokens_fit t0 items : Forall iok2 items ->
    (text_tokens t0 + count_tokens items <= (length (format_of t0 items) + 1) / 2)%nat.
  Proof.
    intros F. assert (A : forall items, Forall iok2 items -> forall t0, (2 * (text_tokens t0 + count_tokens items) <= length (format_of t0 items) + 1)%nat).
    { clear. induction 1 as [|(ds, t) items (D1 & D2 & D3 & D4) F IH]; intros t0.
      - unfold format_of. cbn. rewrite app_nil_r. destruct t0; cbn; lia.
      - specialize (IH t). cbn [fst snd] in *. cbn [count_tokens]. cbn [snd].
        assert (L : length (format_of t0 ((ds, t) :: items)) = (length t0 + (2 + length ds + length (format_of t items)))%nat).
        { unfold format_of, braced. cbn [map List.concat fst snd]. rewrite !app_length. cbn [length]. rewrite !app_length. cbn [length]. lia. }
        rewrite L. assert (1 <= length ds)%nat by (destruct ds; [congruence|cbn; lia]).
        assert (text_tokens t0 <= length t0 /\ text_tokens t0 <= 1)%nat by (destruct t0; cbn; lia). lia. }
    specialize (A items F t0). apply Nat.div_le_lower_bound; lia.
  Qed.

  Lemma fmt2_good t0 items : format_ok 19 [123; 92] t0 items ->
    Z.of_nat (length (format_of t0 items)) + 1 < 2 ^ 63 -> okb (format_of t0 items) ->
    fmt2 dbg runtime asserts (std_string (format_of t0 items)) args = Ok (format_value (arg_text args) t0 items).
  Proof.
    intros F L B. unfold fmt2, fmt2_array. destruct (literal_view _ L) as (sv & E & V & C). rewrite E. cbn [bind].
    pose proof (tokens_fit t0 items (proj2 F)) as TF.
    assert (LL : length (std_string (format_of t0 items)) = (length (format_of t0 items) + 1)%nat)
      by (unfold std_string; rewrite app_length; reflexivity).
    rewrite LL.
    destruct (parse_good ((length (format_of t0 items) + 1) / 2) sv t0 items V) as (v & Ev & H); rewrite ?C; auto.
    { assert ((length (format_of t0 items) + 1) / 2 <= length (format_of t0 items) + 1)%nat by (apply Nat.div_le_upper_bound; lia). lia. }
    rewrite Ev. exact H.
  Qed.

  Lemma range_view f : Z.of_nat (length f) + 1 < 2 ^ 63 ->
    valid (v_range (Some (std_string f)) 0 (Z.of_nat (length f))) /\ chars (v_range (Some (std_string f)) 0 (Z.of_nat (length f))) = f.
  Proof.
    intros L. set (sv := v_range (Some (std_string f)) 0 (Z.of_nat (length f))).
    assert (SZ : vsize sv = Z.of_nat (length f)) by (rewrite vsize_mod; cbn [sv v_range vlast]; apply Z.mod_small; lia).
    split.
    - unfold valid. rewrite SZ. cbn [sv v_range vmem voff vlast]. unfold std_string. rewrite app_length. cbn [length]. lia.
    - unfold chars. rewrite SZ. cbn [sv v_range vmem voff]. cbn [Z.to_nat skipn]. unfold std_string.
      rewrite Nat2Z.id, firstn_app, Nat.sub_diag, firstn_all. apply app_nil_r.
  Qed.

  Lemma fmt2_ptr_good t0 items : format_ok 19 [123; 92] t0 items ->
    (text_tokens t0 + count_tokens items <= length (format_of t0 items) / 2)%nat ->
    Z.of_nat (length (format_of t0 items)) + 1 < 2 ^ 63 -> okb (format_of t0 items) ->
    fmt2_ptr dbg runtime asserts (format_of t0 items) args = Ok (format_value (arg_text args) t0 items).
  Proof.
    intros F TF L B. unfold fmt2_ptr, fmt2_pointer. destruct (range_view _ L) as (V & C).
    destruct (parse_good (length (format_of t0 items) / 2) _ t0 items V) as (v & Ev & H); rewrite ?C; auto.
    { assert (length (format_of t0 items) / 2 <= length (format_of t0 items))%nat by (apply Nat.div_le_upper_bound; lia). lia. }
    rewrite Ev. exact H.
  Qed.

  (** A format of a pointer of one plain character has no room for its token. *)
  Lemma fmt2_ptr_one c : ~ In c [123; 92] -> -128 <= c < 128 ->
    fmt2_ptr dbg runtime asserts [c] args = if asserts then Throw else UB.
  Proof.
    intros N B. unfold fmt2_ptr, fmt2_pointer, parse_tokens. destruct (range_view [c] ltac:(cbn; lia)) as (V & C).
    set (msg := v_range (Some (std_string [c])) 0 (Z.of_nat (length [c]))) in *.
    assert (SZ : vsize msg = 1) by (rewrite <- (chars_length msg V), C; reflexivity). rewrite SZ.
    change (length [c] / 2)%nat with 0%nat. change (Z.to_nat 1) with 1%nat.
    cbn [parse_loop]. rewrite SZ. rewrite (nempty_spec msg V), C. cbn [negb andb].
    change (0 <? 1) with true. cbv iota. unfold assert_. cbn [b_size b_capacity b_empty bindex bfirst bstack repeat length].
    change (sz (0 - 0) <? Z.of_nat 0) with false. cbn [negb]. rewrite andb_true_r.
    destruct asserts; [reflexivity|]. cbn [bind].
    change (sv_index dbg msg 0) with (sv_index dbg msg (Z.of_nat 0)). rewrite (index_ok dbg msg 0 c V) by (rewrite C; reflexivity). cbn [bind].
    destruct (Z.eqb_spec c 92) as [->|_]; [destruct N; cbn; auto|].
    destruct (Z.eqb_spec c 123) as [->|_]; [destruct N; cbn; auto|].
    change (sz (0 + 1)) with 1. cbn [negb andb]. change (1 <? 1) with false. rewrite ?andb_false_r. cbv iota.
    change (0 <? 1) with true. cbv iota. reflexivity.
  Qed.

  (** A backslash is a token and does not protect a placeholder. *)
  Lemma parse_backslash cap v k out msg R fuel : valid msg -> chars msg = 92 :: R -> holds cap v k out -> (k < cap)%nat ->
    exists msg' v', valid msg' /\ chars msg' = R /\ holds cap v' (S k) (out ++ [92]) /\ ploop (S fuel) msg 0 v = ploop fuel msg' 0 v'.
  Proof.
    intros V E H L. pose proof (chars_length msg V) as CL. rewrite E in CL. cbn [length] in CL.
    cbn [parse_loop]. rewrite (nempty_spec msg V), E. cbn [negb].
    replace (0 <? vsize msg) with true by (symmetry; apply Z.ltb_lt; lia). cbn [andb].
    rewrite (room cap v k out H L). cbn [bind].
    change (sv_index dbg msg 0) with (sv_index dbg msg (Z.of_nat 0)). rewrite (index_ok dbg msg 0 92 V) by (rewrite E; reflexivity). cbn [bind].
    change (92 =? 92) with true. cbv iota. unfold take_text. change (0 <? 0) with false. cbv iota. cbn [bind].
    rewrite assert_true by (rewrite (nempty_spec msg V), E; reflexivity). cbn [bind].
    destruct (pop_front_char_ok dbg msg 92 R V E) as (msg' & Em & V' & C'). rewrite Em. cbn [bind].
    destruct (add_ok cap v k out (TChar 92) [92] H L eq_refl) as (v' & Ev & H'). rewrite Ev. cbn [bind].
    exists msg', v'. auto.
  Qed.

  Lemma fmt2_backslash t0 items : t0 = [] -> items <> [] -> format_ok 19 [123; 92] t0 items ->
    Z.of_nat (length (format_of t0 items)) + 2 < 2 ^ 63 -> okb (format_of t0 items) ->
    fmt2 dbg runtime asserts (std_string (92 :: format_of t0 items)) args = Ok (92 :: format_value (arg_text args) t0 items).
  Proof.
    intros -> NI F L B. unfold fmt2, fmt2_array. destruct (literal_view (92 :: format_of [] items)) as (sv & E & V & C).
    { cbn [length]. lia. }
    rewrite E. cbn [bind]. unfold parse_tokens. rewrite (chars_len sv V), C. cbn [length].
    set (cap := Nat.div (length (std_string (92 :: format_of [] items))) 2).
    assert (LS : length (std_string (92 :: format_of [] items)) = (length (format_of [] items) + 2)%nat).
    { unfold std_string. rewrite app_length. cbn [length]. lia. }
    assert (CB : Z.of_nat cap < 2 ^ 63).
    { assert (Nat.le cap (length (std_string (92 :: format_of [] items)))) by (unfold cap; apply Nat.div_le_upper_bound; lia). lia. }
    assert (TF : (1 + count_tokens items <= cap)%nat).
    { unfold cap. rewrite LS. apply Nat.div_le_lower_bound; [lia|].
      assert (A : forall items, Forall iok2 items -> (2 * count_tokens items <= length (format_of [] items) + 0)%nat).
      { clear. induction 1 as [|(ds, t) items (D1 & D2 & D3 & D4) F IH]; [cbn; lia|]. cbn [fst snd] in *. cbn [count_tokens]. cbn [snd].
        assert (LL : length (format_of [] ((ds, t) :: items)) = (2 + length ds + length t + length (format_of [] items))%nat).
        { unfold format_of, braced. cbn [map List.concat fst snd]. rewrite !app_length. cbn [length]. rewrite !app_length. cbn [length]. lia. }
        rewrite LL. assert (1 <= length ds)%nat by (destruct ds; [congruence|cbn; lia]).
        assert (text_tokens t <= length t /\ text_tokens t <= 1)%nat by (destruct t; cbn; lia). lia. }
      specialize (A items (proj2 F)). lia. }
    destruct (parse_backslash cap _ 0 [] sv (format_of [] items) (length (format_of [] items)) V C (start_holds cap CB) ltac:(lia))
      as (msg' & v' & V' & C' & H' & E'). rewrite E'.
    destruct (parse_items cap items (proj2 F) [] v' 1 [92] msg' (length (format_of [] items)) (proj1 F) V') as (v2 & E2 & H2).
    { now rewrite C'. } { exact C'. } { exact H'. } { cbn [text_tokens]. lia. } { rewrite C'. lia. }
    rewrite E2. cbn [bind]. rewrite (call_ok _ _ _ _ H2). reflexivity.
  Qed.

  (** Backslashes only: more tokens than there is room for. *)
  Lemma parse_backslashes cap : forall n v k out msg fuel, valid msg -> chars msg = repeat 92 n -> holds cap v k out ->
    (k <= cap)%nat -> (cap < k + n)%nat -> (n <= fuel)%nat -> ploop fuel msg 0 v = if asserts then Throw else UB.
  Proof.
    induction n as [|n IH]; intros v k out msg fuel V E H K L LF; [lia|]. destruct fuel as [|fuel]; [lia|].
    destruct (Nat.eq_dec k cap) as [->|D].
    - pose proof (chars_length msg V) as CL. rewrite E, repeat_length in CL.
      cbn [parse_loop]. rewrite (nempty_spec msg V), E. cbn [repeat negb].
      replace (0 <? vsize msg) with true by (symmetry; apply Z.ltb_lt; lia). cbn [andb].
      unfold assert_. destruct (holds_size _ _ _ _ H) as (-> & ->). rewrite Z.ltb_irrefl. cbn [negb]. rewrite andb_true_r.
      destruct asserts eqn:A; [reflexivity|]. cbn [bind].
      change (sv_index dbg msg 0) with (sv_index dbg msg (Z.of_nat 0)). rewrite (index_ok dbg msg 0 92 V) by (rewrite E; reflexivity). cbn [bind].
      change (92 =? 92) with true. cbv iota. unfold take_text. change (0 <? 0) with false. cbv iota. cbn [bind].
      cbn [andb]. destruct (pop_front_char_ok dbg msg 92 (repeat 92 n) V E) as (msg' & Em & V' & C'). cbn [bind]. rewrite Em. cbn [bind].
      rewrite (add_full _ _ _ _ _ H eq_refl). reflexivity.
    - destruct (parse_backslash cap v k out msg (repeat 92 n) fuel V E H ltac:(lia)) as (msg' & v' & V' & C' & H' & E').
      rewrite E'. apply (IH v' (S k) _ msg' fuel V' C' H'); lia.
  Qed.

  Lemma fmt2_backslashes n : (2 <= n)%nat -> Z.of_nat n + 1 < 2 ^ 63 ->
    fmt2 dbg runtime asserts (std_string (repeat 92 n)) args = if asserts then Throw else UB.
  Proof.
    intros N L. unfold fmt2, fmt2_array. destruct (literal_view (repeat 92 n)) as (sv & E & V & C); [rewrite repeat_length; lia|].
    rewrite E. cbn [bind]. unfold parse_tokens. rewrite (chars_len sv V), C, repeat_length.
    set (cap := Nat.div (length (std_string (repeat 92 n))) 2).
    assert (LS : length (std_string (repeat 92 n)) = (n + 1)%nat).
    { unfold std_string. rewrite app_length, repeat_length. reflexivity. }
    assert (CB : (cap < n)%nat).
    { unfold cap. rewrite LS. apply Nat.div_lt_upper_bound; lia. }
    rewrite (parse_backslashes cap n _ 0 [] sv n V C (start_holds cap ltac:(lia))) by lia. destruct asserts; reflexivity.
  Qed.
End V2Proofs.

(** * The statements of the properties *)

Lemma lexc_refl s : lexc s s = 0.
Proof. induction s as [|c s IH]; cbn [lexc]; auto. now rewrite Z.ltb_irrefl. Qed.
Lemma lexc_zero s t : lexc s t = 0 <-> s = t.
Proof.
  destruct (lexc_spec s t) as [(E & L)|[(E & L)|(E & L)]]; rewrite E; split; intros H; try discriminate; auto; subst;
    exfalso; pose proof (lexc_refl t); congruence.
Qed.

Lemma c239_pieces :
  forall v w, valid1 v -> valid1 w -> chars1 w <> [] -> forall fuel, (length (chars1 v) < fuel)%nat ->
  exists ps, split_string fuel v w = Ok ps /\ Forall valid1 ps /\ cut_text (chars1 w) (chars1 v) (map chars1 ps).
Proof.
  intros v w V W N fuel L. apply (split_string_ok v w (chars1 w) (chars1 v)); auto; apply sh_iff; auto.
Qed.

Lemma c239_unique :
  forall d s ps qs, d <> [] -> cut_text d s ps -> cut_text d s qs -> ps = qs.
Proof.
  exact cut_text_unique.
Qed.

Lemma c239_joined :
  forall d s ps, cut_text d s ps -> joined d ps = s /\ ps <> [].
Proof.
  exact cut_text_joined.
Qed.

Lemma c239_equal :
  forall v w p v' w' p', valid1 v -> valid1 w -> valid1 v' -> valid1 w' ->
  exists b, si_equal (SI v w p) (SI v' w' p') = Ok b /\
    (b = true <-> (p = npos /\ p' = npos) \/ (chars1 v = chars1 v' /\ p = p' /\ chars1 w = chars1 w')).
Proof.
  intros v w p v' w' p' V W V' W'. eexists. split.
  { apply (equal_ok v w p v' w' p' (chars1 v) (chars1 w) (chars1 v') (chars1 w')); apply sh_iff; auto. }
  rewrite orb_true_iff, !andb_true_iff, !Z.eqb_eq, !lexc_zero. tauto.
Qed.

Lemma c239_empty_delimiter_refuted :
  forall v w, valid1 v -> valid1 w -> chars1 v <> [] -> chars1 w = [] -> forall fuel, split_string fuel v w = OutOfFuel.
Proof.
  intros v w V W N E. apply (split_empty_delim v w (chars1 v)); auto; apply sh_iff; auto.
Qed.

Lemma c239_postfix_refuted :
  forall it it', si_move_next it = Ok it' -> si_post_inc it = Ok (it', it).
Proof.
  intros it it' E. unfold si_post_inc. rewrite E. reflexivity.
Qed.

Lemma c240_value :
  forall dbg runtime args, (length args <= 255)%nat -> forall t0 items,
  format_ok 2 [123] t0 items -> in_range (length args) items ->
  Z.of_nat (length (format_of t0 items)) + 1 < 2 ^ 63 -> (runtime = true -> bytes (-128) (format_of t0 items)) ->
  fmt1 dbg runtime args (format_of t0 items) = Ok (format_value (arg_text args) t0 items).
Proof.
  exact fmt1_good.
Qed.

Lemma c240_bad_index :
  forall dbg runtime args, (length args <= 255)%nat -> forall t0 items ds rest,
  format_ok 2 [123] t0 items -> in_range (length args) items ->
  ds <> [] -> Forall digit_char ds -> (2 < length ds)%nat \/ Z.of_nat (length args) <= number ds ->
  Z.of_nat (length (format_of t0 items ++ braced ds ++ rest)) + 1 < 2 ^ 63 ->
  (runtime = true -> bytes (-128) (format_of t0 items ++ braced ds ++ rest)) ->
  fmt1 dbg runtime args (format_of t0 items ++ braced ds ++ rest) = Throw.
Proof.
  exact fmt1_bad.
Qed.

Lemma c240_safe :
  forall dbg runtime args, (length args <= 255)%nat -> forall f,
  Z.of_nat (length f) + 1 < 2 ^ 63 -> (runtime = true -> bytes (-128) f) ->
  (exists r, fmt1 dbg runtime args f = Ok r) \/ fmt1 dbg runtime args f = Throw.
Proof.
  exact fmt1_safe.
Qed.

Lemma c240_no_index_refuted :
  forall dbg runtime args, (length args <= 255)%nat -> forall t0 t, ~ In 123 t0 -> ~ In 123 t ->
  (runtime = true -> bytes (-128) (t0 ++ [123; 125] ++ t)) ->
  Z.of_nat (length (t0 ++ [123; 125] ++ t)) + 1 < 2 ^ 63 ->
  fmt1 dbg runtime args (t0 ++ [123; 125] ++ t) = match args with [] => Throw | a :: _ => Ok (t0 ++ a ++ t) end.
Proof.
  exact fmt1_empty_index.
Qed.

Lemma c241_value :
  forall dbg runtime asserts args t0 items, format_ok 19 [123; 92] t0 items ->
  Z.of_nat (length (format_of t0 items)) + 1 < 2 ^ 63 -> (runtime = true -> bytes (-128) (format_of t0 items)) ->
  fmt2 dbg runtime asserts (std_string (format_of t0 items)) args = Ok (format_value (arg_text args) t0 items).
Proof.
  exact fmt2_good.
Qed.

Lemma c241_pointer_partial :
  forall dbg runtime asserts args t0 items, format_ok 19 [123; 92] t0 items ->
  (text_tokens t0 + count_tokens items <= length (format_of t0 items) / 2)%nat ->
  Z.of_nat (length (format_of t0 items)) + 1 < 2 ^ 63 -> (runtime = true -> bytes (-128) (format_of t0 items)) ->
  fmt2_ptr dbg runtime asserts (format_of t0 items) args = Ok (format_value (arg_text args) t0 items).
Proof.
  exact fmt2_ptr_good.
Qed.

Lemma c241_pointer_refuted :
  forall dbg runtime asserts args c, ~ In c [123; 92] -> -128 <= c < 128 ->
  fmt2_ptr dbg runtime asserts [c] args = if asserts then Throw else UB.
Proof.
  exact fmt2_ptr_one.
Qed.

Lemma c241_escape_refuted :
  forall dbg runtime asserts args items, items <> [] -> format_ok 19 [123; 92] [] items ->
  Z.of_nat (length (format_of [] items)) + 2 < 2 ^ 63 -> (runtime = true -> bytes (-128) (format_of [] items)) ->
  fmt2 dbg runtime asserts (std_string (92 :: format_of [] items)) args = Ok (92 :: format_value (arg_text args) [] items).
Proof.
  intros dbg runtime asserts args items. now apply fmt2_backslash.
Qed.

Lemma c241_backslashes_refuted :
  forall dbg runtime asserts args n, (2 <= n)%nat -> Z.of_nat n + 1 < 2 ^ 63 ->
  fmt2 dbg runtime asserts (std_string (repeat 92 n)) args = if asserts then Throw else UB.
Proof.
  exact fmt2_backslashes.
Qed.
