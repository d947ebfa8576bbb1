(** Proofs about the range and tuple formatters. *)
From Coq Require Import ZifyNat ZifyBool.
From Verif Require Import Common CommonProofs FmtRange SpecFmtRange.
Open Scope Z_scope.

Lemma at_mid pre (c : Z) r d k : is_at (pre ++ c :: r) (length pre + k) d = is_at (c :: r) k d.
Proof. unfold is_at. rewrite nth_error_app2 by lia. replace (length pre + k - length pre)%nat with k by lia. reflexivity. Qed.
Lemma nth_mid pre (c : Z) r : nth_error (pre ++ c :: r) (length pre) = Some c.
Proof. rewrite nth_error_app2 by lia. rewrite Nat.sub_diag. reflexivity. Qed.

(** * vformat *)
Section V.
Context {V : Type} (F : formatter V) (v : V).
Lemma loop_escaped num : forall t pre rest fuel out, (length t <= fuel)%nat ->
  exists fuel', (fuel - length t <= fuel')%nat /\ vformat_loop fuel F (pre ++ escaped t ++ rest) v (length pre) num out = vformat_loop fuel' F (pre ++ escaped t ++ rest) v (length (pre ++ escaped t)) num (out ++ t).
Proof.
  induction t as [|c t IH]; intros pre rest fuel out L.
  - exists fuel. split; [lia|]. cbn [escaped flat_map]. rewrite !app_nil_r. reflexivity.
  - destruct fuel as [|fuel]; [cbn in L; lia|]. cbn [escaped flat_map]. change (flat_map _ t) with (escaped t).
    destruct ((c =? 123) || (c =? 125)) eqn:B; cbn [app].
    + assert (E : vformat_loop (S fuel) F (pre ++ c :: c :: escaped t ++ rest) v (length pre) num out =
        vformat_loop fuel F (pre ++ c :: c :: escaped t ++ rest) v (length pre + 2) num (out ++ [c])).
      { cbn [vformat_loop]. rewrite nth_mid. rewrite !at_mid. change (is_at (c :: c :: escaped t ++ rest) 1) with (fun d => c =? d). cbv beta.
        destruct (Z.eqb_spec c 125) as [-> | N]; [reflexivity|]. destruct (Z.eqb_spec c 123) as [-> | N']; [reflexivity|]. discriminate. }
      rewrite E. destruct (IH (pre ++ [c; c]) rest fuel (out ++ [c])) as (f' & Lf & Q); [cbn in L; lia|]. exists f'. split; [cbn in *; lia|].
      rewrite <- !app_assoc in Q. cbn [app] in Q. rewrite app_length in Q. cbn [length] in Q. rewrite Q. f_equal; rewrite ?app_length; cbn [length]; rewrite ?app_length; cbn [length]; lia.
    + assert (E : vformat_loop (S fuel) F (pre ++ c :: escaped t ++ rest) v (length pre) num out =
        vformat_loop fuel F (pre ++ c :: escaped t ++ rest) v (length pre + 1) num (out ++ [c])).
      { cbn [vformat_loop]. rewrite nth_mid. destruct (Z.eqb_spec c 125), (Z.eqb_spec c 123); try discriminate. reflexivity. }
      rewrite E. destruct (IH (pre ++ [c]) rest fuel (out ++ [c])) as (f' & Lf & Q); [cbn in L; lia|]. exists f'. split; [cbn in *; lia|].
      rewrite <- !app_assoc in Q. cbn [app] in Q. rewrite app_length in Q. cbn [length] in Q. rewrite Q. f_equal; rewrite ?app_length; cbn [length]; rewrite ?app_length; cbn [length]; lia.
Qed.
Lemma loop_end num fs fuel out : (0 < fuel)%nat -> vformat_loop fuel F fs v (length fs) num out = Ok out.
Proof. intros L. destruct fuel as [|fuel]; [lia|]. cbn [vformat_loop]. rewrite (proj2 (nth_error_None fs _)) by lia. reflexivity. Qed.
Lemma escaped_length t : (length t <= length (escaped t))%nat.
Proof. induction t as [|c t IH]; [auto|]. cbn [escaped flat_map]. rewrite app_length. change (flat_map _ t) with (escaped t). destruct ((c =? 123) || (c =? 125)); cbn [length] in *; lia. Qed.
Lemma vformat_field spec show ok before open after : accepts F spec show ok -> ok v -> (spec = [] /\ open = [123] \/ open = [123; 58]) ->
  vformat F (escaped before ++ open ++ spec ++ 125 :: escaped after) v = Ok (before ++ show v ++ after).
Proof.
  intros A K O. unfold vformat. set (fs := escaped before ++ open ++ spec ++ 125 :: escaped after).
  assert (Ln : (2 + length before + length after <= length fs)%nat).
  { unfold fs. rewrite !app_length. cbn [length]. pose proof (escaped_length before). pose proof (escaped_length after). destruct O as [(-> & ->)| ->]; cbn [length]; lia. }
  destruct (loop_escaped Unknown before [] (open ++ spec ++ 125 :: escaped after) (S (length fs)) []) as (f1 & L1 & E1); [lia|].
  cbn [app] in E1. change (length []) with 0%nat in E1. fold fs in E1. rewrite E1. clear E1.
  destruct (A (escaped before) open (escaped after) (length (escaped before ++ open)) O eq_refl) as (g & P & G). fold fs in P. specialize (G v K).
  set (q := (length (escaped before ++ open) + length spec)%nat) in *.
  assert (C : is_at fs q 125 = true).
  { unfold fs, q. replace (escaped before ++ open ++ spec ++ 125 :: escaped after) with ((escaped before ++ open ++ spec) ++ 125 :: escaped after) by (rewrite <- !app_assoc; reflexivity).
    replace (length (escaped before ++ open) + length spec)%nat with (length (escaped before ++ open ++ spec) + 0)%nat by (rewrite !app_length; lia). rewrite at_mid. reflexivity. }
  assert (Fin : forall fuel, (length after < fuel)%nat -> vformat_loop fuel F fs v (S q) Automatic (before ++ show v) = Ok (before ++ show v ++ after)).
  { intros fuel L. destruct (loop_escaped Automatic after (escaped before ++ open ++ spec ++ [125]) [] fuel (before ++ show v)) as (f2 & L2 & E2); [lia|].
    rewrite app_nil_r in E2. replace ((escaped before ++ open ++ spec ++ [125]) ++ escaped after) with fs in E2 by (unfold fs; rewrite <- !app_assoc; reflexivity).
    replace (S q) with (length (escaped before ++ open ++ spec ++ [125])) by (unfold q; rewrite !app_length; cbn [length]; lia). rewrite E2, loop_end by lia. rewrite <- app_assoc. reflexivity. }
  destruct f1 as [|f1]; [lia|]. cbn [vformat_loop].
  destruct O as [(-> & ->)| ->]; unfold fs at 1; cbn [app]; rewrite nth_mid; cbn [Z.eqb Pos.eqb].
  - unfold fs at 1. cbn [app]. rewrite at_mid. cbn [is_at nth_error Z.eqb Pos.eqb]. unfold fs at 1. cbn [app]. rewrite at_mid. cbn [is_at nth_error Z.eqb Pos.eqb].
    replace (length (escaped before) + 1)%nat with (length (escaped before ++ [123])) by (rewrite app_length; reflexivity).
    rewrite P. cbn [bind fst snd]. rewrite (proj2 (Z.leb_le 0 (Z.of_nat q))), Nat2Z.id, C by lia. cbn [andb]. rewrite G. cbn [bind]. apply Fin. lia.
  - unfold fs at 1. cbn [app]. rewrite at_mid. cbn [is_at nth_error Z.eqb Pos.eqb]. unfold fs at 1. cbn [app]. rewrite at_mid. cbn [is_at nth_error Z.eqb Pos.eqb].
    unfold fs at 1. cbn [app]. rewrite at_mid. cbn [is_at nth_error Z.eqb Pos.eqb].
    replace (length (escaped before) + 2)%nat with (length (escaped before ++ [123; 58])) by (rewrite app_length; reflexivity).
    rewrite P. cbn [bind fst snd]. rewrite (proj2 (Z.leb_le 0 (Z.of_nat q))), Nat2Z.id, C by lia. cbn [andb]. rewrite G. cbn [bind]. apply Fin. lia.
Qed.
End V.

(** * parse *)
Lemma close_quoted q : ~ In 34 q -> forall rest off bc, close_loop (q ++ 34 :: rest) off bc true = close_loop rest (off + length q + 1) bc false.
Proof.
  induction q as [|c q IH]; intros N rest off bc; cbn [app close_loop length].
  - cbn [Z.eqb Pos.eqb negb]. f_equal. lia.
  - assert (c <> 34) by (intros ->; apply N; left; auto). assert (N' : ~ In 34 q) by (intros I; apply N; right; auto).
    rewrite (proj2 (Z.eqb_neq c 34)) by auto. cbn [negb]. rewrite !IH by auto. replace (S off + length q + 1)%nat with (off + S (length q) + 1)%nat by lia.
    destruct (c =? 123), (c =? 125); reflexivity.
Qed.
Lemma close_balanced t : balanced t -> forall rest off bc, 1 <= bc -> close_loop (t ++ rest) off bc false = close_loop rest (off + length t) bc false.
Proof.
  induction 1 as [|c t N1 N2 N3 B IH|a t Ba IHa Bt IHt|q t Q B IH]; intros rest off bc P.
  - cbn [app length]. rewrite Nat.add_0_r. reflexivity.
  - cbn [app close_loop length]. rewrite (proj2 (Z.eqb_neq c 34)), (proj2 (Z.eqb_neq c 123)), (proj2 (Z.eqb_neq c 125)) by auto. rewrite IH by auto. f_equal. lia.
  - cbn [app close_loop length Z.eqb Pos.eqb negb]. rewrite <- app_assoc. rewrite IHa by lia. cbn [app close_loop Z.eqb Pos.eqb negb].
    rewrite (proj2 (Z.eqb_neq (bc + 1 - 1) 0)) by lia. rewrite IHt by lia. f_equal; rewrite ?app_length; cbn [length]; lia.
  - cbn [app close_loop length Z.eqb Pos.eqb negb]. rewrite <- app_assoc. cbn [app]. rewrite close_quoted by auto. rewrite IH by auto. f_equal; rewrite ?app_length; cbn [length]; lia.
Qed.
Lemma close_spec spec rest : balanced spec -> close_loop (spec ++ 125 :: rest) 0 1 false = (length spec + 1)%nat.
Proof. intros B. rewrite close_balanced by (auto; lia). cbn [close_loop Z.eqb Pos.eqb negb Z.sub Z.add Z.opp Z.pos_sub]. lia. Qed.
Lemma skip_app {A} (a b : list A) : skipn (length a) (a ++ b) = b.
Proof. rewrite skipn_app, skipn_all, Nat.sub_diag. reflexivity. Qed.
(** The format string of the elements: the same field. *)
Definition elem_flags (spec : text) : text := match spec with [] => [123; 125] | _ => [123; 58] ++ spec ++ [125] end.
Lemma parse_ok dbg spec before open after p : balanced spec -> (spec = [] /\ open = [123] \/ open = [123; 58]) -> p = length (before ++ open) ->
  parse dbg (before ++ open ++ spec ++ 125 :: after) p = Ok (Z.of_nat (p + length spec), elem_flags spec).
Proof.
  intros B O ->. unfold parse. rewrite (app_assoc before), skip_app. destruct spec as [|c spec].
  - cbn [app]. cbn [Z.eqb Pos.eqb length elem_flags]. rewrite Nat.add_0_r. reflexivity.
  - cbn [app]. change (c :: spec ++ 125 :: after) with ((c :: spec) ++ 125 :: after).
    assert (Hc : c <> 125) by (inversion B; subst; auto; lia). rewrite (proj2 (Z.eqb_neq c 125)) by auto. rewrite close_spec by auto.
    destruct O as [(E & _)| ->]; [discriminate|]. rewrite app_length. cbn [length].
    destruct (Nat.ltb_spec (length before + 2) 2); [lia|]. replace (length before + 2 - 2)%nat with (length before) by lia.
    rewrite <- app_assoc, skip_app. replace (S (length spec) + 1 + 2)%nat with (length ([123; 58] ++ (c :: spec) ++ [125])) by (cbn [app length]; rewrite app_length; cbn [length]; lia).
    replace ([123; 58] ++ (c :: spec) ++ 125 :: after) with (([123; 58] ++ (c :: spec) ++ [125]) ++ after) by (rewrite <- !app_assoc; reflexivity).
    rewrite firstn_app, Nat.sub_diag, firstn_all, firstn_O, app_nil_r. cbn [app is_at nth_error Z.eqb Pos.eqb negb]. rewrite andb_false_r. cbn [elem_flags app]. do 2 f_equal. lia.
Qed.
Lemma vformat_elem {V} (F : formatter V) spec show ok v : accepts F spec show ok -> ok v -> vformat F (elem_flags spec) v = Ok (show v).
Proof.
  intros A K. destruct spec as [|c spec].
  - pose proof (vformat_field F v [] show ok [] [123] [] A K (or_introl (conj eq_refl eq_refl))) as E. cbn in E. rewrite app_nil_r in E. exact E.
  - pose proof (vformat_field F v (c :: spec) show ok [] [123; 58] [] A K (or_intror eq_refl)) as E. cbn [escaped flat_map app] in E. rewrite app_nil_r in E. exact E.
Qed.

(** * format *)
Lemma write_ok {V} (elem : V -> res text) (show : V -> text) sep : forall items first out, (forall v, In v items -> elem v = Ok (show v)) ->
  write_loop elem sep first items out = Ok (out ++ (if first then [] else match items with [] => [] | _ => sep end) ++ joined sep (map show items)).
Proof.
  induction items as [|v items IH]; intros first out H; cbn [write_loop].
  - destruct first; cbn; rewrite app_nil_r; reflexivity.
  - rewrite (H v) by (left; auto). cbn [bind]. rewrite IH by (intros; apply H; right; auto). f_equal. cbn [map joined].
    destruct items as [|u items]; cbn [map]; [destruct first; cbn [joined app]; rewrite !app_nil_r; rewrite <- ?app_assoc; reflexivity|].
    destruct first; cbn [app]; rewrite <- ?app_assoc; reflexivity.
Qed.
Lemma range_accepts {V} dbg (elem : formatter V) spec show ok : balanced spec -> accepts elem spec show ok ->
  accepts (range_formatter dbg elem) spec (shown show) (fun c => Forall ok (r_items c)).
Proof.
  intros B A before open after p O E. unfold range_formatter. rewrite (parse_ok dbg spec before open after p B O E). cbn [bind fst snd]. eexists. split; [reflexivity|].
  intros c Fc. unfold format. rewrite Forall_forall in Fc. rewrite (write_ok _ show) by (intros v I; apply (vformat_elem _ _ _ ok); auto). cbn [bind app]. unfold shown. rewrite <- app_assoc. reflexivity.
Qed.
Lemma chars_accepts dbg spec : balanced spec -> accepts (chars_formatter dbg) spec (fun c => r_items c) (fun _ => True).
Proof. intros B before open after p O E. unfold chars_formatter. rewrite (parse_ok dbg spec before open after p B O E). cbn [bind fst snd]. eexists. split; [reflexivity|]. auto. Qed.
Lemma tuple_accepts dbg sf spec show : balanced spec -> (forall k, accepts (sf k) spec (show k) (fun _ => True)) ->
  accepts (tuple_formatter dbg sf) spec (shown (fun e => show (fst e) (snd e))) (fun _ => True).
Proof.
  intros B A before open after p O E. unfold tuple_formatter. rewrite (parse_ok dbg spec before open after p B O E). cbn [bind fst snd]. eexists. split; [reflexivity|].
  intros c _. unfold tuple_format. rewrite (write_ok _ (fun e => show (fst e) (snd e))).
  - cbn [bind app]. unfold shown. rewrite <- app_assoc. reflexivity.
  - intros (k & x) _. unfold tuple_elem. cbn [fst snd]. apply (vformat_elem _ _ _ (fun _ => True)); auto.
Qed.
Lemma accepts_weaken {V} (F : formatter V) spec show show' (ok ok' : V -> Prop) : accepts F spec show ok -> (forall v, ok' v -> ok v /\ show v = show' v) -> accepts F spec show' ok'.
Proof. intros A H before open after p O E. destruct (A before open after p O E) as (g & P & G). exists g. split; auto. intros v K. destruct (H v K) as (K' & <-). auto. Qed.
Lemma element_accepts dbg sf spec show : balanced spec -> (forall k, accepts (sf k) spec (show k) (fun _ => True)) ->
  forall s, accepts (element_formatter dbg sf s) spec (show_nested show s) (has_shape s).
Proof.
  intros B A. induction s as [k| |s IH|]; intros before open after p O E; cbn [element_formatter].
  - destruct (A k before open after p O E) as (g & -> & G). cbn [bind fst snd]. eexists. split; [reflexivity|]. intros v H. inversion H; subst. cbn [show_nested]. auto.
  - destruct (chars_accepts dbg spec B before open after p O E) as (g & -> & G). cbn [bind fst snd]. eexists. split; [reflexivity|]. intros v H. inversion H; subst. cbn [show_nested]. rewrite G by auto. reflexivity.
  - destruct (range_accepts dbg _ spec _ _ B IH before open after p O E) as (g & -> & G). cbn [bind fst snd]. eexists. split; [reflexivity|]. intros v H. inversion H; subst. cbn [show_nested]. rewrite G by auto. reflexivity.
  - destruct (tuple_accepts dbg sf spec show B A before open after p O E) as (g & -> & G). cbn [bind fst snd]. eexists. split; [reflexivity|]. intros v H. inversion H; subst. cbn [show_nested]. rewrite G by auto. reflexivity.
Qed.

(** * The statements of the properties *)

Lemma escaped_literal t : literal t -> escaped t = t.
Proof.
  induction t as [|c t IH]; intros L; [reflexivity|]. cbn [escaped flat_map]. change (flat_map _ t) with (escaped t). rewrite IH by (intros d I; apply L; right; auto).
  destruct (L c (or_introl eq_refl)) as (N1 & N2). rewrite (proj2 (Z.eqb_neq c 123)), (proj2 (Z.eqb_neq c 125)) by auto. reflexivity.
Qed.
(** The format string that is used for the elements then: text with a closing brace. *)
Lemma vformat_stray {V} (F : formatter V) v t : literal t -> vformat F (t ++ [125]) v = Throw.
Proof.
  intros L. unfold vformat. destruct (loop_escaped F v Unknown t [] [125] (S (length (t ++ [125]))) []) as (f & Lf & E); [rewrite app_length; lia|].
  cbn [app] in E. change (length []) with 0%nat in E. rewrite (escaped_literal t L) in E. rewrite E. rewrite app_length in Lf. cbn [length] in Lf. destruct f as [|f]; [lia|]. cbn [vformat_loop].
  rewrite nth_mid, at_mid. reflexivity.
Qed.
Lemma parse_number dbg spec : balanced spec -> spec <> [] -> parse dbg ([123; 48; 58] ++ spec ++ [125]) 3 = if dbg then Throw else Ok (Z.of_nat (3 + length spec), [48; 58] ++ spec ++ [125]).
Proof.
  intros B N. unfold parse. destruct spec as [|c spec]; [contradiction|]. cbn [skipn app]. change (c :: spec ++ [125]) with ((c :: spec) ++ [125]).
  assert (Hc : c <> 125) by (inversion B; subst; auto; lia). cbn [app]. rewrite (proj2 (Z.eqb_neq c 125)) by auto. change (c :: spec ++ [125]) with ((c :: spec) ++ [125]). rewrite close_spec by auto.
  cbn [Nat.ltb Nat.leb Nat.sub skipn]. replace (length (c :: spec) + 1 + 2)%nat with (length (48 :: 58 :: (c :: spec) ++ [125])) by (cbn [app length]; rewrite app_length; cbn [length]; lia).
  rewrite firstn_all. cbn [is_at nth_error Z.eqb Pos.eqb negb]. destruct dbg; cbn [andb]; [reflexivity|]. cbn [app]. do 2 f_equal. cbn [length]. lia.
Qed.
Lemma field_throw {V} (F : formatter V) v spec : literal spec -> spec <> [] -> F ([123; 48; 58] ++ spec ++ [125]) 3%nat = Throw \/
    (exists g, F ([123; 48; 58] ++ spec ++ [125]) 3%nat = Ok (Z.of_nat (3 + length spec), g) /\ g v = Throw) ->
  vformat F ([123; 48; 58] ++ spec ++ [125]) v = Throw.
Proof.
  intros L N H. unfold vformat. set (fs := [123; 48; 58] ++ spec ++ [125]) in *. cbn [vformat_loop].
  change (nth_error fs 0) with (Some 123). cbn [Z.eqb Pos.eqb]. change (is_at fs (0 + 1) 123) with false. change (is_at fs (0 + 1) 125) with false. change (is_at fs (0 + 1) 58) with false. change (is_at fs (0 + 1) 48) with true.
  change (is_at fs (0 + 2) 125) with false. change (is_at fs (0 + 2) 58) with true. cbv iota. change (0 + 3)%nat with 3%nat.
  destruct H as [-> | (g & -> & G)]; [reflexivity|]. cbn [bind fst snd]. destruct (_ && _); [rewrite G|]; reflexivity.
Qed.
Lemma write_throw {V} (elem : V -> res text) sep items out : items <> [] -> (forall v, elem v = Throw) -> write_loop elem sep true items out = Throw.
Proof. intros N H. destruct items as [|v items]; [contradiction|]. cbn [write_loop]. rewrite H. reflexivity. Qed.
Lemma stray_flags spec : literal spec -> literal ([48; 58] ++ spec).
Proof. intros L c [<- | [<- | I]]; [lia | lia | auto]. Qed.
Lemma number_refuted : forall (V : Type) dbg (elem : formatter V) spec c, balanced spec -> literal spec -> spec <> [] -> r_items c <> [] ->
  vformat (range_formatter dbg elem) ([123; 48; 58] ++ spec ++ [125]) c = Throw.
Proof.
  intros V dbg elem spec c B L N I. apply field_throw; auto. unfold range_formatter. rewrite parse_number by auto. destruct dbg; [left; reflexivity|]. right. cbn [bind fst snd].
  eexists. split; [reflexivity|]. unfold format. rewrite (write_throw (vformat elem ([48; 58] ++ spec ++ [125]))); auto. intros v. rewrite app_assoc. apply vformat_stray, stray_flags; auto.
Qed.
Lemma tuple_number_refuted : forall dbg sf spec c, balanced spec -> literal spec -> spec <> [] -> r_items c <> [] ->
  vformat (tuple_formatter dbg sf) ([123; 48; 58] ++ spec ++ [125]) c = Throw.
Proof.
  intros dbg sf spec c B L N I. apply field_throw; auto. unfold tuple_formatter. rewrite parse_number by auto. destruct dbg; [left; reflexivity|]. right. cbn [bind fst snd].
  eexists. split; [reflexivity|]. unfold tuple_format. rewrite (write_throw (tuple_elem sf ([48; 58] ++ spec ++ [125]))); auto. intros v. unfold tuple_elem. rewrite app_assoc. apply vformat_stray, stray_flags; auto.
Qed.
Lemma close_open x : ~ In 34 x -> forall off bc, close_loop x off bc true = 0%nat.
Proof.
  induction x as [|c x IH]; intros N off bc; [reflexivity|]. assert (c <> 34) by (intros ->; apply N; left; auto). assert (N' : ~ In 34 x) by (intros I; apply N; right; auto).
  cbn [close_loop negb]. rewrite (proj2 (Z.eqb_neq c 34)) by auto. rewrite !IH by auto. destruct (c =? 123), (c =? 125); reflexivity.
Qed.
Lemma close_plain a : (forall d, In d a -> d <> 34 /\ d <> 123 /\ d <> 125) -> balanced a.
Proof. induction a as [|c a IH]; intros H; [constructor|]. destruct (H c (or_introl eq_refl)) as (? & ? & ?). constructor; auto. apply IH. intros d I. apply H. right; auto. Qed.
Lemma quote_refuted : forall (V : Type) dbg (elem : formatter V) a b after c, (forall d, In d a -> d <> 34 /\ d <> 123 /\ d <> 125) -> ~ In 34 (b ++ 125 :: after) ->
  vformat (range_formatter dbg elem) ([123; 58] ++ (a ++ 34 :: b) ++ 125 :: after) c = Throw.
Proof.
  intros V dbg elem a b after c H N. unfold vformat. set (f := (a ++ 34 :: b) ++ 125 :: after). set (fs := [123; 58] ++ f). cbn [vformat_loop].
  change (nth_error fs 0) with (Some 123). cbn [Z.eqb Pos.eqb]. change (is_at fs (0 + 1) 123) with false. change (is_at fs (0 + 1) 125) with false. change (is_at fs (0 + 1) 58) with true. cbv iota. change (0 + 2)%nat with 2%nat.
  assert (P : parse dbg fs 2 = Ok (1, [123; 58])).
  { unfold parse. change (skipn 2 fs) with f. assert (C : close_loop f 0 1 false = 0%nat).
    { unfold f. rewrite <- app_assoc. cbn [app]. rewrite (close_balanced a (close_plain a H)) by lia. cbn [close_loop Z.eqb Pos.eqb negb]. apply close_open. exact N. }
    destruct f as [|d f'] eqn:Ef; [destruct a; discriminate|]. assert (Hd : d <> 125).
    { unfold f in Ef. destruct a as [|e a]; cbn [app] in Ef; injection Ef as <- _; [lia|]. apply (H e). left; auto. }
    rewrite (proj2 (Z.eqb_neq d 125)) by auto. rewrite C. cbn [Nat.ltb Nat.leb Nat.sub skipn Nat.add]. unfold fs. cbn [app firstn is_at nth_error Z.eqb Pos.eqb negb]. rewrite andb_false_r. reflexivity. }
  unfold range_formatter at 1. rewrite P. cbn [bind fst snd]. change (is_at fs (Z.to_nat 1) 125) with false. reflexivity.
Qed.

Lemma c265_range :
  forall (V : Type) dbg (elem : formatter V) spec show ok c before after, balanced spec -> accepts elem spec show ok -> Forall ok (r_items c) ->
  vformat (range_formatter dbg elem) (escaped before ++ [123; 58] ++ spec ++ [125] ++ escaped after) c = Ok (before ++ shown show c ++ after) /\
  (spec = [] -> vformat (range_formatter dbg elem) (escaped before ++ [123; 125] ++ escaped after) c = Ok (before ++ shown show c ++ after)).
Proof.
  intros V dbg elem spec show ok c before after B A K. pose proof (range_accepts dbg elem spec show ok B A) as R. split.
  - apply (vformat_field (range_formatter dbg elem) c spec (shown show) _ before [123; 58] after R K). auto.
  - intros ->. apply (vformat_field (range_formatter dbg elem) c [] (shown show) _ before [123] after R K). auto.
Qed.

Lemma c265_number_refuted :
  forall (V : Type) dbg (elem : formatter V) spec c, balanced spec -> literal spec -> spec <> [] -> r_items c <> [] ->
  vformat (range_formatter dbg elem) ([123; 48; 58] ++ spec ++ [125]) c = Throw.
Proof.
  exact number_refuted.
Qed.

Lemma c265_quote_refuted :
  forall (V : Type) dbg (elem : formatter V) a b after c, (forall d, In d a -> d <> 34 /\ d <> 123 /\ d <> 125) -> ~ In 34 (b ++ 125 :: after) ->
  vformat (range_formatter dbg elem) ([123; 58] ++ (a ++ 34 :: b) ++ 125 :: after) c = Throw.
Proof.
  exact quote_refuted.
Qed.

Lemma c266_nested :
  forall dbg sf spec show s v before after, balanced spec -> (forall k, accepts (sf k) spec (show k) (fun _ => True)) -> has_shape s v ->
  vformat (element_formatter dbg sf s) (escaped before ++ [123; 58] ++ spec ++ [125] ++ escaped after) v = Ok (before ++ show_nested show s v ++ after) /\
  (spec = [] -> vformat (element_formatter dbg sf s) (escaped before ++ [123; 125] ++ escaped after) v = Ok (before ++ show_nested show s v ++ after)).
Proof.
  intros dbg sf spec show s v before after B A K. pose proof (element_accepts dbg sf spec show B A s) as R. split.
  - apply (vformat_field (element_formatter dbg sf s) v spec _ _ before [123; 58] after R K). auto.
  - intros ->. apply (vformat_field (element_formatter dbg sf s) v [] _ _ before [123] after R K). auto.
Qed.

Lemma c267_tuple :
  forall dbg sf spec show c before after, balanced spec -> (forall k, accepts (sf k) spec (show k) (fun _ => True)) ->
  vformat (tuple_formatter dbg sf) (escaped before ++ [123; 58] ++ spec ++ [125] ++ escaped after) c = Ok (before ++ shown (fun e => show (fst e) (snd e)) c ++ after) /\
  (spec = [] -> vformat (tuple_formatter dbg sf) (escaped before ++ [123; 125] ++ escaped after) c = Ok (before ++ shown (fun e => show (fst e) (snd e)) c ++ after)).
Proof.
  intros dbg sf spec show c before after B A. pose proof (tuple_accepts dbg sf spec show B A) as R. split.
  - apply (vformat_field (tuple_formatter dbg sf) c spec _ _ before [123; 58] after R Logic.I). auto.
  - intros ->. apply (vformat_field (tuple_formatter dbg sf) c [] _ _ before [123] after R Logic.I). auto.
Qed.

Lemma c267_number_refuted :
  forall dbg sf spec c, balanced spec -> literal spec -> spec <> [] -> r_items c <> [] ->
  vformat (tuple_formatter dbg sf) ([123; 48; 58] ++ spec ++ [125]) c = Throw.
Proof.
  exact tuple_number_refuted.
Qed.
