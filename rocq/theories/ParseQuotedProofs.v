(** Proofs about the quoted strings of ParseTo.v. *)
From Verif Require Import Common Ints Math SpecBits BitsModel BitsProofs StringView StringPop SpecString StringViewProofs
  StringPopProofs SpecParse ParseTo ParseToProofs.
From Coq Require Import Lia ZifyBool.
Open Scope Z_scope.
Local Arguments Z.mul : simpl never.
Local Arguments Z.add : simpl never.
Local Arguments Z.sub : simpl never.
Local Arguments Z.pow : simpl never.
Local Arguments Z.of_nat : simpl never.

Lemma pop_char_ok dbg v c t : valid v -> chars v = c :: t ->
  exists v', pop_front_char dbg v = Ok (c, v') /\ valid v' /\ chars v' = t /\ vmem v' = vmem v /\ voff v' = voff v + 1.
Proof.
  intros V E. unfold pop_front_char. rewrite (front_cons dbg v c t V E). cbn [bind].
  destruct (remove_prefix_ok v 1 V ltac:(lia)) as (v' & P & V' & C & M & O & _). rewrite P. cbn [bind].
  exists v'. rewrite E in C. pose proof (chars_length v V) as L. rewrite E in L. cbn [length] in L.
  split; [reflexivity | split; [auto | split; [exact C | split; [auto | lia]]]].
Qed.

Lemma quote_loop_ok dbg : forall body last_char v rest fuel, valid v -> chars v = body ++ rest ->
  no_quote last_char body -> match rest with [] => True | c :: _ => c = 34 /\ last (last_char :: body) 0 <> 92 end ->
  (length body <= fuel)%nat ->
  exists v', quote_loop dbg fuel last_char v = Ok v' /\ valid v' /\ chars v' = rest /\ vmem v' = vmem v /\
    voff v' = voff v + Z.of_nat (length body).
Proof.
  induction body as [|c body IH]; intros last_char v rest fuel V E NQ R L.
  - exists v. cbn [app] in E. assert (Q : quote_loop dbg fuel last_char v = Ok v).
    { destruct fuel; cbn [quote_loop]; rewrite (vempty_spec v V), E; destruct rest as [|c r]; auto;
        rewrite (front_cons dbg v c r V E); cbn [bind]; destruct R as [-> R]; cbn [last] in R;
        unfold is_unescaped_quote; replace (last_char =? 92) with false by lia; reflexivity. }
    split; [exact Q | split; [auto | split; [auto | split; [auto | cbn; lia]]]].
  - cbn [app] in E. destruct NQ as [NQ0 NQ]. destruct fuel as [|fuel]; [cbn in L; lia|]. cbn [quote_loop].
    rewrite (vempty_spec v V), E. rewrite (front_cons dbg v c _ V E). cbn [bind].
    assert (NE : is_unescaped_quote last_char c = false) by (unfold is_unescaped_quote; lia). rewrite NE.
    destruct (pop_char_ok dbg v c _ V E) as (v1 & P & V1 & C1 & M1 & O1). rewrite P. cbn [bind].
    destruct (IH c v1 rest fuel V1 C1 NQ) as (v' & Q & V' & C' & M' & O').
    + destruct rest as [|x r]; auto.
    + cbn in L. lia.
    + exists v'. split; [exact Q | split; [auto | split; [auto | split; [congruence|]]]]. cbn [length]. lia.
Qed.

Lemma quoted_prefix dbg v c0 body rest : valid v -> chars v = 34 :: c0 :: body ++ rest ->
  2 < vsize v -> no_quote c0 body ->
  match rest with [] => True | c :: _ => c = 34 /\ last (c0 :: body) 0 <> 92 end ->
  exists v', valid v' /\ chars v' = rest /\ vmem v' = vmem v /\ voff v' = voff v + 2 + Z.of_nat (length body) /\
    parse_to_quoted dbg v =
      (c <- sv_front dbg v' ;;
       if c =? 34 then Ok (v_between (vmem v) (voff v + 1) (voff v')) else Throw).
Proof.
  intros V E SZ NQ R. pose proof (chars_length v V) as LV. unfold parse_to_quoted.
  rewrite (vempty_spec v V). rewrite E. cbn [negb]. replace (2 <? vsize v) with true by lia. cbn [negb].
  rewrite (front_cons dbg v 34 _ V E). cbn [bind]. change (34 =? 34) with true. cbn [negb].
  destruct (remove_prefix_ok v 1 V ltac:(lia)) as (v1 & P & V1 & C1 & M1 & O1 & _). rewrite P. cbn [bind].
  rewrite E in C1. change (Z.to_nat 1) with 1%nat in C1. cbn [skipn] in C1.
  destruct (pop_char_ok dbg v1 c0 _ V1 C1) as (v2 & Q & V2 & C2 & M2 & O2). rewrite Q. cbn [bind].
  pose proof (chars_length v2 V2) as L2.
  assert (LE : (length (chars v2) = length body + length rest)%nat) by (rewrite C2, app_length; reflexivity).
  destruct (quote_loop_ok dbg body c0 v2 rest (Z.to_nat (vsize v2)) V2 C2 NQ) as (v' & QL & V' & C' & M' & O').
  - destruct rest as [|x r]; auto.
  - lia.
  - rewrite QL. cbn [bind]. exists v'.
    assert (MM : vmem v' = vmem v) by congruence.
    split; [auto | split; [auto | split; [auto | split; [lia|]]]].
    rewrite MM. destruct (vmem v) eqn:EM.
    + replace (voff v1) with (voff v + 1) by lia. reflexivity.
    + unfold chars in E. rewrite EM in E. discriminate.
Qed.

Lemma between_ok v c0 body rest : valid v -> chars v = 34 :: c0 :: body ++ rest ->
  let r := v_between (vmem v) (voff v + 1) (voff v + 2 + Z.of_nat (length body)) in valid r /\ chars r = c0 :: body.
Proof.
  intros V E r. pose proof (chars_length v V) as LV. rewrite E in LV. cbn [length] in LV. rewrite app_length in LV.
  pose proof (vsize_range v) as SV. assert (Z63 : 2 ^ 64 = 2 * 2 ^ 63) by reflexivity.
  unfold r, v_between.
  replace (sz (voff v + 2 + Z.of_nat (length body) - (voff v + 1))) with (1 + Z.of_nat (length body)).
  2:{ unfold sz. replace (voff v + 2 + Z.of_nat (length body) - (voff v + 1)) with (1 + Z.of_nat (length body)) by lia.
      rewrite Z.mod_small; lia. }
  destruct (mk_view v 1 (1 + Z.of_nat (length body)) V ltac:(lia) ltac:(lia) ltac:(lia) (1 + Z.of_nat (length body))) as [A B].
  - apply Z.mod_small. lia.
  - lia.
  - intros EM. unfold chars in E. rewrite EM in E. discriminate.
  - split; [exact A|]. rewrite B, E. change (Z.to_nat 1) with 1%nat. cbn [skipn].
    replace (Z.to_nat (1 + Z.of_nat (length body))) with (S (length body)) by lia. cbn [firstn].
    f_equal. rewrite firstn_app, Nat.sub_diag, firstn_all, app_nil_r. reflexivity.
Qed.

Lemma quoted_ok dbg v c0 body rest : valid v -> chars v = 34 :: (c0 :: body) ++ 34 :: rest ->
  no_quote c0 body -> last (c0 :: body) 0 <> 92 ->
  exists r, parse_to_quoted dbg v = Ok r /\ valid r /\ chars r = c0 :: body.
Proof.
  intros V E NQ NL. cbn [app] in E.
  assert (SZ : 2 < vsize v).
  { rewrite <- (chars_length v V), E. cbn [length]. rewrite app_length. cbn [length]. lia. }
  destruct (quoted_prefix dbg v c0 body (34 :: rest) V E SZ NQ (conj eq_refl NL)) as (v' & V' & C' & M' & O' & P).
  rewrite P, (front_cons dbg v' 34 rest V' C'). cbn [bind]. change (34 =? 34) with true. cbn [negb].
  rewrite O'. eexists. split; [reflexivity|]. exact (between_ok v c0 body (34 :: rest) V E).
Qed.

Lemma quoted_unterminated dbg v c0 c1 body l : valid v -> chars v = 34 :: c0 :: c1 :: body ->
  no_quote c0 (c1 :: body) -> vmem v = Some l ->
  (dbg = true -> parse_to_quoted dbg v = Throw) /\
  (dbg = false -> nth_error l (Z.to_nat (voff v + vsize v)) = None -> parse_to_quoted dbg v = UB) /\
  (dbg = false -> forall c, nth_error l (Z.to_nat (voff v + vsize v)) = Some c -> c <> 34 -> parse_to_quoted dbg v = Throw) /\
  (dbg = false -> nth_error l (Z.to_nat (voff v + vsize v)) = Some 34 ->
     exists r, parse_to_quoted dbg v = Ok r /\ chars r = c0 :: c1 :: body).
Proof.
  intros V E NQ EM.
  assert (SZ : vsize v = Z.of_nat (length (c1 :: body)) + 2).
  { rewrite <- (chars_length v V), E. cbn [length]. lia. }
  assert (SZ2 : 2 < vsize v) by (rewrite SZ; cbn [length]; lia).
  assert (E' : chars v = 34 :: c0 :: (c1 :: body) ++ []) by (rewrite app_nil_r; exact E).
  destruct (quoted_prefix dbg v c0 (c1 :: body) [] V E' SZ2 NQ I) as (v' & V' & C' & M' & O' & P).
  assert (EMP : vempty v' = true) by (rewrite (vempty_spec v' V'), C'; reflexivity).
  assert (OO : voff v' = voff v + vsize v) by lia.
  destruct (valid_off v l V EM) as [OF0 OF1].
  assert (FR : sv_front dbg v' = if dbg then Throw else rd l (Z.to_nat (voff v + vsize v))).
  { unfold sv_front, chk. rewrite EMP. cbn [negb]. destruct dbg; cbn; [reflexivity|].
    unfold vget, rdp. rewrite M', EM. pose proof (vsize_range v).
    replace (voff v' + 0 <? 0) with false by lia. rewrite OO. f_equal. lia. }
  rewrite P, FR. split; [intros ->; reflexivity|]. split; [|split]; intros ->.
  - intros N. unfold rd. rewrite N. reflexivity.
  - intros c N NE. unfold rd. rewrite N. cbn [bind]. replace (c =? 34) with false by lia. reflexivity.
  - intros N. unfold rd. rewrite N. cbn [bind]. change (34 =? 34) with true. cbn [negb].
    eexists. split; [reflexivity|]. rewrite O'. exact (proj2 (between_ok v c0 (c1 :: body) [] V E')).
Qed.

Lemma quoted_throws dbg v : valid v -> (vsize v <= 2 \/ exists c t, chars v = c :: t /\ c <> 34) ->
  parse_to_quoted dbg v = Throw.
Proof.
  intros V C. unfold parse_to_quoted. rewrite (vempty_spec v V). pose proof (chars_length v V) as LV.
  destruct (chars v) as [|c t] eqn:E; [reflexivity|].
  destruct (Z.ltb_spec 2 (vsize v)); cbn [negb]; [|reflexivity].
  rewrite (front_cons dbg v c t V E). cbn [bind].
  destruct C as [C | (c' & t' & EQ & N)]; [lia|]. injection EQ as -> ->. replace (c' =? 34) with false by lia. reflexivity.
Qed.

(** ** Single characters and unquoted text *)
Lemma char_value dbg v : valid v ->
  parse_to_char dbg v = match chars v with [] => Throw | c :: _ => Ok c end.
Proof.
  intros V. unfold parse_to_char. rewrite (vempty_spec v V). destruct (chars v) as [|c t] eqn:E; [reflexivity|].
  exact (front_cons dbg v c t V E).
Qed.

Lemma unquoted_value v : valid v ->
  parse_to_unquoted v = match chars v with [] => Throw | _ => Ok v end.
Proof. intros V. unfold parse_to_unquoted. rewrite (vempty_spec v V). destruct (chars v); reflexivity. Qed.
