(** Proofs about ParserHelper.v. *)
From Verif Require Import Common Ints Math SpecBits BitsModel BitsProofs MathProofs StringView StringPop SpecString
  StringViewProofs StringPopProofs SpecParse ParseTo ParseToProofs ParseSplitProofs ParserHelper.
From Coq Require Import Lia ZifyBool.
Open Scope Z_scope.
Local Arguments Z.mul : simpl never.
Local Arguments Z.add : simpl never.
Local Arguments Z.sub : simpl never.
Local Arguments Z.pow : simpl never.
Local Arguments Z.of_nat : simpl never.

(** ** Segments *)
Lemma seg_rd a f l s i c : segment a f l s -> nth_error s i = Some c -> rd a (f + i) = Ok c.
Proof.
  intros (pre & post & -> & <- & _) E. unfold rd. rewrite nth_error_app2 by lia.
  replace (length pre + i - length pre)%nat with i by lia.
  rewrite nth_error_app1; [rewrite E; reflexivity|]. apply nth_error_Some. congruence.
Qed.

Lemma seg_cons a f l c s : segment a f l (c :: s) -> rd a f = Ok c /\ segment a (S f) l s.
Proof.
  intros G. split.
  - replace f with (f + 0)%nat by lia. apply (seg_rd a f l (c :: s) 0 c G). reflexivity.
  - destruct G as (pre & post & -> & <- & L). exists (pre ++ [c]), post.
    rewrite <- app_assoc, app_length. cbn in *. split; [reflexivity | split; lia].
Qed.

Lemma seg_skip a f l x y : segment a f l (x ++ y) -> segment a (f + length x) l y.
Proof.
  intros (pre & post & -> & <- & L). exists (pre ++ x), post. rewrite <- !app_assoc, !app_length.
  rewrite app_length in L. split; [reflexivity | split; lia].
Qed.

Lemma seg_take a f l x y : segment a f l (x ++ y) -> segment a f (f + length x) x.
Proof.
  intros (pre & post & -> & <- & L). exists pre, (y ++ post). rewrite <- !app_assoc.
  split; [reflexivity | split; lia].
Qed.

Lemma seg_len a f l s : segment a f l s -> (l - f = length s)%nat /\ (f + length s = l)%nat /\ (l <= length a)%nat.
Proof. intros (pre & post & -> & <- & <-). rewrite !app_length. lia. Qed.

(** ** until *)
Lemma until_loop_ok p : forall s a f l, segment a f l s ->
  until_loop (length s) a f p = Ok (if (idx p s =? length s)%nat then None else Some (f + idx p s)%nat).
Proof.
  induction s as [|c s IH]; intros a f l G; cbn [until_loop length idx].
  - reflexivity.
  - destruct (seg_cons _ _ _ _ _ G) as [R G']. rewrite R. cbn [bind]. destruct (p c) eqn:E.
    + cbn. do 2 f_equal. lia.
    + rewrite (IH a (S f) l G'). cbn [Nat.eqb]. destruct (idx p s =? length s)%nat; [reflexivity|].
      do 2 f_equal. lia.
Qed.

Lemma until_idx p s a f l : segment a f l s ->
  until a f l p = Ok (FR f (f + idx p s) (idx p s <? length s)%nat).
Proof.
  intros G. destruct (seg_len _ _ _ _ G) as (L1 & L2 & _). unfold until. rewrite L1, (until_loop_ok p s a f l G). cbn [bind].
  pose proof (idx_le p s). destruct (Nat.eqb_spec (idx p s) (length s)) as [E | E].
  - rewrite E. rewrite Nat.ltb_irrefl. f_equal. f_equal. lia.
  - destruct (Nat.ltb_spec (idx p s) (length s)); [reflexivity | lia].
Qed.

Lemma idx_stops p s (P : Z -> Prop) : (forall c, In c s -> p c = true <-> P c) -> stops P s (idx p s).
Proof.
  intros H. split; [apply idx_le|]. destruct (idx_split_at p s) as [F A].
  assert (IN : forall c, In c (firstn (idx p s) s) \/ In c (skipn (idx p s) s) -> In c s).
  { intros c I. rewrite <- (firstn_skipn (idx p s) s). apply in_or_app. exact I. }
  split.
  - rewrite Forall_forall in *. intros c I PC. apply H in PC; auto. rewrite (F c I) in PC. discriminate.
  - destruct (skipn (idx p s) s) as [|c t] eqn:E; [auto|]. apply H; auto. apply IN. right. left. reflexivity.
Qed.

Lemma stops_unique P s k j : stops P s k -> stops P s j -> k = j.
Proof.
  assert (G : forall k j, stops P s k -> stops P s j -> (k < j)%nat -> False).
  { intros k' j' (L & F & A) (L' & F' & A') LT. destruct (skipn_cons s k' ltac:(lia)) as (c & E & S).
    rewrite S in A. rewrite Forall_forall in F'. apply (F' c); auto. apply nth_error_In with k'.
    rewrite <- (firstn_skipn j' s) in E. rewrite nth_error_app1 in E; [exact E|]. rewrite firstn_length. lia. }
  intros A B. destruct (Nat.lt_trichotomy k j) as [H | [H | H]]; auto; exfalso; eauto.
Qed.

Lemma idx_is p s k (P : Z -> Prop) : (forall c, In c s -> p c = true <-> P c) -> stops P s k -> idx p s = k.
Proof. intros H B. exact (stops_unique P s _ _ (idx_stops p s P H) B). Qed.

Lemma until_ok p s a f l (P : Z -> Prop) : segment a f l s -> (forall c, In c s -> p c = true <-> P c) ->
  exists k, stops P s k /\ until a f l p = Ok (FR f (f + k) (k <? length s)%nat).
Proof. intros G H. exists (idx p s). split; [apply idx_stops; auto | apply until_idx; auto]. Qed.

Lemma until_or_throw_ok p s a f l t : segment a f l s ->
  exists k, stops (fun c => p c = true) s k /\
    until_or_throw a f l p t =
      if t && (k =? length s)%nat then Throw else Ok (FR f (f + k) (k <? length s)%nat).
Proof.
  intros G. exists (idx p s). split; [apply idx_stops; tauto|].
  destruct (seg_len _ _ _ _ G) as (L1 & L2 & _). unfold until_or_throw. rewrite L1, (until_loop_ok p s a f l G). cbn [bind].
  pose proof (idx_le p s). destruct (Nat.eqb_spec (idx p s) (length s)) as [E | E].
  - destruct t; [reflexivity|]. cbn [andb]. rewrite E, Nat.ltb_irrefl. f_equal. f_equal. lia.
  - rewrite andb_false_r. destruct (Nat.ltb_spec (idx p s) (length s)); [reflexivity | lia].
Qed.

Lemma is_a_in c vs : is_a c vs = true <-> In c vs.
Proof.
  unfold is_a. rewrite existsb_exists. split.
  - intros (x & I & E). apply Z.eqb_eq in E. congruence.
  - intros I. exists c. split; [auto | apply Z.eqb_refl].
Qed.

Lemma until_false_ok p s a f l : segment a f l s ->
  exists k, stops (fun c => p c = false) s k /\ until_false a f l p = Ok (FR f (f + k) (k <? length s)%nat).
Proof. intros G. apply until_ok; auto. intros c _. destruct (p c); cbn; intuition congruence. Qed.

Lemma until_value_ok vs s a f l : segment a f l s ->
  exists k, stops (fun c => In c vs) s k /\ until_value a f l vs = Ok (FR f (f + k) (k <? length s)%nat).
Proof. intros G. apply until_ok; auto. intros c _. apply is_a_in. Qed.

Lemma skip_ws_ok s a f l : segment a f l s ->
  exists k, stops (fun c => ~ uni_white (wrap 32 c)) s k /\ skip_ws a f l = Ok (FR (f + k) l (k <? length s)%nat).
Proof.
  intros G. unfold skip_ws, until_false.
  destruct (until_ok (fun c => negb (is_unicode_whitespace c)) s a f l (fun c => ~ uni_white (wrap 32 c)) G) as (k & B & E).
  - intros c _. rewrite <- unicode_white. destruct (is_unicode_whitespace c); cbn; split; congruence.
  - exists k. split; [exact B|]. rewrite E. reflexivity.
Qed.

(** ** value_in *)
Lemma find_value_in v c : find_value v c = None <-> ~ In v c.
Proof.
  induction c as [|x c IH]; cbn [find_value In]; [tauto|].
  destruct (is_a v [x]) eqn:E.
  - apply is_a_in in E. split; [discriminate|]. intros N. exfalso. apply N. cbn in E. tauto.
  - assert (NE : ~ In v [x]) by (rewrite <- is_a_in, E; discriminate). cbn in NE.
    destruct (find_value v c) eqn:F; cbn.
    + split; [discriminate|]. intros N. exfalso. apply N. right. apply Decidable.not_not; [|rewrite <- IH; discriminate].
      unfold Decidable.decidable. destruct (in_dec Z.eq_dec v c); auto.
    + split; [|auto]. intros _. pose proof (proj1 IH eq_refl). tauto.
Qed.

Lemma value_in_inverted v c : value_in v c = true <-> ~ In v c.
Proof. unfold value_in. rewrite <- find_value_in. destruct (find_value v c); intuition congruence. Qed.

Lemma until_values_inverted vs s a f l : segment a f l s ->
  exists k, stops (fun c => ~ In c vs) s k /\ until_values a f l vs = Ok (FR f (f + k) (k <? length s)%nat).
Proof. intros G. apply until_ok; auto. intros c _. apply value_in_inverted. Qed.

(** ** Assertions and expect *)
Lemma expect_ok v cs : (In v cs -> expect v cs = Ok tt) /\ (~ In v cs -> expect v cs = Throw).
Proof.
  unfold expect. rewrite <- is_a_in. destruct (is_a v cs); cbn; split; intros; congruence.
Qed.
Lemma assert_equal_inverted x y : assert_equal x y = if x =? y then Throw else Ok tt.
Proof. unfold assert_equal. destruct (x =? y); reflexivity. Qed.
Lemma assert_empty_inverted f l : assert_empty f l = if (f =? l)%nat then Throw else Ok tt.
Proof.
  unfold assert_empty. rewrite assert_equal_inverted.
  destruct (Nat.eqb_spec f l); destruct (Z.eqb_spec (Z.of_nat f) (Z.of_nat l)); auto; lia.
Qed.

(** ** Splitting *)
Lemma until_at p c s a f l : segment a f l (c :: s) -> p c = true -> until a f l p = Ok (FR f f true).
Proof.
  intros G E. rewrite (until_idx p _ a f l G). cbn [idx]. rewrite E. cbn. do 2 f_equal. lia.
Qed.

Lemma split_loop_stuck p c s a f l : segment a f l (c :: s) -> p c = true ->
  forall fuel g e, split_loop fuel a l p (FR g f true) e = OutOfFuel.
Proof.
  intros G E. induction fuel as [|fuel IH]; intros g e; cbn [split_loop]; [reflexivity|].
  cbn [fr_found fr_last]. rewrite (until_at p c s a f l G E). cbn [bind]. apply IH.
Qed.

Lemma split_stuck p s a f l : segment a f l s -> (exists c, In c s /\ p c = true) ->
  forall fuel, split_if fuel a f l p = OutOfFuel.
Proof.
  intros G (c & I & E) fuel. unfold split_if. rewrite (until_idx p s a f l G). cbn [bind].
  assert (L : (idx p s < length s)%nat).
  { pose proof (idx_le p s). destruct (Nat.eq_dec (idx p s) (length s)) as [EQ|]; [|lia].
    pose proof (idx_none p s EQ) as N. rewrite Forall_forall in N. rewrite (N c I) in E. discriminate. }
  destruct (Nat.ltb_spec (idx p s) (length s)); [|lia].
  destruct (skipn_cons s (idx p s) L) as (d & ED & SK). destruct (idx_split_at p s) as [_ A]. rewrite SK in A.
  apply (split_loop_stuck p d (skipn (S (idx p s)) s)); auto. rewrite <- SK.
  rewrite <- (firstn_skipn (idx p s) s) in G. apply seg_skip in G. rewrite firstn_length in G.
  replace (Nat.min (idx p s) (length s)) with (idx p s) in G by lia. exact G.
Qed.

Lemma split_plain p s a f l fuel : segment a f l s -> Forall (fun c => p c = false) s -> (0 < fuel)%nat ->
  split_if fuel a f l p = Ok (if (length s =? 0)%nat then [] else [l]).
Proof.
  intros G F FU. unfold split_if. rewrite (until_idx p s a f l G). cbn [bind].
  assert (E : idx p s = length s).
  { clear G. induction F; cbn; [reflexivity|]. rewrite H. f_equal. auto. }
  rewrite E, Nat.ltb_irrefl. destruct fuel; [lia|]. cbn [split_loop fr_found fr_first fr_last].
  destruct (seg_len _ _ _ _ G) as (_ & L & _).
  destruct (Nat.eqb_spec f (f + length s)); destruct (Nat.eqb_spec (length s) 0); try lia; cbn; [reflexivity|].
  do 2 f_equal. lia.
Qed.

(** ** from_to *)
Lemma from_to_ok p q s a f l t : segment a f l s ->
  exists k, stops (fun c => p c = true) s k /\
    ((k = length s /\ from_to_pred a f l p q t = Throw) \/
     exists j, (k < length s)%nat /\ stops (fun c => q c = true) (skipn k s) j /\
       from_to_pred a f l p q t =
         if t && (j =? length (skipn k s))%nat then Throw
         else Ok (FR (f + k) (f + k + j) (negb (j =? 0)%nat))).
Proof.
  intros G. exists (idx p s). split; [apply idx_stops; tauto|]. unfold from_to_pred.
  rewrite (until_idx p s a f l G). cbn [bind fr_found fr_last]. pose proof (idx_le p s) as KL.
  destruct (Nat.ltb_spec (idx p s) (length s)) as [L | L]; cbn [negb].
  2:{ left. split; [lia | reflexivity]. }
  right. exists (idx q (skipn (idx p s) s)). split; [exact L | split; [apply idx_stops; tauto|]].
  assert (G2 : segment a (f + idx p s) l (skipn (idx p s) s)).
  { rewrite <- (firstn_skipn (idx p s) s) in G. apply seg_skip in G. rewrite firstn_length in G.
    replace (Nat.min (idx p s) (length s)) with (idx p s) in G by lia. exact G. }
  rewrite (until_idx q _ a _ l G2). cbn [bind fr_found fr_last].
  set (j := idx q (skipn (idx p s) s)). pose proof (idx_le q (skipn (idx p s) s)) as JL. fold j in JL.
  replace (negb (j <? length (skipn (idx p s) s))%nat) with (j =? length (skipn (idx p s) s))%nat.
  2:{ destruct (Nat.eqb_spec j (length (skipn (idx p s) s))); destruct (Nat.ltb_spec j (length (skipn (idx p s) s))); auto; lia. }
  destruct (t && _); [reflexivity|]. do 3 f_equal.
  destruct (Nat.eqb_spec (f + idx p s) (f + idx p s + j)); destruct (Nat.eqb_spec j 0); auto; lia.
Qed.

(** ** Trimming *)
Local Notation W := blank.
Lemma W_true c : is_unicode_whitespace c = true <-> W c.
Proof. apply unicode_white. Qed.
Lemma W_false c : not_unicode_whitespace c = true <-> ~ W c.
Proof.
  unfold not_unicode_whitespace. rewrite <- W_true. destruct (is_unicode_whitespace c); cbn; split; congruence.
Qed.

Lemma stops_app (P : Z -> Prop) x c y : Forall (fun c => ~ P c) x -> P c -> stops P (x ++ c :: y) (length x).
Proof.
  intros F C. split; [rewrite app_length; lia|]. split.
  - rewrite firstn_app, Nat.sub_diag, firstn_all, app_nil_r. exact F.
  - rewrite skipn_app, skipn_all, Nat.sub_diag. exact C.
Qed.
Lemma stops_none (P : Z -> Prop) x : Forall (fun c => ~ P c) x -> stops P x (length x).
Proof. intros F. split; [lia|]. rewrite firstn_all, skipn_all. auto. Qed.

Lemma nn_white x : Forall W x -> Forall (fun c => ~ ~ W c) x.
Proof. apply Forall_impl. tauto. Qed.

Lemma until_white p (P : Z -> Prop) s a f l k : segment a f l s -> (forall c, p c = true <-> P c) -> stops P s k ->
  until a f l p = Ok (FR f (f + k) (k <? length s)%nat).
Proof. intros G H B. rewrite (until_idx p s a f l G). rewrite (idx_is p s k P); auto. Qed.

Lemma trim_left_ok a f l w c s : segment a f l (w ++ c :: s) -> Forall W w -> ~ W c ->
  trim_left a f l = Ok (FR (f + length w) l false).
Proof.
  intros G F N. unfold trim_left.
  rewrite (until_white _ (fun c => ~ W c) _ a f l (length w) G W_false).
  2:{ apply stops_app; auto. apply nn_white; auto. }
  cbn [bind fr_found fr_last]. rewrite app_length. cbn [length].
  destruct (Nat.ltb_spec (length w) (length w + S (length s))); [reflexivity | lia].
Qed.

Lemma trim_left_blank a f l w : segment a f l w -> Forall W w -> trim_left a f l = Ok (FR f l false).
Proof.
  intros G F. unfold trim_left. rewrite (until_white _ (fun c => ~ W c) _ a f l (length w) G W_false).
  2:{ apply stops_none. apply nn_white; auto. }
  cbn [bind fr_found fr_last]. rewrite Nat.ltb_irrefl. reflexivity.
Qed.


Lemma trim_right_ok a f l w c word rest : segment a f l (w ++ (c :: word) ++ rest) -> Forall W w ->
  Forall (fun c => ~ W c) (c :: word) -> white_or_end rest ->
  trim_right a f l = Ok (FR f (f + length w + S (length word)) true).
Proof.
  intros G F N R. unfold trim_right.
  rewrite (until_white _ (fun c => ~ W c) _ a f l (length w) G W_false).
  2:{ cbn [app]. apply stops_app; [apply nn_white; auto | inversion N; auto]. }
  cbn [bind fr_found fr_last]. rewrite app_length.
  destruct (Nat.ltb_spec (length w) (length w + length ((c :: word) ++ rest))) as [_ | B].
  2:{ cbn [app length] in B. lia. }
  cbn [negb]. apply seg_skip in G.
  rewrite (until_white _ W _ a (f + length w) l (length (c :: word)) G W_true).
  2:{ destruct rest as [|x rest]; [rewrite app_nil_r; apply stops_none; auto | apply stops_app; auto]. }
  cbn [bind fr_last]. reflexivity.
Qed.

Lemma trim_right_blank a f l w : segment a f l w -> Forall W w -> trim_right a f l = Ok (FR f l false).
Proof.
  intros G F. unfold trim_right. rewrite (until_white _ (fun c => ~ W c) _ a f l (length w) G W_false).
  2:{ apply stops_none. apply nn_white; auto. }
  cbn [bind fr_found fr_last]. rewrite Nat.ltb_irrefl. reflexivity.
Qed.

Lemma trim_ok a f l w c word rest : segment a f l (w ++ (c :: word) ++ rest) -> Forall W w ->
  Forall (fun c => ~ W c) (c :: word) -> white_or_end rest ->
  trim a f l = Ok (FR (f + length w) (f + length w + S (length word)) true).
Proof.
  intros G F N R. unfold trim. inversion N; subst.
  rewrite (trim_left_ok a f l w c (word ++ rest)); auto. cbn [bind fr_first fr_found].
  rewrite (trim_right_ok a (f + length w) l [] c word rest); auto; [|exact (seg_skip _ _ _ _ _ G)].
  cbn [bind fr_last fr_found]. do 2 f_equal. cbn. lia.
Qed.

Lemma trim_blank a f l w : segment a f l w -> Forall W w -> trim a f l = Ok (FR f l false).
Proof.
  intros G F. unfold trim. rewrite (trim_left_blank a f l w G F). cbn [bind fr_first].
  rewrite (trim_right_blank a f l w G F). reflexivity.
Qed.

(** *** over views *)
Lemma sv_trim_left_ok dbg : forall n v, valid v -> (length (chars v) <= n)%nat ->
  exists v', sv_trim_left_loop dbg n v = Ok v' /\ valid v' /\ drops_front W (chars v) (chars v').
Proof.
  induction n as [|n IH]; intros v V L.
  - exists v. cbn [sv_trim_left_loop]. rewrite (vempty_spec v V). destruct (chars v) eqn:E; [|cbn in L; lia].
    split; [reflexivity | split; [auto|]]. exists []. auto.
  - cbn [sv_trim_left_loop]. rewrite (vempty_spec v V). destruct (chars v) as [|c t] eqn:E.
    + exists v. split; [reflexivity | split; [auto|]]. rewrite E. exists []. auto.
    + rewrite (front_cons dbg v c t V E). cbn [bind]. destruct (is_unicode_whitespace c) eqn:WC.
      * destruct (remove_prefix_ok v 1 V ltac:(lia)) as (v1 & P & V1 & C1 & _). rewrite P. cbn [bind].
        rewrite E in C1. change (Z.to_nat 1) with 1%nat in C1. cbn [skipn] in C1.
        destruct (IH v1 V1) as (v' & Q & V' & (w & EQ & FW & M)); [rewrite C1; cbn in L; lia|].
        exists v'. split; [exact Q | split; [auto|]]. exists (c :: w). rewrite <- C1, EQ.
        split; [reflexivity | split; [constructor; [apply W_true|]; auto | exact M]].
      * exists v. split; [reflexivity | split; [auto|]]. rewrite E. exists [].
        split; [reflexivity | split; [auto|]]. rewrite <- W_true, WC. discriminate.
Qed.

Lemma back_snoc dbg v t c : valid v -> chars v = t ++ [c] -> sv_back dbg v = Ok c.
Proof.
  intros V E. unfold sv_back, chk. rewrite (vempty_spec v V), E.
  assert (N : match t ++ [c] with [] => true | _ :: _ => false end = false) by (destruct t; reflexivity).
  rewrite N. cbn [negb]. rewrite andb_false_r. cbn [bind]. rewrite (vend_ok v V). cbn [bind].
  pose proof (chars_hold v V) as H. rewrite E in H. pose proof (chars_length v V) as L. rewrite E, app_length in L. cbn [length] in L.
  destruct (hold_snoc _ _ _ _ H) as [R _].
  unfold padd. destruct (vmem v) eqn:M; [|unfold rdp in R; discriminate].
  destruct (valid_off v l V M).
  replace ((0 <=? voff v + vsize v + -1) && (voff v + vsize v + -1 <=? Z.of_nat (length l))) with true by lia.
  cbn [bind]. replace (voff v + vsize v + -1) with (voff v + Z.of_nat (length t)) by lia. exact R.
Qed.

Lemma sv_trim_right_ok dbg : forall n v, valid v -> (length (chars v) <= n)%nat ->
  exists v', sv_trim_right_loop dbg n v = Ok v' /\ valid v' /\ drops_back W (chars v) (chars v').
Proof.
  induction n as [|n IH]; intros v V L.
  - exists v. cbn [sv_trim_right_loop]. rewrite (vempty_spec v V). destruct (chars v) eqn:E; [|cbn in L; lia].
    split; [reflexivity | split; [auto|]]. exists []. split; [reflexivity | split; [auto|]]. intros t c EQ. destruct t; discriminate.
  - cbn [sv_trim_right_loop]. rewrite (vempty_spec v V).
    destruct (chars v) as [|c0 t0] eqn:E0.
    + exists v. split; [reflexivity | split; [auto|]]. rewrite E0. exists []. split; [reflexivity | split; [auto|]].
      intros t c EQ. destruct t; discriminate.
    + assert (NE : chars v <> []) by congruence. destruct (exists_last NE) as (t & c & E).
      rewrite (back_snoc dbg v t c V E). cbn [bind]. rewrite <- E0, E. destruct (is_unicode_whitespace c) eqn:WC.
      * destruct (remove_suffix_ok v 1 V ltac:(lia)) as (V1 & C1 & _).
        assert (C2 : chars (remove_suffix v 1) = t).
        { rewrite C1, E, app_length. cbn [length]. change (Z.to_nat 1) with 1%nat.
          replace (length t + 1 - 1)%nat with (length t) by lia.
          rewrite firstn_app, Nat.sub_diag, firstn_all, app_nil_r. reflexivity. }
        destruct (IH (remove_suffix v 1) V1) as (v' & Q & V' & (w & EQ & FW & M)).
        { rewrite C2. rewrite E0 in E. apply (f_equal (@length Z)) in E. rewrite app_length in E. cbn in *. lia. }
        exists v'. split; [exact Q | split; [auto|]]. exists (w ++ [c]). rewrite C2 in EQ. rewrite EQ, app_assoc.
        split; [reflexivity | split; [apply Forall_app; split; auto; constructor; auto; apply W_true; auto | exact M]].
      * exists v. split; [reflexivity | split; [auto|]]. rewrite E. exists []. rewrite app_nil_r.
        split; [reflexivity | split; [auto|]]. intros t' c' EQ. apply app_inj_tail in EQ. destruct EQ as [_ <-].
        rewrite <- W_true, WC. discriminate.
Qed.

Lemma ws_trim_left_ok dbg v : valid v ->
  exists v', ws_trim_left dbg v = Ok v' /\ valid v' /\ drops_front W (chars v) (chars v').
Proof. intros V. apply sv_trim_left_ok; auto. pose proof (chars_length v V). lia. Qed.
Lemma ws_trim_right_ok dbg v : valid v ->
  exists v', ws_trim_right dbg v = Ok v' /\ valid v' /\ drops_back W (chars v) (chars v').
Proof. intros V. apply sv_trim_right_ok; auto. pose proof (chars_length v V). lia. Qed.
Lemma ws_trim_ok dbg v : valid v ->
  exists m v', ws_trim dbg v = Ok v' /\ valid v' /\ drops_front W (chars v) m /\ drops_back W m (chars v').
Proof.
  intros V. unfold ws_trim. destruct (ws_trim_left_ok dbg v V) as (m & E & VM & D). rewrite E. cbn [bind].
  destruct (ws_trim_right_ok dbg m VM) as (v' & E' & V' & D'). exists (chars m), v'. auto.
Qed.

Lemma find_when_ok v p : valid v ->
  exists k, find_first_of_when v p = Ok (Z.of_nat k) /\ stops (fun c => p c = true) (chars v) k.
Proof.
  intros V. exists (idx p (chars v)). split; [|apply idx_stops; tauto].
  unfold find_first_of_when.
  assert (G : forall k n, (n + k = length (chars v))%nat ->
    first_when_loop k p v (Z.of_nat n) = Ok (Z.of_nat (n + idx p (skipn n (chars v))))).
  { induction k as [|k IH]; intros n L; cbn [first_when_loop].
    - rewrite skipn_all2 by lia. cbn [idx]. do 2 f_equal. lia.
    - destruct (skipn_cons (chars v) n ltac:(lia)) as (c & E & SK). rewrite (vget_ok v n c V E). cbn [bind].
      rewrite SK. cbn [idx]. destruct (p c); [do 2 f_equal; lia|].
      replace (Z.of_nat n + 1) with (Z.of_nat (n + 1)) by lia. rewrite IH by lia.
      do 2 f_equal. replace (n + 1)%nat with (S n) by lia. lia. }
  pose proof (chars_length v V). specialize (G (length (chars v)) 0%nat ltac:(lia)).
  replace (Z.to_nat (vsize v)) with (length (chars v)) by lia. exact G.
Qed.

(** ** starts_with, until_last_of, matcher, is_crlf *)
Lemma starts_with_ok pred : forall s1 s2 a1 f1 l1 a2 f2 l2, segment a1 f1 l1 s1 -> segment a2 f2 l2 s2 ->
  exists b, starts_with pred a1 f1 l1 a2 f2 l2 = Ok b /\
    (b = true <-> exists x y, s1 = x ++ y /\ Forall2 (fun c d => pred c d = true) x s2).
Proof.
  assert (G : forall s1 s2 a1 f1 l1 a2 f2 l2, segment a1 f1 l1 s1 -> segment a2 f2 l2 s2 ->
    exists b, starts_with_loop pred (length s1) (length s2) a1 f1 a2 f2 = Ok b /\
      (b = true <-> exists x y, s1 = x ++ y /\ Forall2 (fun c d => pred c d = true) x s2)).
  { induction s1 as [|c s1 IH]; intros s2 a1 f1 l1 a2 f2 l2 G1 G2.
    - cbn [length starts_with_loop]. exists (length s2 =? 0)%nat. split; [reflexivity|]. destruct s2 as [|d s2]; cbn.
      + split; [|auto]. intros _. exists [], []. auto.
      + split; [discriminate|]. intros (x & y & E & F). destruct x; [inversion F | discriminate].
    - destruct s2 as [|d s2].
      + cbn [length starts_with_loop]. exists true. split; [reflexivity|]. split; [|auto]. intros _. exists [], (c :: s1). auto.
      + destruct (seg_cons _ _ _ _ _ G1) as [R1 G1']. destruct (seg_cons _ _ _ _ _ G2) as [R2 G2'].
        cbn [length starts_with_loop]. rewrite R1, R2. cbn [bind]. destruct (pred c d) eqn:E; cbn [negb].
        * destruct (IH s2 _ _ _ _ _ _ G1' G2') as (b & EQ & B). exists b. split; [exact EQ|]. rewrite B. split.
          -- intros (x & y & -> & F). exists (c :: x), y. auto.
          -- intros (x & y & EX & F). inversion F; subst. injection EX as -> ->. exists l, y. auto.
        * exists false. split; [reflexivity|]. split; [discriminate|].
          intros (x & y & EX & F). inversion F; subst. injection EX as -> ->. congruence. }
  intros s1 s2 a1 f1 l1 a2 f2 l2 G1 G2. unfold starts_with.
  destruct (seg_len _ _ _ _ G1) as (-> & _). destruct (seg_len _ _ _ _ G2) as (-> & _). eauto.
Qed.

Lemma until_last_loop_ok v : forall n y a e l g, (length y <= n)%nat -> segment a (S e) l y ->
  exists r, until_last_loop (S (S n)) a l v (FR g e true) = Ok r /\ fr_first r = g /\
    ((~ In v y /\ fr_last r = e) \/
     exists x z, y = x ++ v :: z /\ ~ In v z /\ fr_last r = (S e + length x)%nat).
Proof.
  induction n as [|n IH]; intros y a e l g L G; destruct (seg_len _ _ _ _ G) as (L1 & L2 & _).
  - destruct y; [|cbn in L; lia]. cbn [length] in L2. cbn [until_last_loop fr_found fr_last fr_first].
    destruct (Nat.eqb_spec e l); [lia|]. cbn [andb negb]. unfold until_value. rewrite (until_idx _ [] a (S e) l G).
    cbn. exists (FR g e false). split; [reflexivity | split; [reflexivity | left; auto]].
  - remember (S n) as m. cbn [until_last_loop fr_found fr_last fr_first]. destruct (Nat.eqb_spec e l); [lia|]. cbn [andb negb].
    destruct (until_value_ok [v] y a (S e) l G) as (k & B & U). rewrite U. cbn [bind fr_found fr_last]. subst m.
    destruct (Nat.ltb_spec k (length y)) as [K | K].
    + destruct (skipn_cons y k K) as (c & E & SK). destruct B as (_ & F & A). rewrite SK in A. destruct A as [<- | []].
      assert (Y : y = firstn k y ++ v :: skipn (S k) y) by (rewrite <- SK; symmetry; apply firstn_skipn).
      assert (LK : length (firstn k y) = k) by (rewrite firstn_length; lia).
      assert (G2 : segment a (S (S e + k)) l (skipn (S k) y)).
      { rewrite Y in G. apply seg_skip in G. rewrite LK in G. exact (proj2 (seg_cons _ _ _ _ _ G)). }
      destruct (IH (skipn (S k) y) a (S e + k)%nat l g) as (r & Q & RF & RL); auto.
      { rewrite skipn_length. lia. }
      exists r. split; [exact Q | split; [exact RF|]]. right. destruct RL as [[NI RL] | (x & z & EX & NI & RL)].
      * exists (firstn k y), (skipn (S k) y). rewrite LK. auto.
      * exists (firstn k y ++ v :: x), z. split; [|split; [auto|]].
        -- rewrite <- app_assoc. cbn [app]. rewrite <- EX. exact Y.
        -- rewrite app_length, LK, RL. cbn. lia.
    + cbn [until_last_loop fr_found andb]. exists (FR g e false). split; [reflexivity | split; [reflexivity|]]. left.
      split; [|reflexivity]. destruct B as (KL & F & _). rewrite firstn_all2 in F by lia.
      rewrite Forall_forall in F. intros I. apply (F v I). left. reflexivity.
Qed.

Lemma until_last_absent v s a f l : segment a f l s -> ~ In v s -> until_last_of a f l v = Ok (FR f l false).
Proof.
  intros G N. unfold until_last_of. destruct (until_value_ok [v] s a f l G) as (k & B & U). rewrite U. cbn [bind fr_found].
  destruct (seg_len _ _ _ _ G) as (L1 & L2 & _).
  assert (K : k = length s).
  { apply (stops_unique (fun c => In c [v]) s); auto. apply stops_none. apply Forall_forall.
    intros c I [-> | []]. auto. }
  subst k. rewrite Nat.ltb_irrefl. cbn [until_last_loop fr_found andb bind fr_first fr_last]. f_equal. f_equal. lia.
Qed.

Lemma until_last_found v x z a f l : segment a f l (x ++ v :: z) -> ~ In v z ->
  until_last_of a f l v = Ok (FR f (f + length x) true).
Proof.
  intros G N. unfold until_last_of. destruct (until_value_ok [v] _ a f l G) as (k & B & U). rewrite U. cbn [bind fr_found].
  set (s := x ++ v :: z) in *. destruct (seg_len _ _ _ _ G) as (L1 & L2 & _).
  assert (K : (k < length s)%nat).
  { destruct B as (KL & F & _). destruct (Nat.eq_dec k (length s)) as [->|]; [|lia]. exfalso.
    rewrite firstn_all in F. rewrite Forall_forall in F. apply (F v); [unfold s; apply in_or_app; right; left; auto | left; auto]. }
  destruct (Nat.ltb_spec k (length s)); [|lia].
  destruct (skipn_cons s k K) as (c & E & SK). destruct B as (_ & F & A). rewrite SK in A. destruct A as [<- | []].
  assert (Y : s = firstn k s ++ v :: skipn (S k) s) by (rewrite <- SK; symmetry; apply firstn_skipn).
  assert (LK : length (firstn k s) = k) by (rewrite firstn_length; lia).
  assert (G2 : segment a (S (f + k)) l (skipn (S k) s)).
  { rewrite Y in G. apply seg_skip in G. rewrite LK in G. exact (proj2 (seg_cons _ _ _ _ _ G)). }
  destruct (until_last_loop_ok v (l - f) (skipn (S k) s) a (f + k)%nat l f) as (r & Q & RF & RL); auto.
  { rewrite skipn_length. lia. }
  rewrite Q. cbn [bind]. rewrite RF. do 2 f_equal.
  assert (U2 : forall x' z', s = x' ++ v :: z' -> ~ In v z' -> length x' = length x).
  { intros x' z' E' N'. unfold s in E'. clear - E' N N'. revert x' E'. induction x as [|c x IH]; intros [|c' x'] E'; cbn in E'.
    - reflexivity.
    - injection E' as <- E'. exfalso. apply N. rewrite E'. apply in_or_app. right. left. auto.
    - injection E' as -> E'. exfalso. apply N'. rewrite <- E'. apply in_or_app. right. left. auto.
    - injection E' as _ E'. cbn. f_equal. auto. }
  destruct RL as [[NI RL] | (x' & z' & EX & NI & RL)].
  - rewrite RL. f_equal. rewrite <- (U2 _ _ Y NI). auto.
  - rewrite RL. rewrite <- (U2 (firstn k s ++ v :: x') z').
    + rewrite app_length, LK. cbn. lia.
    + rewrite <- app_assoc. cbn [app]. rewrite <- EX. exact Y.
    + exact NI.
Qed.

Lemma prefix_eq_spec t s : prefix_eq t s = true <-> occurs s t 0.
Proof.
  rewrite occurs_zero. revert s. induction t as [|x t IH]; intros s; cbn [prefix_eq].
  - split; [intros _; exists s; reflexivity | auto].
  - destruct s as [|y s].
    + split; [discriminate|]. intros (b & E). discriminate.
    + rewrite andb_true_iff, IH, is_a_in. split.
      * intros ([-> | []] & b & ->). exists b. reflexivity.
      * intros (b & E). injection E as -> ->. split; [left; auto | exists b; auto].
Qed.

Lemma search_pos_ok t : t <> [] -> forall s pos,
  match search_pos (length s) s t pos with
  | Some p => exists k, p = (pos + k)%nat /\ occurs s t k /\ forall j, (j < k)%nat -> ~ occurs s t j
  | None => forall j, ~ occurs s t j
  end.
Proof.
  intros NT. induction s as [|c s IH]; intros pos; cbn [length search_pos].
  - destruct (prefix_eq t []) eqn:E.
    + apply prefix_eq_spec in E. exfalso. exact (occurs_nil t 0 NT E).
    + intros j. apply occurs_nil; auto.
  - destruct (prefix_eq t (c :: s)) eqn:E.
    + apply prefix_eq_spec in E. exists 0%nat. split; [lia | split; [auto | lia]].
    + assert (N0 : ~ occurs (c :: s) t 0) by (rewrite <- prefix_eq_spec, E; discriminate).
      cbn [tl]. specialize (IH (S pos)). destruct (search_pos (length s) s t (S pos)).
      * destruct IH as (k & -> & OK & MIN). exists (S k). split; [lia | split; [apply occurs_succ; auto|]].
        intros [|j] J; [auto|]. rewrite occurs_succ. apply MIN. lia.
      * intros [|j]; [auto|]. rewrite occurs_succ. auto.
Qed.

Lemma seg_slice a f l s : segment a f l s -> firstn (l - f) (skipn f a) = s.
Proof.
  intros (pre & post & -> & <- & <-). rewrite skipn_app, skipn_all, Nat.sub_diag. cbn [skipn app].
  replace (length pre + length s - length pre)%nat with (length s) by lia.
  rewrite firstn_app, Nat.sub_diag, firstn_all, app_nil_r. reflexivity.
Qed.

Lemma matcher_ok t s a f l : segment a f l s -> t <> [] ->
  ((forall j, ~ occurs s t j) -> matcher a t f l = FR f l false) /\
  (forall k, occurs s t k -> (forall j, (j < k)%nat -> ~ occurs s t j) -> matcher a t f l = FR f (f + k) true).
Proof.
  intros G NT. unfold matcher. rewrite (seg_slice a f l s G). destruct (seg_len _ _ _ _ G) as (L1 & L2 & _). rewrite L1.
  pose proof (search_pos_ok t NT s f) as H. destruct (search_pos (length s) s t f) as [p|].
  - destruct H as (k & -> & OK & MIN). split.
    + intros N. exfalso. exact (N k OK).
    + intros k' OK' MIN'. assert (k = k').
      { destruct (Nat.lt_trichotomy k k') as [H | [H | H]]; auto; exfalso; [exact (MIN' _ H OK) | exact (MIN _ H OK')]. }
      subst k'. pose proof (occurs_length _ _ _ OK). destruct t; [congruence|]. cbn [length] in *.
      destruct (Nat.eqb_spec (f + k) l); [lia|]. reflexivity.
  - split; [auto|]. intros k OK. exfalso. exact (H k OK).
Qed.

Lemma crlf_loop_spec : forall n l, (length l <= n)%nat -> crlf_match_loop l = true -> exists k, l = crlfs k.
Proof.
  induction n as [|n IH]; intros l L H.
  - destruct l; [exists 0%nat; reflexivity | cbn in L; lia].
  - destruct l as [|r [|m l]]; [exists 0%nat; reflexivity | discriminate|]. cbn [crlf_match_loop] in H.
    destruct (is_a r [13] && is_a m [10]) eqn:E; [|discriminate].
    apply andb_true_iff in E. rewrite !is_a_in in E. destruct E as [[<- | []] [<- | []]].
    destruct (IH l) as (k & ->); auto; [cbn in L; lia|]. exists (S k). reflexivity.
Qed.
Lemma crlf_loop_true k : crlf_match_loop (crlfs k) = true.
Proof. induction k as [|k IH]; [reflexivity|]. cbn [crlfs crlf_match_loop]. exact IH. Qed.
Lemma crlfs_length k : length (crlfs k) = (2 * k)%nat.
Proof. induction k as [|k IH]; [reflexivity|]. cbn [crlfs length]. lia. Qed.

Definition last4 (l : list Z) : list Z := skipn (length l - 4) l.

Lemma last4_snoc l v : last4 (last4 l ++ [v]) = last4 (l ++ [v]).
Proof.
  unfold last4. destruct (Nat.le_gt_cases (length l) 4) as [H | H].
  - replace (length l - 4)%nat with 0%nat by lia. reflexivity.
  - assert (E : length (skipn (length l - 4) l ++ [v]) = 5%nat) by (rewrite app_length, skipn_length; cbn; lia).
    rewrite E. rewrite app_length. cbn [length]. change (5 - 4)%nat with 1%nat.
    replace (length l + 1 - 4)%nat with ((length l - 4) + 1)%nat by lia.
    rewrite !skipn_app, skipn_length. replace (1 - (length l - (length l - 4)))%nat with 0%nat by lia.
    replace (length l - 4 + 1 - length l)%nat with 0%nat by lia. rewrite skipn_skipn. reflexivity.
Qed.

Lemma crlf_calls_ok n : forall vs seen b, crlf_calls n (last4 seen) b vs =
  match vs with [] => b | _ => crlf_match n (last4 (seen ++ vs)) end.
Proof.
  induction vs as [|v vs IH]; intros seen b; [reflexivity|]. cbn [crlf_calls]. unfold crlf_call.
  change (skipn (length (last4 seen ++ [v]) - 4) (last4 seen ++ [v])) with (last4 (last4 seen ++ [v])).
  rewrite last4_snoc, IH. destruct vs; [reflexivity|]. rewrite <- app_assoc. reflexivity.
Qed.

Lemma is_crlf_last4 n vs : is_crlf n vs = match vs with [] => false | _ => crlf_match n (last4 vs) end.
Proof. unfold is_crlf. exact (crlf_calls_ok n vs [] false). Qed.

Lemma crlf_match_spec n l : crlf_match (Z.of_nat n) l = true -> Z.of_nat n < 2 ^ 62 -> l = crlfs n.
Proof.
  unfold crlf_match. intros H B.
  destruct (Z.eqb_spec (Z.of_nat (length l)) (wrap 64 (2 * Z.of_nat n))) as [E | E]; cbn [negb] in H; [|discriminate].
  destruct (crlf_loop_spec (length l) l) as (k & ->); auto. rewrite crlfs_length in E. f_equal.
  rewrite wrap_id in E; [lia|]. change (2 ^ 64) with (4 * 2 ^ 62). lia.
Qed.

Lemma crlf_match_crlfs n : Z.of_nat n < 2 ^ 62 -> crlf_match (Z.of_nat n) (crlfs n) = true.
Proof.
  intros B. unfold crlf_match. rewrite crlfs_length, wrap_id by (change (2 ^ 64) with (4 * 2 ^ 62); lia).
  replace (Z.of_nat (2 * n) =? 2 * Z.of_nat n) with true by lia. cbn [negb]. apply crlf_loop_true.
Qed.

Lemma last4_length l : length (last4 l) = Nat.min 4 (length l).
Proof. unfold last4. rewrite skipn_length. lia. Qed.

Lemma is_crlf_two vs : is_crlf 2 vs = true <-> exists pre, vs = pre ++ crlfs 2.
Proof.
  rewrite is_crlf_last4. split.
  - intros H. assert (M : crlf_match 2 (last4 vs) = true) by (destruct vs; [discriminate | exact H]).
    apply (crlf_match_spec 2) in M; [|vm_compute; reflexivity].
    exists (firstn (length vs - 4) vs). rewrite <- M. symmetry. apply firstn_skipn.
  - intros (pre & ->).
    assert (L4 : last4 (pre ++ crlfs 2) = crlfs 2).
    { unfold last4. rewrite app_length, crlfs_length. replace (length pre + 2 * 2 - 4)%nat with (length pre) by lia.
      rewrite skipn_app, skipn_all, Nat.sub_diag. reflexivity. }
    rewrite L4. destruct pre; vm_compute; reflexivity.
Qed.

Lemma is_crlf_one vs : is_crlf 1 vs = true <-> vs = crlfs 1.
Proof.
  rewrite is_crlf_last4. split.
  - intros H. assert (M : crlf_match 1 (last4 vs) = true) by (destruct vs; [discriminate | exact H]).
    apply (crlf_match_spec 1) in M; [|vm_compute; reflexivity].
    pose proof (last4_length vs) as L. rewrite M in L. cbn [crlfs length] in L. rewrite <- M. unfold last4.
    replace (length vs - 4)%nat with 0%nat by lia. reflexivity.
  - intros ->. vm_compute. reflexivity.
Qed.

Lemma is_crlf_more n vs : (3 <= n)%nat -> Z.of_nat n < 2 ^ 62 -> is_crlf (Z.of_nat n) vs = false.
Proof.
  intros N B. rewrite is_crlf_last4. destruct vs as [|v vs]; [reflexivity|].
  destruct (crlf_match (Z.of_nat n) (last4 (v :: vs))) eqn:E; [|reflexivity].
  apply crlf_match_spec in E; auto. apply (f_equal (@length Z)) in E. rewrite last4_length, crlfs_length in E. lia.
Qed.

(** ** find_first_of_any does not end *)
Lemma any_stuck a f l c0 c1 s v0 v1 vs : segment a f l (c0 :: c1 :: s) -> In v0 (c0 :: c1 :: s) -> v1 <> c1 ->
  forall fuel, find_first_of_any fuel a f l (v0 :: v1 :: vs) = OutOfFuel.
Proof.
  intros G I N fuel. unfold find_first_of_any. cbn [rd nth_error bind].
  destruct (until_value_ok [v0] _ a f l G) as (k & B & U). rewrite U. cbn [bind fr_found].
  destruct (Nat.ltb_spec k (length (c0 :: c1 :: s))) as [K | K].
  2:{ exfalso. destruct B as (KL & F & _). rewrite firstn_all2 in F by lia. rewrite Forall_forall in F. apply (F v0 I). left; auto. }
  cbn [negb fr_first]. destruct (seg_cons _ _ _ _ _ G) as [_ G1]. destruct (seg_cons _ _ _ _ _ G1) as [R1 _].
  destruct (seg_len _ _ _ _ G1) as (L1 & L2 & _). cbn [length] in L1, L2.
  generalize (FR f (f + k) true). induction fuel as [|fuel IH]; intros r; cbn [any_loop].
  - destruct (Nat.eqb_spec (S f) l); [lia | reflexivity].
  - destruct (Nat.eqb_spec (S f) l); [lia|]. cbn [tl any_inner]. rewrite L1. cbn [any_inner]. rewrite R1. cbn [bind].
    replace (v1 =? c1) with false by lia. cbn [bind]. rewrite U. cbn [bind]. apply IH.
Qed.

(** ** find_number *)
Lemma number_start_loop a f l x c y : segment a f l (x ++ c :: y) ->
  Forall (fun c => c <> 45 /\ ~ digit c) x -> c = 45 \/ digit c ->
  until a f l (fun v => is_a 45 [v] || is_number v) = Ok (FR f (f + length x) true).
Proof.
  intros G F H.
  assert (P : forall c, (is_a 45 [c] || is_number c) = true <-> (c = 45 \/ digit c)).
  { intros d. rewrite orb_true_iff, is_a_in, is_number_digit. cbn. intuition. }
  rewrite (until_white _ (fun c => c = 45 \/ digit c) _ a f l (length x) G P).
  - rewrite app_length. cbn [length]. destruct (Nat.ltb_spec (length x) (length x + S (length y))); [reflexivity | lia].
  - apply stops_app; auto. eapply Forall_impl; [|exact F]. cbn. tauto.
Qed.

Lemma digit_not_point d : digit d -> is_a 46 [d] = false.
Proof.
  intros D. destruct (is_a 46 [d]) eqn:E; [|reflexivity]. apply is_a_in in E. destruct E as [E | []].
  unfold digit in D. lia.
Qed.

Lemma find_number_digit a f l x d y : segment a f l (x ++ d :: y) -> Forall (fun c => c <> 45 /\ ~ digit c) x -> digit d ->
  find_number a f l = Ok (FR (f + length x) (S (f + length x)) false).
Proof.
  intros G F D. unfold find_number. rewrite (number_start_loop a f l x d y); auto. cbn [bind fr_found fr_last negb].
  apply seg_skip in G. destruct (seg_len _ _ _ _ G) as (L1 & L2 & L3). rewrite L1.
  destruct (seg_cons _ _ _ _ _ G) as [R _]. cbn [length number_end_loop]. rewrite R. cbn [bind].
  assert (NP : is_a 46 [d] = false). { exact (digit_not_point d D). }
  rewrite NP, (proj2 (is_number_digit d) D). cbn [bind]. rewrite Nat.eqb_refl. cbn [negb].
  destruct (Nat.leb_spec (S (f + length x)) (length a)); [reflexivity|]. cbn [length] in *. lia.
Qed.

Lemma find_number_none a f l s : segment a f l s -> Forall (fun c => c <> 45 /\ ~ digit c) s -> find_number a f l = Throw.
Proof.
  intros G F. unfold find_number.
  assert (P : forall c, (is_a 45 [c] || is_number c) = true <-> (c = 45 \/ digit c)).
  { intros d. rewrite orb_true_iff, is_a_in, is_number_digit. cbn. intuition. }
  rewrite (until_white _ (fun c => c = 45 \/ digit c) _ a f l (length s) G P).
  - rewrite Nat.ltb_irrefl. reflexivity.
  - apply stops_none. eapply Forall_impl; [|exact F]. cbn. tauto.
Qed.

Lemma find_number_minus_digit a f l x d y : segment a f l (x ++ 45 :: d :: y) ->
  Forall (fun c => c <> 45 /\ ~ digit c) x -> digit d ->
  find_number a f l = Ok (FR (f + length x) (f + length x + 2) true).
Proof.
  intros G F D. unfold find_number. rewrite (number_start_loop a f l x 45 (d :: y)); auto. cbn [bind fr_found fr_last negb].
  apply seg_skip in G. destruct (seg_len _ _ _ _ G) as (L1 & L2 & L3). rewrite L1.
  destruct (seg_cons _ _ _ _ _ G) as [R G1]. destruct (seg_cons _ _ _ _ _ G1) as [R1 _].
  cbn [length number_end_loop]. rewrite R. cbn [bind].
  change (is_a 46 [45]) with false. change (is_number 45) with false. cbn iota. rewrite R1. cbn [bind].
  assert (NP : is_a 46 [d] = false). { exact (digit_not_point d D). }
  rewrite NP, (proj2 (is_number_digit d) D). cbn [bind]. cbn [length] in *.
  destruct (Nat.eqb_spec (f + length x) (S (f + length x))); [lia|].
  destruct (Nat.leb_spec (S (S (f + length x))) (length a)); [|lia]. cbn [negb]. do 2 f_equal. lia.
Qed.

(** ** Numbers *)
Lemma from_num_digit T c : std_width (width T) -> digit c -> from_num_char T c = c - 48.
Proof.
  intros H D. unfold digit in D. unfold from_num_char. rewrite (wrap_id 8 c) by (change (2 ^ 8) with 256; lia).
  rewrite (wrap_id 8 48) by (change (2 ^ 8) with 256; lia).
  rewrite (wrap_id 32) by (change (2 ^ 32) with 4294967296; lia). apply conv_small; auto. lia.
Qed.

Lemma unsigned_loop_ok T : std_width (width T) -> forall count ds a f l r, segment a f l ds -> Forall digit ds -> 0 <= r ->
  dec_from r (firstn count ds) <= highest T ->
  unsigned_loop T count a f l r = Ok ((f + Nat.min count (length ds))%nat, dec_from r (firstn count ds)).
Proof.
  intros H. pose proof (std_pos _ H) as P. pose proof (highest_lowest T H) as [LO HI].
  induction count as [|n IH]; intros ds a f l r G F R B; cbn [unsigned_loop firstn].
  - cbn [Nat.min dec_from fold_left]. do 2 f_equal. lia.
  - destruct (seg_len _ _ _ _ G) as (_ & L & _). destruct ds as [|c ds].
    + cbn [length] in L. replace (f =? l)%nat with true by (symmetry; apply Nat.eqb_eq; lia). cbn. do 2 f_equal. lia.
    + cbn [length] in L. replace (f =? l)%nat with false by (symmetry; apply Nat.eqb_neq; lia).
      inversion F as [|? ? D F']; subst. destruct (seg_cons _ _ _ _ _ G) as [RD G'].
      cbn [firstn] in B. change (dec_from (10 * r + (c - 48)) (firstn n ds) <= highest T) in B.
      assert (FN : Forall digit (firstn n ds)).
      { apply Forall_forall. intros x I. rewrite Forall_forall in F'. apply F'.
        rewrite <- (firstn_skipn n ds). apply in_or_app. auto. }
      pose proof D as D'. unfold digit in D'.
      pose proof (dec_mono (firstn n ds) (10 * r + (c - 48)) FN ltac:(lia)).
      rewrite (assign_fits T (r * 10)) by (auto; unfold fits; lia). cbn [bind]. rewrite RD. cbn [bind].
      rewrite from_num_digit by auto.
      rewrite (assign_fits T (r * 10 + (c - 48))) by (auto; unfold fits; lia). cbn [bind].
      rewrite (Z.mul_comm r 10). rewrite (IH ds a (S f) (f + S (length ds))%nat); auto; [|lia].
      do 2 f_equal. cbn [length Nat.min]. lia.
Qed.

Lemma decimal_bound ds : forall r, Forall digit ds -> 0 <= r -> dec_from r ds < (r + 1) * 10 ^ Z.of_nat (length ds).
Proof.
  induction ds as [|c ds IH]; intros r F R.
  - cbn [dec_from fold_left length]. change (10 ^ Z.of_nat 0) with 1. lia.
  - inversion F as [|? ? D F']; subst. unfold digit in D. cbn [length].
    change (dec_from r (c :: ds)) with (dec_from (10 * r + (c - 48)) ds).
    specialize (IH (10 * r + (c - 48)) F' ltac:(lia)).
    rewrite Nat2Z.inj_succ, Z.pow_succ_r by lia.
    assert (0 < 10 ^ Z.of_nat (length ds)) by (apply Z.pow_pos_nonneg; lia). nia.
Qed.

Lemma digits10_fit T : std_width (width T) -> 10 ^ Z.of_nat (digits10 T) <= highest T + 1.
Proof.
  intros H. unfold digits10, highest. widths H; rewrite W; cbn [Z.eqb Pos.eqb]; destruct (signed T); vm_compute; discriminate.
Qed.

Lemma digits10_pos T : std_width (width T) -> (0 < digits10 T)%nat.
Proof. intros H. unfold digits10. widths H; rewrite W; cbn [Z.eqb Pos.eqb]; destruct (signed T); lia. Qed.

Lemma decimal_fits T ds : std_width (width T) -> Forall digit ds -> (length ds <= digits10 T)%nat -> decimal ds <= highest T.
Proof.
  intros H F L. pose proof (decimal_bound ds 0 F ltac:(lia)) as B. pose proof (digits10_fit T H) as D.
  assert (10 ^ Z.of_nat (length ds) <= 10 ^ Z.of_nat (digits10 T)) by (apply Z.pow_le_mono_r; lia).
  change (decimal ds) with (dec_from 0 ds). lia.
Qed.

Lemma Forall_firstn_digits n ds : Forall digit ds -> Forall digit (firstn n ds).
Proof.
  intros F. apply Forall_forall. intros x I. rewrite Forall_forall in F. apply F.
  rewrite <- (firstn_skipn n ds). apply in_or_app. auto.
Qed.

Lemma range_unsigned_ok T a f l ds : std_width (width T) -> segment a f l ds -> Forall digit ds -> ds <> [] ->
  range_unsigned_int T a f l = if (length ds <=? digits10 T)%nat then Ok (decimal ds) else Throw.
Proof.
  intros H G F N. unfold range_unsigned_int. destruct ds as [|c ds]; [congruence|].
  destruct (seg_cons _ _ _ _ _ G) as [R _]. rewrite R. cbn [bind]. inversion F; subst.
  rewrite (digit_not_minus c) by auto.
  rewrite (unsigned_loop_ok T H (digits10 T) (c :: ds) a f l 0 G F); [|lia|].
  2:{ apply (decimal_fits T); [auto | apply Forall_firstn_digits; auto | rewrite firstn_length; lia]. }
  cbn [bind]. destruct (seg_len _ _ _ _ G) as (_ & L & _).
  destruct (Nat.leb_spec (length (c :: ds)) (digits10 T)) as [B | B].
  - replace (f + Nat.min (digits10 T) (length (c :: ds)) =? l)%nat with true by (symmetry; apply Nat.eqb_eq; lia).
    rewrite firstn_all2 by auto. reflexivity.
  - replace (f + Nat.min (digits10 T) (length (c :: ds)) =? l)%nat with false by (symmetry; apply Nat.eqb_neq; lia).
    reflexivity.
Qed.

Lemma range_int_plain T a f l ds : std_width (width T) -> segment a f l ds -> Forall digit ds -> ds <> [] ->
  range_int T a f l = if (length ds <=? digits10 T)%nat then Ok (decimal ds) else Throw.
Proof.
  intros H G F N. rewrite <- (range_unsigned_ok T a f l ds H G F N). destruct ds as [|c ds]; [congruence|].
  destruct (seg_cons _ _ _ _ _ G) as [R _]. unfold range_int. rewrite R. cbn [bind]. inversion F; subst.
  rewrite (digit_not_minus c) by auto. reflexivity.
Qed.

Lemma range_int_neg T a f l ds : std_width (width T) -> signed T = true -> segment a f l (45 :: ds) -> Forall digit ds ->
  ds <> [] -> range_int T a f l = if (length ds <=? digits10 T)%nat then Ok (- decimal ds) else Throw.
Proof.
  intros H SG G F N. destruct (seg_cons _ _ _ _ _ G) as [R G']. unfold range_int. rewrite R. cbn [bind].
  change (45 =? 45) with true. cbn iota. rewrite SG. rewrite (range_unsigned_ok T a (S f) l ds H G' F N).
  destruct (Nat.leb_spec (length ds) (digits10 T)) as [B | B]; cbn [bind]; [|reflexivity].
  rewrite minus_one by auto. pose proof (decimal_fits T ds H F B). pose proof (decimal_nonneg ds F).
  replace (decimal ds * -1) with (- decimal ds) by lia. apply assign_fits; [apply std_pos; auto|].
  unfold fits. split; [|pose proof (highest_lowest T H); lia].
  unfold lowest, highest in *. rewrite SG in *. lia.
Qed.

Lemma range_int_unsigned_neg T a f l s : signed T = false -> segment a f l (45 :: s) -> range_int T a f l = Throw.
Proof.
  intros SG G. destruct (seg_cons _ _ _ _ _ G) as [R _]. unfold range_int. rewrite R. cbn [bind].
  change (45 =? 45) with true. cbn iota. rewrite SG. reflexivity.
Qed.

Lemma range_unsigned_neg T a f l s : segment a f l (45 :: s) -> range_unsigned_int T a f l = Throw.
Proof.
  intros G. destruct (seg_cons _ _ _ _ _ G) as [R _]. unfold range_unsigned_int. rewrite R. reflexivity.
Qed.

Lemma cstr_end_ok : forall s a f post n, a = firstn f a ++ s ++ 0 :: post -> length (firstn f a) = f -> ~ In 0 s ->
  (length s <= n)%nat -> cstr_end n a f = Ok (f + length s)%nat.
Proof.
  intros s a f post n E L N B.
  assert (G : segment a f (f + length (s ++ [0])) (s ++ [0])).
  { exists (firstn f a), post. rewrite <- app_assoc. auto. }
  clear E L. revert f n G B. induction s as [|c s IH]; intros f n G B; cbn [app] in G.
  - destruct (seg_cons _ _ _ _ _ G) as [R _]. destruct n; cbn [cstr_end]; rewrite R; cbn; f_equal; lia.
  - destruct (seg_cons _ _ _ _ _ G) as [R G']. destruct n as [|n]; [cbn in B; lia|]. cbn [cstr_end]. rewrite R. cbn [bind].
    assert (C : c <> 0) by (intros ->; apply N; left; auto). replace (c =? 0) with false by lia.
    rewrite IH.
    + f_equal. cbn. lia.
    + intros I. apply N. right. auto.
    + cbn [length] in G'. rewrite Nat.add_succ_r in G'. exact G'.
    + cbn in B. lia.
Qed.

Lemma cstr_unsigned_ok T pre ds post : std_width (width T) -> Forall digit ds -> ds <> [] ->
  cstr_unsigned_int T (pre ++ ds ++ 0 :: post) (length pre) =
    if (length ds <=? digits10 T)%nat then Ok (decimal ds) else Throw.
Proof.
  intros H F N. unfold cstr_unsigned_int.
  assert (FP : firstn (length pre) (pre ++ ds ++ 0 :: post) = pre) by (rewrite firstn_app, Nat.sub_diag, firstn_all, app_nil_r; reflexivity).
  rewrite (cstr_end_ok ds _ (length pre) post).
  - cbn [bind]. apply range_unsigned_ok; auto. exists pre, (0 :: post). auto.
  - rewrite FP. reflexivity.
  - rewrite FP. reflexivity.
  - intros I. rewrite Forall_forall in F. specialize (F 0 I). unfold digit in F. lia.
  - rewrite !app_length. cbn. lia.
Qed.

(** Nothing is rejected because of its characters. *)
Lemma unsigned_loop_any T : std_width (width T) -> wraps T -> forall count s a f l r, segment a f l s -> fits T r ->
  exists x, unsigned_loop T count a f l r = Ok ((f + Nat.min count (length s))%nat, x).
Proof.
  intros H WR. pose proof (std_pos _ H) as P.
  induction count as [|n IH]; intros s a f l r G R; cbn [unsigned_loop].
  - exists r. do 2 f_equal. cbn. lia.
  - destruct (seg_len _ _ _ _ G) as (_ & L & _). destruct s as [|c s].
    + cbn [length] in L. replace (f =? l)%nat with true by (symmetry; apply Nat.eqb_eq; lia). exists r. do 2 f_equal. cbn. lia.
    + cbn [length] in L. replace (f =? l)%nat with false by (symmetry; apply Nat.eqb_neq; lia).
      destruct (seg_cons _ _ _ _ _ G) as [RD G'].
      rewrite (assign_wraps T (r * 10)) by (auto; pose proof (narrow_range T r 10 0 H R); lia). cbn [bind]. rewrite RD. cbn [bind].
      assert (FN : fits T (from_num_char T c)) by (apply conv_fits; auto).
      assert (FR : fits T (conv T (r * 10))) by (apply conv_fits; auto).
      rewrite (assign_wraps T (conv T (r * 10) + from_num_char T c)).
      2, 3: auto.
      2:{ destruct (Z_lt_le_dec (width T) 32) as [LT | LT]; [left | auto].
          pose proof (fits_narrow T _ H LT FN). pose proof (fits_narrow T _ H LT FR). change (2 ^ 31) with 2147483648. lia. }
      cbn [bind]. destruct (IH s a (S f) l _ G' (conv_fits T (conv T (r * 10) + from_num_char T c) P)) as (x & E).
      exists x. rewrite E. do 2 f_equal. cbn. lia.
Qed.

Lemma unsigned_accepts T a f l c s : std_width (width T) -> wraps T -> segment a f l (c :: s) -> c <> 45 ->
  (length (c :: s) <= digits10 T)%nat -> exists x, range_unsigned_int T a f l = Ok x.
Proof.
  intros H WR G N L. destruct (seg_cons _ _ _ _ _ G) as [R _]. unfold range_unsigned_int. rewrite R. cbn [bind].
  replace (c =? 45) with false by lia. pose proof (highest_lowest T H).
  destruct (unsigned_loop_any T H WR (digits10 T) (c :: s) a f l 0 G ltac:(unfold fits; lia)) as (x & E).
  rewrite E. cbn [bind]. exists x. destruct (seg_len _ _ _ _ G) as (_ & LL & _).
  replace (f + Nat.min (digits10 T) (length (c :: s)) =? l)%nat with true by (symmetry; apply Nat.eqb_eq; lia). reflexivity.
Qed.

(** An empty range: the element at its end decides. *)
Lemma unsigned_empty T a f : std_width (width T) ->
  range_unsigned_int T a f f =
    match nth_error a f with None => UB | Some c => if c =? 45 then Throw else Ok 0 end.
Proof.
  intros H. unfold range_unsigned_int, rd. destruct (nth_error a f) as [c|]; cbn [bind]; [|reflexivity].
  destruct (c =? 45); [reflexivity|]. pose proof (digits10_pos T H). destruct (digits10 T) as [|n]; [lia|].
  cbn [unsigned_loop]. rewrite Nat.eqb_refl. cbn [bind]. rewrite Nat.eqb_refl. reflexivity.
Qed.

Lemma view_segment v l : valid v -> vmem v = Some l ->
  segment l (Z.to_nat (voff v)) (Z.to_nat (voff v + vsize v)) (chars v).
Proof.
  intros V M. pose proof (chars_hold v V) as Hd. unfold hold in Hd. rewrite M in Hd.
  destruct Hd as (x & y & E & L). pose proof (chars_length v V) as LC. destruct (valid_off v l V M).
  exists x, y. split; [exact E | split; lia].
Qed.

Lemma view_unsigned_ok T v : std_width (width T) -> valid v -> Forall digit (chars v) -> chars v <> [] ->
  view_unsigned_int T v = if (length (chars v) <=? digits10 T)%nat then Ok (decimal (chars v)) else Throw.
Proof.
  intros H V F N. unfold view_unsigned_int. destruct (vmem v) as [l|] eqn:M.
  - apply range_unsigned_ok; auto. apply view_segment; auto.
  - unfold chars in N. rewrite M in N. congruence.
Qed.

(** ** String literals *)

Lemma wrap32_char c k : char_range c -> 0 <= k <= 127 -> (k =? wrap 32 c) = (c =? k).
Proof.
  unfold char_range, wrap. intros R K.
  assert (E : c mod 2 ^ 32 = if c <? 0 then c + 2 ^ 32 else c).
  { destruct (Z.ltb_spec c 0).
    - symmetry. apply (Z.mod_unique_pos _ _ (-1)); [change (2 ^ 32) with 4294967296|]; lia.
    - apply Z.mod_small. change (2 ^ 32) with 4294967296. lia. }
  rewrite E. change (2 ^ 32) with 4294967296. destruct (c <? 0) eqn:L; lia.
Qed.

Lemma literal_loop_ok a l : forall body i prev rest found, segment a i l (prev :: body ++ rest) ->
  Forall char_range (prev :: body) -> no_quote prev body ->
  match rest with [] => True | c :: _ => c = 34 /\ last (prev :: body) 0 <> 92 end ->
  literal_loop (length (body ++ rest)) a 34 (S i) i found =
    Ok ((S i + length body)%nat,
        match rest with [] => match body with [] => found | _ => last body 0 =? 34 end | _ => true end).
Proof.
  induction body as [|c body IH]; intros i prev rest found G CR NQ R; cbn [app] in *.
  - destruct rest as [|c r].
    + cbn. do 2 f_equal. lia.
    + destruct (seg_cons _ _ _ _ _ G) as [R0 G1]. destruct (seg_cons _ _ _ _ _ G1) as [R1 _].
      cbn [length literal_loop]. rewrite R1. cbn [bind]. destruct R as [-> R]. cbn [last] in R.
      change (is_a 34 [34]) with true. cbn iota. rewrite R0. cbn [bind]. unfold is_escape.
      inversion CR; subst. rewrite wrap32_char by (auto; lia). replace (prev =? 92) with false by lia. cbn [negb].
      do 2 f_equal. lia.
  - destruct NQ as [NQ0 NQ]. destruct (seg_cons _ _ _ _ _ G) as [R0 G1]. destruct (seg_cons _ _ _ _ _ G1) as [R1 _].
    cbn [length literal_loop]. rewrite R1. cbn [bind].
    inversion CR as [|? ? CR0 CR']; subst.
    assert (STEP : literal_loop (length (body ++ rest)) a 34 (S (S i)) (S i) (is_a c [34]) =
      Ok ((S i + length (c :: body))%nat,
        match rest with [] => last (c :: body) 0 =? 34 | _ => true end)).
    { rewrite (IH (S i) c rest (is_a c [34]) G1 CR' NQ).
      - f_equal. f_equal; [cbn; lia|]. destruct rest; [|reflexivity]. destruct body; [|reflexivity].
        cbn [last]. unfold is_a. cbn [existsb]. rewrite orb_false_r. reflexivity.
      - destruct rest; auto. }
    destruct (is_a c [34]) eqn:Q.
    + apply is_a_in in Q. destruct Q as [<- | []]. rewrite R0. cbn [bind]. unfold is_escape.
      rewrite wrap32_char by (auto; lia). rewrite (NQ0 eq_refl). change (92 =? 92) with true. cbn [negb].
      rewrite STEP. destruct rest; reflexivity.
    + rewrite STEP. destruct rest; reflexivity.
Qed.

Lemma trim_left_none a f l c s : segment a f l (c :: s) -> ~ W c -> trim_left a f l = Ok (FR f l false).
Proof. intros G N. rewrite (trim_left_ok a f l [] c s G); auto. cbn. do 2 f_equal. lia. Qed.

Lemma not_white_34 : ~ W 34.
Proof. unfold blank. intros H. vm_compute in H. repeat (destruct H as [H | H]; [discriminate H|]). exact H. Qed.

Lemma literal_start a f l body : segment a f l (34 :: body) ->
  parse_string_literal a f l =
    (' (it, found) <- literal_loop (length body) a 34 (S f) f false ;;
     if negb (found : bool) then Throw else Ok (FR (S f) it true)).
Proof.
  intros G. destruct (seg_cons _ _ _ _ _ G) as [R _]. destruct (seg_len _ _ _ _ G) as (L1 & L2 & L3). cbn [length] in *.
  unfold parse_string_literal. rewrite (trim_left_none a f l 34 body G not_white_34). cbn [bind fr_first]. rewrite R. cbn [bind].
  change (is_quote 34) with true. cbn [negb].
  destruct (Nat.ltb_spec (length a) (S f)); [lia|]. replace (l - S f)%nat with (length body) by lia. reflexivity.
Qed.

Lemma literal_ok a f l body rest : segment a f l (34 :: body ++ 34 :: rest) -> Forall char_range body ->
  no_quote 34 body -> last (34 :: body) 0 <> 92 ->
  parse_string_literal a f l = Ok (FR (S f) (S f + length body) true).
Proof.
  intros G CR NQ L. rewrite (literal_start a f l _ G).
  rewrite (literal_loop_ok a l body f 34 (34 :: rest) false G).
  - reflexivity.
  - constructor; [unfold char_range; lia | auto].
  - auto.
  - auto.
Qed.

Lemma literal_open a f l body : segment a f l (34 :: body) -> Forall char_range body -> no_quote 34 body ->
  parse_string_literal a f l = if last body 0 =? 34 then Ok (FR (S f) l true) else Throw.
Proof.
  intros G CR NQ. rewrite (literal_start a f l _ G). pose proof (literal_loop_ok a l body f 34 [] false) as E.
  rewrite app_nil_r in E. rewrite E; auto; [|constructor; [unfold char_range; lia | auto]]. cbn [bind].
  destruct (seg_len _ _ _ _ G) as (L1 & L2 & L3). cbn [length] in L2.
  destruct body as [|c body]; [reflexivity|]. destruct (last (c :: body) 0 =? 34); cbn [negb]; [|reflexivity].
  do 2 f_equal. cbn [length] in *. lia.
Qed.

Lemma trim_left_total a f l s : segment a f l s -> exists r, trim_left a f l = Ok r.
Proof.
  intros G. unfold trim_left. rewrite (until_idx _ s a f l G). cbn [bind]. destruct (negb _); eexists; reflexivity.
Qed.

Lemma literal_other a f l c s : segment a f l (c :: s) -> char_range c -> c <> 34 -> parse_string_literal a f l = Throw.
Proof.
  intros G CR N. destruct (seg_cons _ _ _ _ _ G) as [R _]. unfold parse_string_literal.
  destruct (trim_left_total a f l _ G) as (r & E). rewrite E. cbn [bind]. rewrite R. cbn [bind].
  unfold is_quote. rewrite wrap32_char by (auto; lia). replace (c =? 34) with false by lia. reflexivity.
Qed.

Lemma c56_view_int_l :
  forall T v, std_width (width T) -> valid v ->
  (forall ds, chars v = ds -> Forall digit ds -> ds <> [] ->
     view_int T v = if (length ds <=? digits10 T)%nat then Ok (decimal ds) else Throw) /\
  (forall ds, chars v = 45 :: ds -> signed T = true -> Forall digit ds -> ds <> [] ->
     view_int T v = if (length ds <=? digits10 T)%nat then Ok (- decimal ds) else Throw).
Proof.
  intros T v H V. unfold view_int. split; intros ds E; intros; (destruct (vmem v) as [l|] eqn:M;
    [|unfold chars in E; rewrite M in E; congruence]).
  - apply range_int_plain; auto. rewrite <- E. apply view_segment; auto.
  - apply range_int_neg; auto. rewrite <- E. apply view_segment; auto.
Qed.

Lemma c101_find_first_of_value_l :
  forall v x, valid v ->
  exists k, find_first_of_value v x = Ok (Z.of_nat k) /\ stops (fun c => c = x) (chars v) k.
Proof.
  intros v x V. destruct (find_when_ok v (fun c => c =? x) V) as (k & E & S1 & S2 & S3). exists k. split; [exact E|].
  split; [exact S1|]. split; [revert S2; apply Forall_impl; intros c; rewrite Z.eqb_eq; auto|].
  destruct (skipn k (chars v)); [exact S3|]. now apply Z.eqb_eq.
Qed.

Lemma c101_classes_l :
  forall c,
  (is_alpha c = true <-> 65 <= c <= 90 \/ 97 <= c <= 122) /\
  (is_hex c = true <-> digit c \/ 65 <= c <= 70 \/ 97 <= c <= 102) /\
  (is_alphanumeric c = true <-> digit c \/ 65 <= c <= 90 \/ 97 <= c <= 122).
Proof.
  intros c. unfold is_alphanumeric, is_number, is_alpha, is_hex, in_range, digit. rewrite !Bool.orb_true_iff, !Bool.andb_true_iff, !Z.leb_le. lia.
Qed.

Lemma c105_not_empty_l :
  forall f l, assert_not_empty f l = Ok tt <-> f <> l.
Proof.
  intros f l. unfold assert_not_empty. destruct (Nat.eqb_spec f l); cbn [negb]; split; congruence.
Qed.

Lemma c109_from_to_values_l :
  forall a f l x y z from to rest t, segment a f l (x ++ from :: y ++ z) -> ~ In from x -> from <> to -> ~ In to y ->
  z = [] \/ z = to :: rest ->
  from_to a f l from to t =
    if t && (length z =? 0)%nat then Throw else Ok (FR (f + length x) (f + length x + S (length y)) true).
Proof.
  intros a f l x y z from to rest t G NX NE NY Z0. destruct (from_to_ok (fun c => is_a c [from]) (fun c => is_a c [to]) _ a f l t G) as (k & K & D).
  assert (IA : forall c d, is_a c [d] = true <-> c = d).
  { intros c d. unfold is_a. cbn [existsb]. rewrite Bool.orb_false_r. apply Z.eqb_eq. }
  assert (k = length x).
  { refine (stops_unique _ _ _ _ K _). unfold stops. rewrite app_length, firstn_app, skipn_app, Nat.sub_diag, firstn_all, skipn_all.
    cbn [firstn skipn app]. split; [lia|]. split; [|now apply IA]. rewrite app_nil_r. apply Forall_forall. intros c Hc J. apply IA in J. congruence. }
  subst k. assert (SK : skipn (length x) (x ++ from :: y ++ z) = from :: y ++ z) by (rewrite skipn_app, Nat.sub_diag, skipn_all; reflexivity).
  rewrite SK in D. destruct D as [(L & _) | (j & _ & J & E)].
  - rewrite app_length in L. cbn [length] in L. lia.
  - assert (j = S (length y)).
    { refine (stops_unique _ _ _ _ J _). unfold stops. cbn [firstn skipn length]. rewrite app_length, firstn_app, skipn_app, Nat.sub_diag, firstn_all, skipn_all.
      cbn [firstn skipn app]. split; [lia|]. rewrite app_nil_r. split.
      - constructor; [rewrite IA; exact NE|]. apply Forall_forall. intros c Hc Q. apply IA in Q. congruence.
      - destruct Z0 as [-> | ->]; [constructor|]. now apply IA. }
    subst j. unfold from_to. rewrite E. cbn [length]. rewrite app_length.
    replace (S (length y) =? S (length y + length z))%nat with (length z =? 0)%nat
      by (destruct (Nat.eqb_spec (length z) 0), (Nat.eqb_spec (S (length y)) (S (length y + length z))); try reflexivity; lia).
    reflexivity.
Qed.
