(** Proofs about the splitters and parse_to of ParseTo.v. *)
From Verif Require Import Common Ints Math SpecBits BitsModel BitsProofs StringView StringPop SpecString StringViewProofs
  StringPopProofs SpecParse ParseTo ParseToProofs.
From Coq Require Import Lia ZifyBool.
Open Scope Z_scope.
Local Arguments Z.mul : simpl never.
Local Arguments Z.add : simpl never.
Local Arguments Z.sub : simpl never.
Local Arguments Z.pow : simpl never.
Local Arguments Z.of_nat : simpl never.

(** ** get_positions over any splitter *)
Definition cuts (cut : list Z -> list Z -> list Z -> Prop) (sp : view -> res (Z * Z)) : Prop :=
  forall v, valid v -> exists a b, sp v = Ok (a, b) /\ 0 <= a < 2 ^ 64 /\ 0 <= b /\
    cut (chars v) (firstn (Z.to_nat a) (chars v)) (skipn (Z.to_nat b) (chars v)).

Lemma positions_pieces dbg cut sp : cuts cut sp -> forall n v, valid v ->
  exists vs, get_positions dbg n sp v = Ok vs /\ Forall valid vs /\ pieces cut n (chars v) (map chars vs).
Proof.
  intros C. induction n as [|n IH]; intros v V; cbn [get_positions].
  - exists []. split; [reflexivity | split; constructor].
  - destruct (C v V) as (a & b & E & RA & RB & K). rewrite E. cbn [bind].
    pose proof (vsize_range v) as SR.
    destruct (substr_ok dbg v 0 a V ltac:(lia) RA) as (f & S & VF & CF & _). rewrite S. cbn [bind].
    destruct (remove_prefix_ok v b V RB) as (v' & P & V' & CR & _). rewrite P. cbn [bind].
    destruct (IH v' V') as (vs & G & FV & PV). rewrite G. cbn [bind].
    exists (f :: vs). split; [reflexivity | split; [constructor; auto|]]. cbn [map].
    apply (pieces_cons cut n _ _ (chars v')); [|exact PV]. rewrite CF, CR. exact K.
Qed.

(** ** The delimiter *)
Lemma skipn_npos v : valid v -> skipn (Z.to_nat npos) (chars v) = [].
Proof. intros V. apply skipn_all2. apply npos_ge; auto. Qed.
Lemma firstn_npos v : valid v -> firstn (Z.to_nat npos) (chars v) = chars v.
Proof. intros V. apply firstn_all2. apply npos_ge; auto. Qed.

Lemma default_cuts d : valid d -> cuts (cut_text (chars d)) (default_splitter d).
Proof.
  intros D v V. unfold default_splitter.
  destruct (find0 v d V D) as (r & E & FW). rewrite E. cbn [bind].
  pose proof (chars_length v V) as LV. pose proof (chars_length d D) as LD.
  pose proof (vsize_range v) as SV. pose proof (vsize_range d) as SD.
  assert (Z63 : 2 ^ 64 = 2 * 2 ^ 63) by reflexivity.
  destruct FW as [(-> & NO) | (i & -> & OC & MIN)].
  - assert (B : (npos <? vsize v) = false) by (rewrite npos_val; lia). rewrite B.
    exists npos, npos. split; [reflexivity | split; [rewrite npos_val; lia | split; [rewrite npos_val; lia|]]].
    rewrite firstn_npos, skipn_npos by auto. right. auto.
  - pose proof (occurs_length _ _ _ OC) as OL.
    destruct (Z.ltb_spec (Z.of_nat i) (vsize v)) as [B | B].
    + exists (Z.of_nat i), (sz (Z.of_nat i + vsize d)). split; [reflexivity|].
      unfold sz. rewrite Z.mod_small by lia. split; [lia | split; [lia|]].
      rewrite !Nat2Z.id. replace (Z.to_nat (Z.of_nat i + vsize d)) with (i + length (chars d))%nat by lia.
      left. exists (chars d). destruct OC as (a & b & EQ & LA). rewrite EQ.
      assert (FA : firstn i (a ++ chars d ++ b) = a).
      { rewrite <- LA, firstn_app, Nat.sub_diag, firstn_all, app_nil_r. reflexivity. }
      rewrite FA. split; [|split; [reflexivity | split]].
      * f_equal. f_equal. rewrite app_assoc, <- LA, <- app_length, skipn_app, skipn_all, Nat.sub_diag. reflexivity.
      * exists a, b. auto.
      * rewrite LA, <- EQ. exact MIN.
    + (* the empty delimiter at the end of an empty text *)
      assert (ED : chars d = []) by (destruct (chars d); [auto | cbn in *; lia]).
      assert (I0 : i = 0%nat).
      { destruct i; [auto|]. exfalso. apply (MIN O); [lia|]. exists [], (chars v). rewrite ED. auto. }
      assert (EV : chars v = []) by (destruct (chars v); [auto | cbn in *; lia]).
      exists npos, npos. split; [reflexivity | split; [rewrite npos_val; lia | split; [rewrite npos_val; lia|]]].
      rewrite firstn_npos, skipn_npos by auto. rewrite EV, ED. left. exists [].
      split; [reflexivity | split; [reflexivity | split]].
      * exists [], []. auto.
      * cbn. lia.
Qed.

(** ** White space *)
Lemma index_ok dbg v i c : valid v -> nth_error (chars v) i = Some c -> sv_index dbg v (Z.of_nat i) = Ok c.
Proof.
  intros V E. unfold sv_index, chk. pose proof (chars_length v V).
  assert (i < length (chars v))%nat by (apply nth_error_Some; congruence).
  replace (Z.of_nat i <? vsize v) with true by lia. rewrite andb_false_r. cbn [bind]. apply vget_ok; auto.
Qed.

Lemma skipn_cons {A} (l : list A) n : (n < length l)%nat ->
  exists c, nth_error l n = Some c /\ skipn n l = c :: skipn (S n) l.
Proof.
  revert n. induction l as [|x l IH]; intros n L; [cbn in L; lia|]. destruct n as [|n].
  - exists x. auto.
  - destruct (IH n) as (c & E & S); [cbn in L; lia|]. exists c. auto.
Qed.

Lemma scan_ok dbg p v : valid v -> forall k n, (n + k = length (chars v))%nat ->
  scan_loop dbg p k v (Z.of_nat n) = Ok (Z.of_nat (n + idx (fun c => negb (p c)) (skipn n (chars v)))).
Proof.
  intros V. induction k as [|k IH]; intros n L; cbn [scan_loop].
  - rewrite skipn_all2 by lia. cbn [idx]. do 2 f_equal. lia.
  - destruct (skipn_cons (chars v) n ltac:(lia)) as (c & E & SK). rewrite (index_ok dbg v n c V E). cbn [bind].
    rewrite SK. cbn [idx]. destruct (p c); cbn [negb].
    + replace (Z.of_nat n + 1) with (Z.of_nat (n + 1)) by lia. rewrite IH by lia.
      do 2 f_equal. replace (n + 1)%nat with (S n) by lia. lia.
    + do 2 f_equal. lia.
Qed.

Lemma idx_split_at f s : Forall (fun c => f c = false) (firstn (idx f s) s) /\
  match skipn (idx f s) s with [] => True | c :: _ => f c = true end.
Proof.
  induction s as [|c s [F M]]; cbn [idx firstn skipn]; [auto|].
  destruct (f c) eqn:E; cbn [firstn skipn]; [auto|]. split; [constructor; auto | exact M].
Qed.

Lemma idx_none f s : idx f s = length s -> Forall (fun c => f c = false) s.
Proof. intros E. destruct (idx_split_at f s) as [F _]. rewrite E, firstn_all in F. exact F. Qed.

Lemma char_is_forall s P : (forall i, ~ char_is s P i) <-> Forall (fun c => ~ P c) s.
Proof.
  rewrite Forall_forall. split.
  - intros H c I PC. apply In_nth_error in I. destruct I as (i & E). apply (H i). exists c. auto.
  - intros H i (c & E & PC). apply (H c); auto. apply nth_error_In with i. auto.
Qed.

Lemma white_cuts dbg (skip : bool) :
  cuts (if skip then cut_white_run (fun c => uni_white (wrap 32 c)) else cut_white (fun c => uni_white (wrap 32 c)))
    (basic_whitespace_splitter dbg skip).
Proof.
  intros v V. unfold basic_whitespace_splitter. cbv zeta.
  pose proof (chars_length v V) as LV. pose proof (vsize_range v) as SV.
  assert (Z63 : 2 ^ 64 = 2 * 2 ^ 63) by reflexivity.
  set (W := fun c => uni_white (wrap 32 c)).
  assert (PW : forall c, is_unicode_whitespace c = false <-> ~ W c).
  { intros c. pose proof (unicode_white c) as U. fold (W c) in U. destruct (is_unicode_whitespace c); intuition congruence. }
  pose proof (scan_ok dbg not_unicode_whitespace v V (length (chars v)) 0 ltac:(lia)) as SC.
  change (Z.of_nat 0) with 0 in SC. replace (Z.to_nat (vsize v)) with (length (chars v)) by lia.
  rewrite SC. cbn [bind skipn]. rewrite Nat.add_0_l.
  set (f := fun c => negb (not_unicode_whitespace c)).
  assert (FW : forall c, f c = is_unicode_whitespace c).
  { intros c. unfold f, not_unicode_whitespace. apply negb_involutive. }
  set (k := idx f (chars v)). pose proof (idx_le f (chars v)) as KL. fold k in KL.
  destruct (idx_split_at f (chars v)) as [B A]. fold k in A, B.
  assert (B' : Forall (fun c => ~ W c) (firstn k (chars v))).
  { eapply Forall_impl; [|exact B]. cbn. intros c E. apply PW. rewrite <- FW. exact E. }
  destruct (Z.eqb_spec (Z.of_nat k) (vsize v)) as [EQ | NE].
  - assert (N : forall i, ~ char_is (chars v) W i).
    { apply char_is_forall. rewrite firstn_all2 in B' by lia. exact B'. }
    exists npos, npos. split; [reflexivity | split; [rewrite npos_val; lia | split; [rewrite npos_val; lia|]]].
    rewrite firstn_npos, skipn_npos by auto. destruct skip.
    + exists []. split; [right; auto|]. exists []. auto.
    + right. auto.
  - destruct (skipn_cons (chars v) k ltac:(lia)) as (c & EC & SK). rewrite SK in A.
    assert (WC : W c) by (apply unicode_white; rewrite <- FW; exact A).
    assert (LK : length (firstn k (chars v)) = k) by (rewrite firstn_length; lia).
    assert (MIN : forall j, (j < k)%nat -> ~ char_is (chars v) W j).
    { intros j J (x & EX & WX). rewrite Forall_forall in B'. apply (B' x); auto.
      apply nth_error_In with j. rewrite <- (firstn_skipn k (chars v)) in EX.
      rewrite nth_error_app1 in EX by lia. exact EX. }
    destruct skip; cbn [negb].
    + pose proof (scan_ok dbg is_unicode_whitespace v V (length (chars v) - k) k ltac:(lia)) as SC2.
      replace (Z.to_nat (vsize v - Z.of_nat k)) with (length (chars v) - k)%nat by lia.
      rewrite SC2. cbn [bind]. set (g := fun c => negb (is_unicode_whitespace c)). set (m := idx g (skipn k (chars v))).
      pose proof (idx_le g (skipn k (chars v))) as ML. rewrite skipn_length in ML. fold m in ML.
      exists (Z.of_nat k), (Z.of_nat (k + m)). split; [reflexivity | split; [lia | split; [lia|]]].
      rewrite !Nat2Z.id. exists (skipn k (chars v)). split.
      * left. exists []. rewrite LK. split; [cbn; symmetry; apply firstn_skipn | split; [reflexivity | split; [|exact MIN]]].
        exists c. auto.
      * destruct (idx_split_at g (skipn k (chars v))) as [GB GA]. fold m in GB, GA.
        exists (firstn m (skipn k (chars v))). rewrite <- skipn_skipn. split; [symmetry; apply firstn_skipn | split].
        -- eapply Forall_impl; [|exact GB]. cbn. unfold g. intros x E. apply unicode_white. destruct (is_unicode_whitespace x); auto.
        -- destruct (skipn m (skipn k (chars v))) as [|x]; [auto|]. apply PW. unfold g in GA. destruct (is_unicode_whitespace x); auto.
    + exists (Z.of_nat k), (sz (Z.of_nat k + 1)). unfold sz. rewrite Z.mod_small by lia.
      split; [reflexivity | split; [lia | split; [lia|]]]. rewrite Nat2Z.id.
      replace (Z.to_nat (Z.of_nat k + 1)) with (S k) by lia.
      left. exists [c]. rewrite LK. split; [|split; [reflexivity | split; [|exact MIN]]].
      * change ([c] ++ skipn (S k) (chars v)) with (c :: skipn (S k) (chars v)). rewrite <- SK. symmetry. apply firstn_skipn.
      * exists c. auto.
Qed.

(** ** Pieces of texts made of fields *)
Lemma app_inv_len {A} (a b c d : list A) : length a = length b -> a ++ c = b ++ d -> a = b /\ c = d.
Proof.
  revert b. induction a as [|x a IH]; intros [|y b] L E; try discriminate L; cbn in E; [auto|].
  injection E as -> E. destruct (IH b) as [-> ->]; auto.
Qed.

Lemma cut_first_unique Q len s f r f' r' : cut_first Q len s f r -> cut_first Q len s f' r' -> f = f' /\ r = r'.
Proof.
  intros [(d & E & L & Q1 & M) | (N & -> & ->)] [(d' & E' & L' & Q1' & M') | (N' & -> & ->)].
  - assert (LL : length f = length f').
    { destruct (Nat.lt_trichotomy (length f) (length f')) as [H | [H | H]]; auto; exfalso; [apply (M' _ H) | apply (M _ H)]; auto. }
    rewrite E in E'. apply app_inv_len in E'; auto. destruct E' as [-> E']. split; [auto|].
    apply app_inv_len in E'; [|lia]. tauto.
  - exfalso. apply (N' (length f)). auto.
  - exfalso. apply (N (length f')). auto.
  - auto.
Qed.

Lemma drops_front_unique W s r r' : drops_front W s r -> drops_front W s r' -> r = r'.
Proof.
  intros (a & -> & F & H) (a' & E & F' & H'). revert a' E F'.
  induction a as [|x a IH]; intros [|y a'] E F'; cbn in E.
  - exact E.
  - exfalso. inversion F'; subst. apply H; auto.
  - exfalso. inversion F; subst. apply H'; auto.
  - injection E as -> E. inversion F; inversion F'; subst. apply (IH H3 a'); auto.
Qed.

Definition functional (cut : list Z -> list Z -> list Z -> Prop) : Prop :=
  forall s f r f' r', cut s f r -> cut s f' r' -> f = f' /\ r = r'.

Lemma cut_text_fun d : functional (cut_text d).
Proof. intros s f r f' r'. apply cut_first_unique. Qed.
Lemma cut_white_fun W : functional (cut_white W).
Proof. intros s f r f' r'. apply cut_first_unique. Qed.
Lemma cut_white_run_fun W : functional (cut_white_run W).
Proof.
  intros s f r f' r' (t & C & D) (t' & C' & D'). destruct (cut_first_unique _ _ _ _ _ _ _ C C') as [-> ->].
  split; [reflexivity | exact (drops_front_unique _ _ _ _ D D')].
Qed.

Lemma pieces_unique cut : functional cut -> forall n s fs gs, pieces cut n s fs -> pieces cut n s gs -> fs = gs.
Proof.
  intros FU. induction n as [|n IH]; intros s fs gs P Q; inversion P; inversion Q; subst; [reflexivity|].
  destruct (FU _ _ _ _ _ H0 H5) as [-> ->]. f_equal. apply (IH rest0); auto.
Qed.

Lemma positions_are dbg cut sp n v fs : cuts cut sp -> functional cut -> valid v -> pieces cut n (chars v) fs ->
  exists vs, get_positions dbg n sp v = Ok vs /\ Forall valid vs /\ map chars vs = fs.
Proof.
  intros C FU V P. destruct (positions_pieces dbg cut sp C n v V) as (vs & E & F & Q).
  exists vs. split; [exact E | split; [exact F | exact (pieces_unique cut FU _ _ _ _ Q P)]].
Qed.

Lemma pieces_empty (cut : list Z -> list Z -> list Z -> Prop) n : cut [] [] [] -> pieces cut n [] (repeat [] n).
Proof. intros C. induction n as [|n IH]; cbn; [constructor | econstructor; eauto]. Qed.

(** Fields followed by separators, under a cut that takes them one by one. *)
Lemma pieces_items (cut : list Z -> list Z -> list Z -> Prop) : cut [] [] [] -> forall items last n,
  (forall pre p post, items = pre ++ p :: post -> cut (text_of (p :: post) last) (fst p) (text_of post last)) ->
  cut last last [] ->
  pieces cut n (text_of items last) (firstn n (map fst items ++ [last] ++ repeat [] n)).
Proof.
  intros C0. induction items as [|p items IH]; intros last n C CL.
  - destruct n as [|n]; [constructor|]. cbn [map app firstn]. apply (pieces_cons _ _ _ _ []); [exact CL|].
    replace (firstn n (repeat [] (S n))) with (repeat (@nil Z) n); [apply pieces_empty; auto|].
    clear. induction n as [|n IH]; [reflexivity|]. cbn. f_equal. exact IH.
  - destruct n as [|n]; [constructor|]. cbn [map app firstn].
    apply (pieces_cons _ _ _ _ (text_of items last)); [apply (C []); reflexivity|].
    replace (firstn n (map fst items ++ last :: repeat [] (S n))) with (firstn n (map fst items ++ [last] ++ repeat [] n)).
    + apply IH; auto. intros pre q post E. apply (C (p :: pre)). rewrite E. reflexivity.
    + cbn [app]. rewrite !firstn_app. f_equal. destruct (n - length (map fst items))%nat as [|m] eqn:M; [reflexivity|].
      cbn [firstn]. f_equal. assert (m <= n)%nat by lia. clear - H. revert n H.
      induction m as [|m IH]; intros n H; [reflexivity|]. destruct n; [lia|]. cbn. f_equal. apply (IH n). lia.
Qed.

Lemma text_cons p items last : text_of (p :: items) last = fst p ++ snd p ++ text_of items last.
Proof. unfold text_of. cbn. rewrite <- !app_assoc. reflexivity. Qed.

Lemma occurs_nil d i : d <> [] -> ~ occurs [] d i.
Proof. intros N O. apply occurs_length in O. destruct d; [congruence | cbn in O; lia]. Qed.

Lemma occurs_prefix s t d i : occurs (s ++ t) d i -> (i + length d <= length s)%nat -> occurs s d i.
Proof.
  intros (a & b & E & L) B. exists a, (firstn (length s - length a - length d) b). split; [|exact L].
  assert (E2 : firstn (length s) (s ++ t) = s) by (rewrite firstn_app, Nat.sub_diag, firstn_all, app_nil_r; reflexivity).
  rewrite <- E2 at 1. rewrite E. rewrite firstn_app, (firstn_all2 a) by lia. f_equal.
  rewrite firstn_app, (firstn_all2 d) by lia. reflexivity.
Qed.

Lemma cut_field d f rest : d <> [] -> ends_field d f -> cut_text d (f ++ d ++ rest) f rest.
Proof.
  intros N E. left. exists d. split; [reflexivity | split; [reflexivity | split]].
  - exists f, rest. auto.
  - intros j J O. assert (EQ : j = length f); [|lia]. apply E.
    rewrite app_assoc in O. apply (occurs_prefix _ rest); auto. rewrite app_length. lia.
Qed.

Lemma join_text d fs last : join d (fs ++ [last]) = text_of (map (fun f => (f, d)) fs) last.
Proof.
  induction fs as [|f fs IH]; [reflexivity|]. cbn [map]. rewrite text_cons. cbn [fst snd]. rewrite <- IH.
  cbn [app]. destruct (fs ++ [last]) eqn:E; [destruct fs; discriminate|]. reflexivity.
Qed.

Lemma fields_pieces d fs last n : d <> [] -> Forall (ends_field d) fs -> (forall i, ~ occurs last d i) ->
  pieces (cut_text d) n (join d (fs ++ [last])) (firstn n (fs ++ [last] ++ repeat [] n)).
Proof.
  intros N F L. rewrite join_text.
  assert (M : map fst (map (fun f : list Z => (f, d)) fs) = fs) by (rewrite map_map, map_id; reflexivity).
  rewrite <- M at 2. apply pieces_items.
  - right. split; [intros i; apply occurs_nil; auto | auto].
  - intros pre p post E. rewrite text_cons.
    assert (I : In p (map (fun f : list Z => (f, d)) fs)) by (rewrite E; apply in_or_app; right; left; reflexivity).
    apply in_map_iff in I. destruct I as (f & <- & I). cbn [fst snd]. apply cut_field; auto.
    rewrite Forall_forall in F. auto.
  - right. auto.
Qed.

Lemma split_fields dbg v dv n fs last : valid v -> valid dv -> chars dv <> [] ->
  chars v = join (chars dv) (fs ++ [last]) ->
  Forall (ends_field (chars dv)) fs -> (forall i, ~ occurs last (chars dv) i) ->
  exists vs, get_positions dbg n (default_splitter dv) v = Ok vs /\ Forall valid vs /\
    map chars vs = firstn n (fs ++ [last] ++ repeat [] n).
Proof.
  intros V D N E F L. apply (positions_are dbg (cut_text (chars dv))); auto.
  - apply default_cuts; auto.
  - apply cut_text_fun.
  - rewrite E. apply fields_pieces; auto.
Qed.

Lemma occurs_single c s i : occurs s [c] i -> In c s.
Proof. intros (a & b & -> & _). apply in_or_app. right. left. reflexivity. Qed.

Lemma ends_single c f : ~ In c f -> ends_field [c] f.
Proof.
  intros N i O. pose proof (occurs_length _ _ _ O) as L. rewrite app_length in L. cbn in L.
  destruct (Nat.eq_dec i (length f)) as [|NE]; [auto|]. exfalso. apply N. apply (occurs_single c f i).
  apply (occurs_prefix f [c]); auto. cbn. lia.
Qed.

Lemma split_char dbg v dv n fs c : valid v -> valid dv -> chars dv = [c] -> fs <> [] ->
  chars v = join [c] fs -> Forall (fun f => ~ In c f) fs ->
  exists vs, get_positions dbg n (default_splitter dv) v = Ok vs /\ Forall valid vs /\
    map chars vs = firstn n (fs ++ repeat [] n).
Proof.
  intros V D EC N E F. destruct (exists_last N) as (l & x & ->). apply Forall_app in F. destruct F as [F FX].
  rewrite <- app_assoc. apply split_fields; auto.
  - rewrite EC. discriminate.
  - rewrite EC. exact E.
  - rewrite EC. eapply Forall_impl; [|exact F]. intros f. apply ends_single.
  - intros i O. rewrite EC in O. apply occurs_single in O. inversion FX; auto.
Qed.

(** Exactly as many fields as asked for. *)
Lemma firstn_exact {A} (fs pad : list A) : firstn (length fs) (fs ++ pad) = fs.
Proof. rewrite firstn_app, Nat.sub_diag, firstn_all, app_nil_r. reflexivity. Qed.

(** ** White space separated fields *)
Lemma char_is_nil P i : ~ char_is [] P i.
Proof. intros (c & E & _). destruct i; discriminate. Qed.

Lemma cut_white_first W f w rest len : Forall (fun c => ~ W c) f -> W w -> (len <= 1)%nat ->
  cut_first (char_is (f ++ w :: rest) W) len (f ++ w :: rest) f (skipn len (w :: rest)).
Proof.
  intros F H L. left. exists (firstn len [w]). split; [|split; [|split]].
  - f_equal. destruct len as [|[|]]; [reflexivity | reflexivity | lia].
  - destruct len as [|[|]]; [reflexivity | reflexivity | lia].
  - exists w. split; [|exact H]. rewrite nth_error_app2, Nat.sub_diag by lia. reflexivity.
  - intros j J (c & E & WC). rewrite nth_error_app1 in E by lia. rewrite Forall_forall in F.
    apply (F c); auto. apply nth_error_In with j. auto.
Qed.

Lemma cut_white_end W f len : Forall (fun c => ~ W c) f -> cut_first (char_is f W) len f f [].
Proof. intros F. right. split; [apply char_is_forall; auto | auto]. Qed.

Lemma split_white dbg v n items last : let W := fun c => uni_white (wrap 32 c) in
  valid v -> chars v = text_of items last ->
  Forall (fun p => Forall (fun c => ~ W c) (fst p) /\ exists w, W w /\ snd p = [w]) items ->
  Forall (fun c => ~ W c) last ->
  exists vs, get_positions dbg n (single_whitespace_splitter dbg) v = Ok vs /\ Forall valid vs /\
    map chars vs = firstn n (map fst items ++ [last] ++ repeat [] n).
Proof.
  intros W V E F L. apply (positions_are dbg (cut_white W)); auto.
  - exact (white_cuts dbg false).
  - apply cut_white_fun.
  - rewrite E. apply pieces_items.
    + apply cut_white_end. constructor.
    + intros pre p post EQ. rewrite Forall_forall in F. destruct (F p) as (FP & w & WW & EW).
      { rewrite EQ. apply in_or_app. right. left. reflexivity. }
      rewrite text_cons, EW. exact (cut_white_first W (fst p) w (text_of post last) 1 FP WW ltac:(auto)).
    + apply cut_white_end. auto.
Qed.

Definition starts_plain (W : Z -> Prop) (s : list Z) : Prop := match s with [] => True | c :: _ => ~ W c end.

Lemma split_white_runs dbg v n items last : let W := fun c => uni_white (wrap 32 c) in
  valid v -> chars v = text_of items last ->
  Forall (fun p => Forall (fun c => ~ W c) (fst p) /\ Forall W (snd p) /\ snd p <> []) items ->
  Forall (fun p => fst p <> []) (tl items) -> Forall (fun c => ~ W c) last ->
  exists vs, get_positions dbg n (whitespace_splitter dbg) v = Ok vs /\ Forall valid vs /\
    map chars vs = firstn n (map fst items ++ [last] ++ repeat [] n).
Proof.
  intros W V E F NE L. apply (positions_are dbg (cut_white_run W)); auto.
  - exact (white_cuts dbg true).
  - apply cut_white_run_fun.
  - rewrite E. apply pieces_items.
    + exists []. split; [apply cut_white_end; constructor | exists []; auto].
    + intros pre p post EQ. rewrite Forall_forall in F. destruct (F p) as (FP & FW & N).
      { rewrite EQ. apply in_or_app. right. left. reflexivity. }
      rewrite text_cons. destruct (snd p) as [|w ws]; [congruence|]. inversion FW; subst.
      exists ((w :: ws) ++ text_of post last). split.
      * exact (cut_white_first W (fst p) w (ws ++ text_of post last) 0 FP H1 ltac:(auto)).
      * exists (w :: ws). split; [reflexivity | split; [auto|]].
        destruct post as [|q post].
        -- unfold text_of. cbn. destruct last; [auto|]. inversion L; auto.
        -- assert (Q : fst q <> []).
           { rewrite Forall_forall in NE. apply NE. destruct pre; cbn; [left; auto|].
             apply in_or_app. right. right. left. reflexivity. }
           rewrite text_cons. destruct (F q) as (FQ & _).
           { apply in_or_app. right. right. left. reflexivity. }
           destruct (fst q); [congruence|]. cbn. inversion FQ; auto.
    + exists []. split; [apply cut_white_end; auto | exists []; auto].
Qed.

(** ** parse_to *)
Lemma plain_parses dbg T v x : std_width (width T) -> valid v -> plain_number T (chars v) x -> parse_to_value dbg T v = Ok x.
Proof.
  intros H V (NT & F & U & L & LO). apply parse_representable; auto.
  - intros SG t E. apply (U SG). rewrite E. left. reflexivity.
  - destruct LO as [LO | LO]; [right; right; lia | auto].
Qed.

Lemma values_ok dbg : forall Ts vs xs, Forall (fun T => std_width (width T)) Ts -> Forall valid vs ->
  Forall2 (fun (Tf : ity * list Z) x => plain_number (fst Tf) (snd Tf) x) (combine Ts (map chars vs)) xs ->
  length vs = length Ts -> values_from_views dbg Ts vs = Ok xs.
Proof.
  induction Ts as [|T Ts IH]; intros vs xs H V F L; destruct vs as [|v vs]; try discriminate L.
  - inversion F. reflexivity.
  - cbn [map combine] in F. inversion F as [|? x ? xs' P F']; subst. cbn [fst snd] in P.
    inversion H; inversion V; subst. cbn [values_from_views].
    rewrite (plain_parses dbg T v x) by auto. cbn [bind]. rewrite (IH vs xs'); auto.
Qed.

Lemma parse_to_fields dbg Ts v dv fs last xs : Forall (fun T => std_width (width T)) Ts ->
  valid v -> valid dv -> chars dv <> [] ->
  chars v = join (chars dv) (fs ++ [last]) -> length Ts = S (length fs) ->
  Forall (ends_field (chars dv)) fs -> (forall i, ~ occurs last (chars dv) i) ->
  Forall2 (fun (Tf : ity * list Z) x => plain_number (fst Tf) (snd Tf) x) (combine Ts (fs ++ [last])) xs ->
  parse_to dbg Ts v dv = Ok xs.
Proof.
  intros H V D N E LT F L P. unfold parse_to, parse_to_with.
  destruct (split_fields dbg v dv (length Ts) fs last V D N E F L) as (vs & G & FV & M).
  assert (M' : map chars vs = fs ++ [last]).
  { rewrite M. rewrite app_assoc. replace (length Ts) with (length (fs ++ [last])) by (rewrite app_length; cbn; lia).
    apply firstn_exact. }
  rewrite G. cbn [bind]. apply values_ok; auto.
  - rewrite M'. exact P.
  - rewrite <- (map_length chars vs), M', app_length. cbn. lia.
Qed.
