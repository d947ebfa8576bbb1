(** Proofs about ContainerHelp.v. *)
From Verif Require Import Common ContainerHelp SpecContainerHelp.
From Verif Require ErasedProofs SmallClassesProofs.
Import ErasedProofs (upd_length_e, upd_upd, upd_app_l).
Import SmallClassesProofs (nth_error_upd).

(** * Destroying *)
Lemma destroy_down_ok : forall n cells, (forall k, k < n -> exists v, nth_error cells k = Some (Some v)) ->
  exists cells2, destroy_down cells n = Ok cells2 /\ length cells2 = length cells.
Proof.
  induction n as [|n IH]; intros cells H; [eexists; split; reflexivity|].
  cbn [destroy_down]. destruct (H n (Nat.lt_succ_diag_r n)) as [v ->].
  destruct (IH (upd cells n None)) as [c2 [E L]].
  - intros k K. rewrite nth_error_upd. destruct (Nat.eqb_spec k n); [lia|]. apply H. lia.
  - exists c2. split; [exact E|]. now rewrite L, upd_length_e.
Qed.
Lemma destroy_down_bad : forall n cells, (exists k, k < n /\ forall v, nth_error cells k <> Some (Some v)) ->
  destroy_down cells n = UB.
Proof.
  induction n as [|n IH]; intros cells [k [K H]]; [lia|]. cbn [destroy_down].
  destruct (nth_error cells n) as [[v|]|] eqn:E; [|reflexivity..].
  apply IH. exists k. assert (k <> n) by (intros ->; apply (H v E)).
  split; [lia|]. intros w. rewrite nth_error_upd. destruct (Nat.eqb_spec k n); [lia|]. apply H.
Qed.
Lemma filled_length : forall vs cap, length vs <= cap -> length (snd (filled vs cap)) = cap.
Proof. intros. cbn. rewrite app_length, map_length, repeat_length. lia. Qed.
Lemma filled_cell : forall vs cap k, k < length vs -> exists v, nth_error (snd (filled vs cap)) k = Some (Some v).
Proof.
  intros vs cap k K. cbn. rewrite nth_error_app1 by now rewrite map_length. rewrite nth_error_map.
  destruct (nth_error vs k) as [v|] eqn:E; [exists v; reflexivity|]. apply nth_error_None in E. lia.
Qed.
Lemma filled_gap : forall vs cap k, length vs <= k -> forall v, nth_error (snd (filled vs cap)) k <> Some (Some v).
Proof.
  intros vs cap k K v. cbn. rewrite nth_error_app2 by now rewrite map_length. intros E.
  apply nth_error_In, repeat_spec in E. discriminate.
Qed.

(** * The relation between the program and the values *)
Definition rel1 (tr : bool) (bs : list block) (o : option owner) (a : option aobj) : Prop :=
  match o, a with
  | None, None => True
  | Some o, Some x =>
      o_kind o = a_kind x /\ o_size o = length (a_vals x) /\ o_cap o = a_cap x /\
      match o_buf o with
      | None => a_vals x = [] /\ a_cap x = 0
      | Some b => 0 < a_cap x /\ length (a_vals x) <= a_cap x /\ (tr = false -> length (a_vals x) = a_cap x) /\
                  nth_error bs b = Some (filled (a_vals x) (a_cap x))
      end
  | _, _ => False
  end.
Record R (tr : bool) (bs : list block) (objs : list (option owner)) (a : list (option aobj)) : Prop := mkR {
  r_len : length objs = length a;
  r_rel : forall i o x, nth_error objs i = Some o -> nth_error a i = Some x -> rel1 tr bs o x;
  r_uniq : forall i j oi oj b, nth_error objs i = Some (Some oi) -> nth_error objs j = Some (Some oj) ->
           o_buf oi = Some b -> o_buf oj = Some b -> i = j;
  r_cov : forall b cells, nth_error bs b = Some (true, cells) -> exists i o, nth_error objs i = Some (Some o) /\ o_buf o = Some b }.

Lemma R0 : forall tr, R tr [] [] [].
Proof.
  intros tr. constructor; [reflexivity|..].
  - intros i o x H. now destruct i.
  - intros i j oi oj b H. now destruct i.
  - intros b cells H. now destruct b.
Qed.
Lemma get_R : forall tr bs objs a i, R tr bs objs a ->
  match get_obj (mk_hst bs objs) i, a_get a i with
  | Some o, Some x => nth_error objs i = Some (Some o) /\ nth_error a i = Some (Some x) /\ rel1 tr bs (Some o) (Some x)
  | None, None => upd a i None = a
  | _, _ => False
  end.
Proof.
  intros tr bs objs a i H. unfold get_obj, a_get. cbn [h_objs].
  destruct (nth_error objs i) as [o|] eqn:E.
  - assert (L : i < length a) by (rewrite <- (r_len _ _ _ _ H); apply nth_error_Some; congruence).
    destruct (nth_error a i) as [x|] eqn:E2; [|apply nth_error_None in E2; lia].
    pose proof (r_rel _ _ _ _ H i o x E E2) as Q. destruct o as [o|], x as [x|]; cbn in Q; try contradiction.
    + auto.
    + now apply SmallClassesProofs.upd_same_id.
  - destruct (nth_error a i) as [x|] eqn:E2.
    + assert (i < length a) by (apply nth_error_Some; congruence). rewrite <- (r_len _ _ _ _ H) in H0.
      apply nth_error_Some in H0. congruence.
    + clear - E2. revert i E2. induction a as [|y a IH]; intros [|i] E; cbn in *; try reflexivity; try discriminate.
      now rewrite IH.
Qed.
(** What is left of the blocks when the object [o] gives its block back. *)
Definition freed (bs : list block) (o : owner) (bs2 : list block) : Prop :=
  match o_buf o with
  | None => bs2 = bs
  | Some b => exists cells, bs2 = upd bs b (false, cells)
  end.
Lemma rel1_none : forall tr bs bs2 o x, o_buf o = None -> rel1 tr bs (Some o) x -> rel1 tr bs2 (Some o) x.
Proof. intros tr bs bs2 o [x|] H Q; cbn in *; [|contradiction]. rewrite H in *. exact Q. Qed.
Lemma R_release : forall tr bs bs2 objs a i o new newa,
  R tr bs objs a -> nth_error objs i = Some (Some o) -> freed bs o bs2 ->
  (forall n, new = Some n -> o_buf n = None) -> rel1 tr bs new newa ->
  R tr bs2 (upd objs i new) (upd a i newa).
Proof.
  intros tr bs bs2 objs a i o new newa H E F NB Q. destruct H as [HL HR HU HC].
  assert (SAME : forall j b oj, j <> i -> nth_error objs j = Some (Some oj) -> o_buf oj = Some b -> nth_error bs2 b = nth_error bs b).
  { intros j b oj N Ej B. unfold freed in F. destruct (o_buf o) as [b0|] eqn:B0; [|now subst bs2].
    destruct F as [cells ->]. rewrite nth_error_upd. destruct (Nat.eqb_spec b b0) as [->|]; [|reflexivity].
    exfalso. apply N. exact (HU _ _ _ _ _ Ej E B B0). }
  constructor.
  - now rewrite !upd_length_e.
  - intros j oj xj. rewrite !nth_error_upd. destruct (Nat.eqb_spec j i) as [->|N].
    + rewrite E. intros G1. destruct (nth_error a i); [|discriminate]. intros G2. injection G1 as <-. injection G2 as <-.
      destruct new as [n|]; [|exact Q]. apply (rel1_none _ bs); auto.
    + intros G1 G2. pose proof (HR j oj xj G1 G2) as Q2. destruct oj as [oj|], xj as [xj|]; cbn in Q2 |- *; auto.
      destruct (o_buf oj) as [b|] eqn:B; [|exact Q2]. now rewrite (SAME j b oj N G1 B).
  - intros j k oj ok b. rewrite !nth_error_upd. rewrite !E.
    destruct (Nat.eqb_spec j i) as [->|N]; intros G1; [injection G1 as G1; intros _ B; rewrite (NB oj G1) in B; discriminate|].
    destruct (Nat.eqb_spec k i) as [->|N2]; intros G2; [injection G2 as G2; intros _ B; rewrite (NB ok G2) in B; discriminate|].
    apply (HU j k oj ok b G1 G2).
  - intros b cells G.
    assert (D : nth_error bs b = Some (true, cells) /\ o_buf o <> Some b).
    { unfold freed in F. destruct (o_buf o) as [b0|]; [|subst bs2; split; [exact G|discriminate]].
      destruct F as [c ->]. rewrite nth_error_upd in G. destruct (Nat.eqb_spec b b0) as [->|N].
      - destruct (nth_error bs b0); discriminate.
      - split; [exact G|]. congruence. }
    destruct D as [D1 D2]. destruct (HC b cells D1) as [j [oj [J B]]].
    assert (j <> i) by (intros ->; rewrite E in J; injection J as ->; contradiction).
    exists j, oj. rewrite nth_error_upd. destruct (Nat.eqb_spec j i); [contradiction|]. auto.
Qed.
Lemma nth_error_snoc : forall T (l : list T) x i,
  nth_error (l ++ [x]) i = if i =? length l then Some x else nth_error l i.
Proof.
  intros T l x i. destruct (Nat.eqb_spec i (length l)) as [->|N].
  - rewrite nth_error_app2 by lia. now rewrite Nat.sub_diag.
  - destruct (Nat.lt_ge_cases i (length l)) as [L|L]; [now rewrite nth_error_app1|].
    rewrite nth_error_app2 by lia. replace (nth_error l i) with (@None T) by (symmetry; apply nth_error_None; lia).
    destruct (i - length l) as [|m] eqn:D; [lia|]. cbn. now destruct m.
Qed.
Lemma R_append : forall tr bs objs a k, R tr bs objs a ->
  R tr bs (objs ++ [Some (mk_owner k None 0 0)]) (a ++ [Some (mk_aobj k [] 0)]).
Proof.
  intros tr bs objs a k [HL HR HU HC]. constructor.
  - rewrite !app_length. cbn. lia.
  - intros i o x. rewrite !nth_error_snoc, <- HL. destruct (i =? length objs); [|apply HR].
    intros G1 G2. injection G1 as <-. injection G2 as <-. cbn. auto.
  - intros i j oi oj b. rewrite !nth_error_snoc.
    destruct (i =? length objs); intros G1; [injection G1 as <-; intros _ B; discriminate|].
    destruct (j =? length objs); intros G2; [injection G2 as <-; intros _ B; discriminate|].
    apply (HU i j oi oj b G1 G2).
  - intros b cells G. destruct (HC b cells G) as [i [o [E B]]]. exists i, o. split; [|exact B].
    rewrite nth_error_app1; [exact E|]. apply nth_error_Some. congruence.
Qed.
Lemma R_own : forall tr bs objs a i o vs cap, R tr bs objs a -> nth_error objs i = Some (Some o) -> o_buf o = None ->
  0 < cap -> length vs <= cap -> (tr = false -> length vs = cap) ->
  R tr (bs ++ [filled vs cap]) (upd objs i (Some (mk_owner IsVec (Some (length bs)) (length vs) cap)))
    (upd a i (Some (mk_aobj IsVec vs cap))).
Proof.
  intros tr bs objs a i o vs cap [HL HR HU HC] E B C0 C1 C2.
  assert (IN : forall j oj xj b, nth_error objs j = Some (Some oj) -> nth_error a j = Some xj -> o_buf oj = Some b -> b < length bs).
  { intros j oj xj b G1 G2 G3. pose proof (HR _ _ _ G1 G2) as Q. destruct xj as [xj|]; cbn in Q; [|contradiction].
    rewrite G3 in Q. apply nth_error_Some. destruct Q as (_ & _ & _ & _ & _ & _ & Q). congruence. }
  assert (IN2 : forall j oj b, nth_error objs j = Some (Some oj) -> o_buf oj = Some b -> b < length bs).
  { intros j oj b G1 G3. destruct (nth_error a j) as [xj|] eqn:G2; [exact (IN j oj xj b G1 G2 G3)|].
    apply nth_error_None in G2. rewrite <- HL in G2. apply nth_error_None in G2. congruence. }
  constructor.
  - now rewrite !upd_length_e.
  - intros j oj xj. rewrite !nth_error_upd. destruct (Nat.eqb_spec j i) as [->|N].
    + rewrite E. intros G1. destruct (nth_error a i); [|discriminate]. intros G2. injection G1 as <-. injection G2 as <-.
      cbn. rewrite nth_error_snoc, Nat.eqb_refl. auto 10.
    + intros G1 G2. pose proof (HR j oj xj G1 G2) as Q2. destruct oj as [oj|], xj as [xj|]; cbn in Q2 |- *; auto.
      destruct (o_buf oj) as [b|] eqn:B2; [|exact Q2]. rewrite nth_error_app1; [exact Q2|].
      exact (IN2 j oj b G1 B2).
  - intros j k oj ok b. rewrite !nth_error_upd, !E.
    destruct (Nat.eqb_spec j i) as [->|N]; intros G1.
    + injection G1 as <-. destruct (Nat.eqb_spec k i) as [->|N2]; intros G2; [auto|]. cbn [o_buf]. intros B1 B2. injection B1 as <-.
      pose proof (IN2 k ok _ G2 B2). lia.
    + destruct (Nat.eqb_spec k i) as [->|N2]; intros G2 B1 B2.
      * injection G2 as <-. cbn [o_buf] in B2. injection B2 as <-. pose proof (IN2 j oj _ G1 B1). lia.
      * exact (HU _ _ _ _ _ G1 G2 B1 B2).
  - intros b cells. rewrite nth_error_snoc. destruct (Nat.eqb_spec b (length bs)) as [->|N]; intros G.
    + exists i. eexists. rewrite nth_error_upd, Nat.eqb_refl, E. split; reflexivity.
    + destruct (HC b cells G) as [j [oj [J B2]]]. exists j, oj. rewrite nth_error_upd.
      destruct (Nat.eqb_spec j i) as [->|]; [|auto]. rewrite E in J. injection J as ->. congruence.
Qed.
Lemma R_extract : forall tr bs objs a i o x, R tr bs objs a ->
  nth_error objs i = Some (Some o) -> nth_error a i = Some (Some x) ->
  R tr bs (upd objs i (Some (mk_owner IsVec None 0 0)) ++ [Some (mk_owner IsData (o_buf o) (o_size o) (o_cap o))])
    (upd a i (Some (mk_aobj IsVec [] 0)) ++ [Some (mk_aobj IsData (a_vals x) (a_cap x))]).
Proof.
  intros tr bs objs a i o x [HL HR HU HC] E X. pose proof (HR _ _ _ E X) as Q0.
  assert (IL : i < length objs) by (apply nth_error_Some; congruence).
  constructor.
  - rewrite !app_length, !upd_length_e. cbn. lia.
  - intros j oj xj. rewrite !nth_error_snoc, !upd_length_e, <- HL. destruct (Nat.eqb_spec j (length objs)) as [->|N].
    + intros G1 G2. injection G1 as <-. injection G2 as <-. cbn in *. tauto.
    + rewrite !nth_error_upd, E, X. destruct (Nat.eqb_spec j i) as [->|N2]; [|apply HR].
      intros G1 G2. injection G1 as <-. injection G2 as <-. cbn. auto.
  - intros j k oj ok b. rewrite !nth_error_snoc, !upd_length_e, !nth_error_upd, !E.
    destruct (Nat.eqb_spec j (length objs)) as [->|N]; intros G1.
    + injection G1 as <-. cbn [o_buf]. destruct (Nat.eqb_spec k (length objs)) as [->|N2]; intros G2; [auto|].
      destruct (Nat.eqb_spec k i) as [->|N3]; [injection G2 as <-; intros _ B; discriminate|].
      intros B1 B2. exfalso. apply N3. exact (HU _ _ _ _ _ G2 E B2 B1).
    + destruct (Nat.eqb_spec j i) as [->|N3]; [injection G1 as <-; intros _ B; discriminate|].
      destruct (Nat.eqb_spec k (length objs)) as [->|N2]; intros G2.
      * injection G2 as <-. cbn [o_buf]. intros B1 B2. exfalso. apply N3. exact (HU _ _ _ _ _ G1 E B1 B2).
      * destruct (Nat.eqb_spec k i) as [->|N4]; [injection G2 as <-; intros _ B; discriminate|].
        apply (HU _ _ _ _ _ G1 G2).
  - intros b cells G. destruct (HC b cells G) as [j [oj [J B]]].
    destruct (Nat.eq_dec j i) as [->|N].
    + rewrite E in J. injection J as <-. exists (length objs). eexists. rewrite nth_error_snoc, upd_length_e, Nat.eqb_refl.
      split; [reflexivity|exact B].
    + exists j, oj. rewrite nth_error_snoc, upd_length_e. assert (j < length objs) by (apply nth_error_Some; congruence).
      destruct (Nat.eqb_spec j (length objs)); [lia|]. rewrite nth_error_upd. destruct (Nat.eqb_spec j i); [contradiction|]. auto.
Qed.

(** * Giving blocks back *)
Lemma dealloc_ok : forall (bs : list block) b n cells, nth_error bs b = Some (true, cells) -> n = length cells ->
  dealloc bs b n = Ok (upd bs b (false, cells)).
Proof. intros bs b n cells E L. unfold dealloc. rewrite E. subst n. now rewrite Nat.eqb_refl. Qed.
(** Destroying the [n] elements and deallocating. *)
Lemma free_ok : forall tr (bs : list block) b vs cap n, nth_error bs b = Some (filled vs cap) -> length vs <= cap ->
  (tr = false -> n <= length vs) -> exists cells bs1,
  destroy_n tr bs b n = Ok bs1 /\ dealloc bs1 b cap = Ok (upd bs b (false, cells)) /\ length bs1 = length bs.
Proof.
  intros tr bs b vs cap n E L N. unfold destroy_n. rewrite E. cbn [filled]. destruct tr.
  - exists (snd (filled vs cap)), bs. split; [reflexivity|]. split; [|reflexivity]. apply dealloc_ok; [exact E|].
    symmetry. now apply filled_length.
  - destruct (destroy_down_ok n (snd (filled vs cap))) as [c2 [D LC]].
    { intros k K. apply filled_cell. specialize (N eq_refl). lia. }
    cbn [filled snd] in D. rewrite D. cbn [bind]. exists c2, (upd bs b (true, c2)). split; [reflexivity|].
    split; [|apply upd_length_e]. rewrite (dealloc_ok _ b cap c2).
    + now rewrite upd_upd.
    + rewrite nth_error_upd, Nat.eqb_refl, E. reflexivity.
    + rewrite LC. symmetry. now apply filled_length.
Qed.
Lemma data_reset_ok : forall tr bs o x, rel1 tr bs (Some o) (Some x) -> exists bs2,
  data_reset tr bs o = Ok (bs2, mk_owner (o_kind o) None 0 0) /\ freed bs o bs2.
Proof.
  intros tr bs o x (K & S & C & Q). unfold data_reset, freed. destruct (o_buf o) as [b|].
  - destruct Q as (P & L & F & E).
    destruct (free_ok tr bs b (a_vals x) (a_cap x) (a_cap x) E L) as (cells & bs1 & D1 & D2 & _).
    { intros T. rewrite (F T). lia. }
    exists (upd bs b (false, cells)). unfold deleter. rewrite C, D1. cbn [bind]. rewrite D2. cbn [bind].
    split; [reflexivity|]. now exists cells.
  - exists bs. destruct Q as [_ Q]. rewrite C, Q. auto.
Qed.
Lemma vec_destroy_ok : forall tr bs o x, rel1 tr bs (Some o) (Some x) -> exists bs2,
  vec_destroy tr bs o = Ok bs2 /\ freed bs o bs2.
Proof.
  intros tr bs o x (K & S & C & Q). unfold vec_destroy, freed. destruct (o_buf o) as [b|].
  - destruct Q as (P & L & F & E).
    destruct (free_ok tr bs b (a_vals x) (a_cap x) (length (a_vals x)) E L) as (cells & bs1 & D1 & D2 & _); [auto|].
    exists (upd bs b (false, cells)). rewrite S, C, D1. cbn [bind]. rewrite D2.
    split; [reflexivity|]. now exists cells.
  - exists bs. auto.
Qed.
Lemma upd_app_short : forall T (l r : list T) i x, i < length l -> upd (l ++ r) i x = upd l i x ++ r.
Proof. induction l as [|z l IH]; intros r [|i] x L; cbn in *; try lia; [reflexivity|]. f_equal. apply IH. lia. Qed.
Lemma insert_ok : forall tr ho (bs : list block) new o x buff cap size, rel1 tr bs (Some o) (Some x) -> o_kind o = IsVec ->
  (tr = true \/ ho = true) -> exists bs2,
  insert_into tr ho (bs ++ [new]) o buff cap size = Ok (bs2 ++ [new], mk_owner IsVec (Some buff) size cap) /\
  freed bs o bs2 /\ length bs2 = length bs.
Proof.
  intros tr ho bs new o x buff cap size (K & S & C & Q) KV H. unfold insert_into, freed.
  destruct (o_buf o) as [b|] eqn:B.
  - destruct Q as (P & L & F & E).
    assert (BL : b < length bs) by (apply nth_error_Some; congruence).
    assert (E2 : nth_error (bs ++ [new]) b = Some (filled (a_vals x) (a_cap x))) by (rewrite nth_error_app1; auto).
    assert (CLR : exists bs1, (if o_size o =? 0 then Ok (bs ++ [new]) else destroy_n tr (bs ++ [new]) b (o_size o)) = Ok bs1 /\
              exists cells, nth_error bs1 b = Some (true, cells) /\ length cells = a_cap x /\
              (forall c, upd bs1 b c = upd (bs ++ [new]) b c)).
    { destruct (Nat.eqb_spec (o_size o) 0) as [Z0|NZ].
      - eexists. split; [reflexivity|]. exists (snd (filled (a_vals x) (a_cap x))). split; [exact E2|]. split; [now apply filled_length|reflexivity].
      - unfold destroy_n. rewrite E2. cbn [filled]. destruct tr.
        + eexists. split; [reflexivity|]. exists (snd (filled (a_vals x) (a_cap x))). split; [exact E2|]. split; [now apply filled_length|reflexivity].
        + destruct (destroy_down_ok (o_size o) (snd (filled (a_vals x) (a_cap x)))) as [c2 [D LC]].
          { intros k KK. apply filled_cell. lia. }
          cbn [filled snd] in D. rewrite D. cbn [bind]. eexists. split; [reflexivity|]. exists c2.
          rewrite nth_error_upd, Nat.eqb_refl, E2. split; [reflexivity|]. rewrite LC. split; [now apply filled_length|].
          intros c. apply upd_upd. }
    destruct CLR as (bs1 & -> & cells & E1 & LC & U). cbn [bind]. cbn [o_buf o_cap].
    assert (FIN : upd bs1 b (false, cells) = upd bs b (false, cells) ++ [new]) by (rewrite U; now apply upd_app_short).
    exists (upd bs b (false, cells)). rewrite upd_length_e. split; [|split; [now exists cells|reflexivity]].
    destruct ho.
    + rewrite (dealloc_ok bs1 b _ cells E1) by congruence. cbn [bind o_cap o_buf]. cbn [Nat.ltb Nat.leb bind o_buf]. now rewrite FIN.
    + assert (tr = true) as -> by (destruct H; congruence). cbn [bind o_cap]. rewrite C.
      destruct (Nat.ltb_spec 0 (a_cap x)); [|lia]. cbn [extract o_buf o_cap o_size]. unfold data_reset, deleter, destroy_n. cbn [o_buf o_cap o_kind].
      rewrite E1. cbn [bind]. rewrite (dealloc_ok bs1 b _ cells E1) by congruence. cbn [bind o_buf]. now rewrite FIN.
  - destruct Q as [V CP]. assert (o_size o = 0) as -> by (rewrite S, V; reflexivity). cbn [Nat.eqb bind o_buf].
    exists bs. split; [|auto]. destruct ho; cbn [bind o_cap]; rewrite C, CP; cbn [Nat.ltb Nat.leb bind o_buf]; reflexivity.
Qed.

(** * Histories *)
Lemma upd_snoc : forall T (l : list T) x y, upd (l ++ [x]) (length l) y = l ++ [y].
Proof. induction l as [|z l IH]; intros x y; cbn; [reflexivity|]. f_equal. apply IH. Qed.
Lemma hstep_ok : forall tr ho o bs objs a, R tr bs objs a -> no_share o -> (tr = true \/ (ho = true /\ full_op o)) ->
  exists s, hstep tr ho (mk_hst bs objs) o = Ok s /\ R tr (h_blocks s) (h_objs s) (spec_step a o).
Proof.
  intros tr ho o bs objs a H NS CF.
  destruct o as [vs cap|i|i|i|i vs cap|i j]; cbn [no_share full_op] in *; [| | | | |contradiction]; cbn [hstep spec_step h_blocks h_objs].
  - destruct (Nat.ltb_spec cap (length vs)) as [LT|GE]; [eexists; split; [reflexivity|exact H]|].
    destruct (Nat.eqb_spec cap 0) as [->|NZ]; (eexists; split; [reflexivity|]); cbn [h_blocks h_objs].
    + assert (vs = []) as -> by (destruct vs; [reflexivity|cbn in GE; lia]). now apply R_append.
    + pose proof (R_append tr bs objs a IsVec H) as H2.
      rewrite <- (upd_snoc _ objs (Some (mk_owner IsVec None 0 0))).
      rewrite <- (upd_snoc _ a (Some (mk_aobj IsVec [] 0))). rewrite <- (r_len _ _ _ _ H).
      eapply R_own; [exact H2|rewrite nth_error_snoc, Nat.eqb_refl; reflexivity|reflexivity|lia|lia|].
      intros T. destruct CF as [CF|[_ CF]]; congruence.
  - pose proof (get_R tr bs objs a i H) as G. destruct (get_obj (mk_hst bs objs) i) as [o|], (a_get a i) as [x|]; try contradiction.
    + destruct G as (G1 & G2 & G3). destruct x as [k vs cap]. pose proof G3 as (K & _). cbn [a_kind] in K. rewrite K. destruct k.
      * cbn [extract]. eexists. split; [reflexivity|]. cbn [h_blocks h_objs]. exact (R_extract _ _ _ _ _ _ _ H G1 G2).
      * eexists. split; [reflexivity|exact H].
    + eexists. split; [reflexivity|exact H].
  - pose proof (get_R tr bs objs a i H) as G. destruct (get_obj (mk_hst bs objs) i) as [o|], (a_get a i) as [x|]; try contradiction.
    + destruct G as (G1 & G2 & G3). destruct x as [k vs cap]. pose proof G3 as (K & _). cbn [a_kind] in K. rewrite K. destruct k.
      * eexists. split; [reflexivity|exact H].
      * destruct (data_reset_ok _ _ _ _ G3) as [bs2 [-> F]]. cbn [bind]. eexists. split; [reflexivity|]. cbn [h_blocks h_objs].
        eapply R_release; [exact H|exact G1|exact F|intros n N; injection N as <-; reflexivity|]. cbn. now rewrite K.
    + eexists. split; [reflexivity|exact H].
  - pose proof (get_R tr bs objs a i H) as G. destruct (get_obj (mk_hst bs objs) i) as [o|], (a_get a i) as [x|]; try contradiction.
    + destruct G as (G1 & G2 & G3). destruct (o_kind o).
      * destruct (vec_destroy_ok _ _ _ _ G3) as [bs2 [-> F]]. cbn [bind]. eexists. split; [reflexivity|]. cbn [h_blocks h_objs].
        eapply R_release; [exact H|exact G1|exact F|intros n N; discriminate|]. exact Logic.I.
      * destruct (data_reset_ok _ _ _ _ G3) as [bs2 [-> F]]. cbn [bind]. eexists. split; [reflexivity|]. cbn [h_blocks h_objs].
        eapply R_release; [exact H|exact G1|exact F|intros n N; discriminate|]. exact Logic.I.
    + eexists. split; [reflexivity|]. rewrite G. exact H.
  - destruct (Nat.ltb_spec cap (length vs)) as [LT|GE]; [eexists; split; [reflexivity|exact H]|].
    destruct (Nat.eqb_spec cap 0) as [Z0|NZ]; [eexists; split; [reflexivity|exact H]|]. cbn [orb].
    pose proof (get_R tr bs objs a i H) as G. destruct (get_obj (mk_hst bs objs) i) as [o|], (a_get a i) as [x|]; try contradiction.
    + destruct G as (G1 & G2 & G3). destruct x as [k ws cp]. pose proof G3 as (K & _). cbn [a_kind] in K. rewrite K. destruct k.
      * destruct (insert_ok tr ho bs (filled vs cap) o _ (length bs) cap (length vs) G3 K) as (bs2 & -> & F & L2); [tauto|].
        cbn [bind]. eexists. split; [reflexivity|]. cbn [h_blocks h_objs]. rewrite <- L2.
        assert (IL : i < length objs) by (apply nth_error_Some; congruence).
        rewrite <- (upd_upd _ objs i (Some (mk_owner IsVec None 0 0))).
        rewrite <- (upd_upd _ a i (Some (mk_aobj IsVec [] 0))).
        eapply R_own.
        -- eapply R_release; [exact H|exact G1|exact F|intros n N; injection N as <-; reflexivity|]. cbn. auto.
        -- rewrite nth_error_upd, Nat.eqb_refl, G1. reflexivity.
        -- reflexivity.
        -- lia.
        -- lia.
        -- intros T. destruct CF as [CF|[_ CF]]; congruence.
      * eexists. split; [reflexivity|exact H].
    + eexists. split; [reflexivity|exact H].
Qed.
Lemma hrun_ok : forall tr ho ops bs objs a, R tr bs objs a -> careful tr ho ops ->
  exists s, hrun tr ho (mk_hst bs objs) ops = Ok s /\ R tr (h_blocks s) (h_objs s) (spec_run a ops).
Proof.
  intros tr ho ops. induction ops as [|o ops IH]; intros bs objs a H [NS CF].
  - eexists. split; [reflexivity|exact H].
  - cbn [hrun]. inversion NS as [|? ? N1 N2]; subst.
    destruct (hstep_ok tr ho o bs objs a H N1) as [[bs2 objs2] [-> H2]].
    { destruct CF as [CF|[CF FO]]; [now left|right; split; [exact CF|exact (Forall_inv FO)]]. }
    cbn [bind]. apply (IH bs2 objs2 _ H2). split; [exact N2|].
    destruct CF as [CF|[CF FO]]; [now left|right; split; [exact CF|exact (Forall_inv_tail FO)]].
Qed.
Lemma R_shows : forall tr s a, R tr (h_blocks s) (h_objs s) a -> shows s a /\ all_owned s.
Proof.
  intros tr [bs objs] a H. cbn [h_blocks h_objs] in H. split; [split; [exact (r_len _ _ _ _ H)|]|].
  - intros i. pose proof (get_R tr bs objs a i H) as G.
    destruct (get_obj (mk_hst bs objs) i) as [o|], (a_get a i) as [x|]; try contradiction; [|exact Logic.I].
    destruct G as (_ & _ & K & S & C & Q). split; [exact K|]. split; [exact C|]. unfold elements. cbn [h_blocks].
    destruct (o_buf o) as [b|].
    + destruct Q as (P & L & F & E). rewrite E. cbn [filled]. fold (snd (filled (a_vals x) (a_cap x))).
      rewrite S. change (map Some (a_vals x) ++ repeat None (a_cap x - length (a_vals x))) with (snd (filled (a_vals x) (a_cap x))).
      rewrite filled_length by exact L. destruct (Nat.leb_spec (length (a_vals x)) (a_cap x)); [|lia]. f_equal. cbn.
      rewrite firstn_app, map_length, Nat.sub_diag, firstn_O, app_nil_r. rewrite <- (map_length (@Some Z)). apply firstn_all.
    + destruct Q as [V _]. rewrite S, V. reflexivity.
  - intros b cells E. cbn [h_blocks] in E. destruct (r_cov _ _ _ _ H b cells E) as [i [o [I1 B]]].
    exists i. split.
    + exists o. split; [|exact B]. unfold get_obj. cbn [h_objs]. now rewrite I1.
    + intros j [oj [G BJ]]. unfold get_obj in G. cbn [h_objs] in G. destruct (nth_error objs j) as [q|] eqn:J; [|discriminate]. subst q.
      exact (r_uniq _ _ _ _ H j i oj o b J I1 BJ B).
Qed.
Lemma history_ok : forall tr ho ops, careful tr ho ops ->
  exists s, hrun tr ho hst0 ops = Ok s /\ shows s (spec_run [] ops) /\ all_owned s.
Proof.
  intros tr ho ops C. destruct (hrun_ok tr ho ops [] [] [] (R0 tr) C) as [s [E H]]. exists s. split; [exact E|].
  exact (R_shows tr s _ H).
Qed.

(** * Undefined runs *)
Lemma destroy_down_keeps : forall n cells c2 k, destroy_down cells n = Ok c2 -> n <= k -> nth_error c2 k = nth_error cells k.
Proof.
  induction n as [|n IH]; intros cells c2 k E L; cbn [destroy_down] in E; [now injection E as <-|].
  destruct (nth_error cells n) as [[v|]|]; try discriminate. rewrite (IH _ _ k E) by lia.
  rewrite nth_error_upd. destruct (Nat.eqb_spec k n); [lia|reflexivity].
Qed.
Lemma destroy_down_gone : forall n cells c2 k, destroy_down cells n = Ok c2 -> k < n -> nth_error c2 k = Some None.
Proof.
  induction n as [|n IH]; intros cells c2 k E L; cbn [destroy_down] in E; [lia|].
  destruct (nth_error cells n) as [[v|]|] eqn:C; try discriminate.
  destruct (Nat.eq_dec k n) as [->|N]; [|apply (IH _ _ k E); lia].
  rewrite (destroy_down_keeps _ _ _ n E) by lia. now rewrite nth_error_upd, Nat.eqb_refl, C.
Qed.
Lemma new_vec : forall tr ho vs cap, length vs <= cap -> 0 < cap ->
  hstep tr ho hst0 (HNew vs cap) = Ok (mk_hst [filled vs cap] [Some (mk_owner IsVec (Some 0) (length vs) cap)]).
Proof.
  intros tr ho vs cap L P. cbn [hstep hst0 h_blocks h_objs app length].
  destruct (Nat.ltb_spec cap (length vs)); [lia|]. destruct (Nat.eqb_spec cap 0); [lia|]. reflexivity.
Qed.
Lemma spare_bad : forall ho vs cap, length vs < cap -> hrun false ho hst0 [HNew vs cap; HExtract 0; HDestroy 1] = UB.
Proof.
  intros ho vs cap L. cbn [hrun]. rewrite new_vec by lia.
  cbn [bind hstep get_obj h_objs h_blocks nth_error o_kind extract o_buf o_size o_cap upd app].
  unfold data_reset, deleter, destroy_n. cbn [o_buf o_cap nth_error filled].
  change (map Some vs ++ repeat None (cap - length vs)) with (snd (filled vs cap)).
  rewrite destroy_down_bad; [reflexivity|]. exists (length vs). split; [exact L|]. now apply filled_gap.
Qed.
Lemma insert_bad : forall vs cap ws n, length vs <= cap -> 0 < cap -> length ws <= n -> 0 < n ->
  hrun false false hst0 [HNew vs cap; HGive 0 ws n] = UB.
Proof.
  intros vs cap ws n L P L2 P2. cbn [hrun]. rewrite new_vec by lia.
  cbn [bind hstep get_obj h_objs h_blocks nth_error o_kind app length].
  destruct (Nat.ltb_spec n (length ws)); [lia|]. destruct (Nat.eqb_spec n 0); [lia|]. cbn [orb].
  unfold insert_into. cbn [o_size o_buf o_cap].
  assert (X : forall c2 : list (option Z), nth_error c2 0 = Some None \/ c2 = snd (filled [] cap) -> destroy_down c2 cap = UB).
  { intros c2 Q. apply destroy_down_bad. exists 0. split; [lia|]. intros v.
    destruct Q as [-> | ->]; [discriminate|]. apply filled_gap. cbn. lia. }
  destruct (Nat.eqb_spec (length vs) 0) as [Z0|NZ].
  - assert (vs = []) as -> by now destruct vs. cbn [bind o_cap]. destruct (Nat.ltb_spec 0 cap); [|lia].
    cbn [extract o_buf o_size o_cap]. unfold data_reset, deleter, destroy_n. cbn [o_buf o_cap nth_error].
    change (filled [] cap) with (true, snd (filled [] cap)). cbv iota beta.
    rewrite (X (snd (filled [] cap))) by auto. reflexivity.
  - unfold destroy_n at 1. cbn [nth_error]. change (filled vs cap) with (true, snd (filled vs cap)). cbv iota beta.
    destruct (destroy_down_ok (length vs) (snd (filled vs cap))) as [c2 [D LC]]; [intros k K; now apply filled_cell|].
    rewrite D. cbn [bind upd o_cap]. destruct (Nat.ltb_spec 0 cap); [|lia].
    cbn [extract o_buf o_size o_cap]. unfold data_reset, deleter, destroy_n. cbn [o_buf o_cap nth_error].
    rewrite (X c2); [reflexivity|]. left. apply (destroy_down_gone _ _ _ 0 D). lia.
Qed.
Lemma shared_bad : forall tr ho vs cap, length vs <= cap -> 0 < cap ->
  hrun tr ho hst0 [HNew vs cap; HExtract 0; HGiveData 0 1; HDestroy 0; HDestroy 1] = UB.
Proof.
  intros tr ho vs cap L P. cbn [hrun]. rewrite new_vec by lia.
  cbn [bind hstep get_obj h_objs h_blocks nth_error o_kind extract o_buf o_size o_cap upd app].
  replace (insert_into tr ho [filled vs cap] (mk_owner IsVec None 0 0) 0 cap (length vs))
    with (Ok ([filled vs cap], mk_owner IsVec (Some 0) (length vs) cap)) by (destruct ho; reflexivity).
  cbn [bind hstep get_obj h_objs h_blocks nth_error o_kind extract o_buf o_size o_cap upd app].
  unfold vec_destroy. cbn [o_buf o_size o_cap].
  destruct (free_ok tr [filled vs cap] 0 vs cap (length vs) eq_refl L) as (cells & bs1 & D1 & D2 & _); [auto|].
  rewrite D1. cbn [bind]. rewrite D2. reflexivity.
Qed.
Lemma extract_ok : forall tr ho s i v, get_obj s i = Some v -> o_kind v = IsVec -> exists s2,
  hstep tr ho s (HExtract i) = Ok s2 /\ h_blocks s2 = h_blocks s /\
  get_obj s2 i = Some (mk_owner IsVec None 0 0) /\
  get_obj s2 (length (h_objs s)) = Some (mk_owner IsData (o_buf v) (o_size v) (o_cap v)).
Proof.
  intros tr ho [bs objs] i v G K. cbn [hstep]. rewrite G, K. cbn [extract]. eexists. split; [reflexivity|].
  unfold get_obj in *. cbn [h_blocks h_objs] in *. split; [reflexivity|].
  destruct (nth_error objs i) as [x|] eqn:E; [|discriminate].
  assert (i < length objs) by (apply nth_error_Some; congruence).
  rewrite !nth_error_snoc, upd_length_e, Nat.eqb_refl. split; [|reflexivity].
  destruct (Nat.eqb_spec i (length objs)); [lia|]. now rewrite nth_error_upd, Nat.eqb_refl, E.
Qed.

(** * inserter_iterator *)
Lemma irun_assigned : forall (C T : Type) (insert : C -> T -> C) ops c,
  irun insert c ops = fold_left insert (assigned ops) c.
Proof.
  intros C T insert ops. induction ops as [|o ops IH]; intros c; [reflexivity|].
  unfold irun in *. cbn [fold_left]. rewrite IH. destruct o; reflexivity.
Qed.
Lemma assigned_copy : forall T (l : list T), assigned (copy_ops l) = l.
Proof. intros T l. induction l as [|x l IH]; [reflexivity|]. cbn. f_equal. exact IH. Qed.
Lemma increasing_cons : forall x l, increasing (x :: l) <-> (match l with [] => True | y :: _ => (x < y)%Z end /\ increasing l).
Proof. intros x [|y l]; cbn; tauto. Qed.
Lemma set_insert_in : forall c x y, In y (set_insert c x) <-> y = x \/ In y c.
Proof.
  induction c as [|z c IH]; intros x y; cbn [set_insert].
  - cbn. intuition.
  - destruct (Z.ltb_spec x z); [cbn; intuition|]. destruct (Z.ltb_spec z x).
    + cbn [In]. rewrite IH. intuition.
    + assert (x = z) as -> by lia. cbn. intuition.
Qed.
Lemma set_insert_increasing : forall c x, increasing c -> increasing (set_insert c x).
Proof.
  induction c as [|z c IH]; intros x H; cbn [set_insert]; [exact Logic.I|].
  apply increasing_cons in H. destruct H as [H1 H2].
  destruct (Z.ltb_spec x z); [apply increasing_cons; split; [assumption|]; apply increasing_cons; auto|].
  destruct (Z.ltb_spec z x); [|apply increasing_cons; auto].
  apply increasing_cons. split; [|now apply IH].
  destruct c as [|w c]; cbn [set_insert]; [assumption|].
  destruct (x <? w)%Z; [assumption|]. destruct (w <? x)%Z; assumption.
Qed.
Lemma set_run : forall l c, increasing c ->
  increasing (fold_left set_insert l c) /\ forall x, In x (fold_left set_insert l c) <-> In x c \/ In x l.
Proof.
  induction l as [|y l IH]; intros c H; cbn [fold_left].
  - split; [exact H|]. intros x. cbn. intuition.
  - destruct (IH (set_insert c y) (set_insert_increasing c y H)) as [I1 I2]. split; [exact I1|].
    intros x. rewrite I2, set_insert_in. cbn. intuition.
Qed.

(** * compressed_pair *)
Lemma pstep_values : forall (A B : Type) (s : list (A * B)) o,
  pstep s o = match pair_spec s o with Some s2 => Ok s2 | None => UB end.
Proof.
  intros A B s o. destruct o as [a b|i a|i b|i j]; cbn [pstep pair_spec]; unfold rd; [reflexivity| | |].
  - destruct (nth_error s i); reflexivity.
  - destruct (nth_error s i); reflexivity.
  - unfold swap_first, swap_second, rd. destruct (nth_error s i) as [[a b]|] eqn:E1; [|reflexivity]. cbn [bind].
    destruct (nth_error s j) as [[c d]|] eqn:E2; [|reflexivity]. cbn [bind fst snd].
    destruct (Nat.eq_dec i j) as [->|N].
    + assert (a = c /\ b = d) as [-> ->] by (split; congruence).
      do 6 (rewrite ?nth_error_upd, ?Nat.eqb_refl, ?E1; cbn [bind fst snd]). now rewrite !upd_upd.
    + destruct (Nat.eqb_spec j i) as [->|N2]; [congruence|]. destruct (Nat.eqb_spec i j) as [->|N3]; [congruence|].
      assert (X1 : (j =? i) = false) by now apply Nat.eqb_neq. assert (X2 : (i =? j) = false) by now apply Nat.eqb_neq.
      do 8 (rewrite ?nth_error_upd, ?Nat.eqb_refl, ?X1, ?X2, ?E1, ?E2; cbn [bind fst snd]).
      f_equal. clear - N. revert i j N. induction s as [|p s IH]; intros [|i] [|j] N; cbn; try reflexivity; try congruence.
      * f_equal. apply upd_upd.
      * f_equal. apply upd_upd.
      * f_equal. apply IH. congruence.
Qed.
Lemma pswap_twice : forall (A B : Type) (s s2 : list (A * B)) i j,
  pstep s (PSwap i j) = Ok s2 -> pstep s2 (PSwap i j) = Ok s.
Proof.
  intros A B s s2 i j H. rewrite pstep_values in *. cbn [pair_spec] in *.
  destruct (nth_error s i) as [p|] eqn:E1; [|discriminate]. destruct (nth_error s j) as [q|] eqn:E2; [|discriminate].
  injection H as <-. rewrite !nth_error_upd, Nat.eqb_refl, !E1.
  destruct (Nat.eqb_spec j i) as [->|N].
  - rewrite Nat.eqb_refl. rewrite !upd_upd. f_equal. apply SmallClassesProofs.upd_same_id. congruence.
  - destruct (Nat.eqb_spec i j); [congruence|]. rewrite E2, Nat.eqb_refl. f_equal. clear - N E1 E2. revert i j N E1 E2.
    induction s as [|x s IH]; intros [|i] [|j] N E1 E2; cbn in *; try congruence.
    + injection E1 as ->. f_equal. rewrite upd_upd. now apply SmallClassesProofs.upd_same_id.
    + injection E2 as ->. f_equal. rewrite upd_upd. now apply SmallClassesProofs.upd_same_id.
    + f_equal. apply IH; congruence.
Qed.

(** * The statements of the properties *)

Lemma c324_extract :
  forall tr ho s i v, get_obj s i = Some v -> o_kind v = IsVec -> exists s2,
  hstep tr ho s (HExtract i) = Ok s2 /\ h_blocks s2 = h_blocks s /\
  get_obj s2 i = Some (mk_owner IsVec None 0 0) /\
  get_obj s2 (length (h_objs s)) = Some (mk_owner IsData (o_buf v) (o_size v) (o_cap v)).
Proof.
  exact extract_ok.
Qed.

Lemma c324_history_partial :
  forall tr ho ops, careful tr ho ops ->
  exists s, hrun tr ho hst0 ops = Ok s /\ shows s (spec_run [] ops) /\ all_owned s.
Proof.
  exact history_ok.
Qed.

Lemma c324_all_freed_partial :
  forall tr ho ops, careful tr ho ops -> (forall o, In o (spec_run [] ops) -> o = None) ->
  exists s, hrun tr ho hst0 ops = Ok s /\ Forall (fun b : block => fst b = false) (h_blocks s).
Proof.
  intros tr ho ops C E. destruct (history_ok tr ho ops C) as [s [H [SH OW]]]. exists s. split; [exact H|].
apply Forall_forall. intros [al cells] IN. cbn. destruct al; [|reflexivity]. exfalso. apply In_nth_error in IN. destruct IN as [b IN].
destruct (OW b cells IN) as [i [[o [G _]] _]]. destruct SH as [_ SH]. specialize (SH i). rewrite G in SH. unfold a_get in SH.
destruct (nth_error (spec_run [] ops) i) as [x|] eqn:X; [|contradiction]. apply nth_error_In, E in X. subst x. contradiction.
Qed.

Lemma c324_spare_capacity_refuted :
  forall ho vs cap, length vs < cap -> hrun false ho hst0 [HNew vs cap; HExtract 0; HDestroy 1] = UB.
Proof.
  exact spare_bad.
Qed.

Lemma c324_insert_refuted :
  forall vs cap ws n, length vs <= cap -> 0 < cap -> length ws <= n -> 0 < n ->
  hrun false false hst0 [HNew vs cap; HGive 0 ws n] = UB.
Proof.
  exact insert_bad.
Qed.

Lemma c324_shared_refuted :
  forall tr ho vs cap, length vs <= cap -> 0 < cap ->
  hrun tr ho hst0 [HNew vs cap; HExtract 0; HGiveData 0 1; HDestroy 0; HDestroy 1] = UB.
Proof.
  exact shared_bad.
Qed.

Lemma c325_insert :
  forall (C T : Type) (insert : C -> T -> C) ops c,
  irun insert c ops = fold_left insert (assigned ops) c.
Proof.
  exact irun_assigned.
Qed.

Lemma c325_copy :
  forall (C T : Type) (insert : C -> T -> C) l c, irun insert c (copy_ops l) = fold_left insert l c.
Proof.
  intros C T insert l c. rewrite irun_assigned, assigned_copy. reflexivity.
Qed.

Lemma c325_set :
  forall l c, increasing c ->
  increasing (irun set_insert c (copy_ops l)) /\ forall x, In x (irun set_insert c (copy_ops l)) <-> In x c \/ In x l.
Proof.
  intros l c H. rewrite irun_assigned, assigned_copy. exact (set_run l c H).
Qed.

Lemma c326_values :
  forall (A B : Type) (s : list (A * B)) o,
  pstep s o = match pair_spec s o with Some s2 => Ok s2 | None => UB end.
Proof.
  exact pstep_values.
Qed.

Lemma c326_swap_twice :
  forall (A B : Type) (s s2 : list (A * B)) i j, pstep s (PSwap i j) = Ok s2 -> pstep s2 (PSwap i j) = Ok s.
Proof.
  exact pswap_twice.
Qed.
