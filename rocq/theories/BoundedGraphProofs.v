(** Proofs about bounded_graph_t.  Statements are in BoundedGraphProps.v. *)
From Verif Require Import Common CommonProofs Ints Math BitsProofs Pipelines SpecPipes PipelinesProofs Iterators IteratorsProofs
  HashTables SpecHashTables HashTablesProofs BoundedGraph SpecBoundedGraph.
From Coq Require Import ZifyBool.
Open Scope nat_scope.
Local Arguments Z.mul : simpl never.
Local Arguments Z.add : simpl never.
Local Arguments Z.sub : simpl never.
Local Arguments Z.pow : simpl never.
Local Arguments Z.of_nat : simpl never.

Lemma id_eq_eqb a b : id_eq a b = Z.eqb a b.
Proof.
  unfold id_eq, id_compare. destruct (a =? b)%Z eqn:E; [reflexivity|]. destruct (a <? b)%Z; reflexivity.
Qed.
Lemma id_decides : decides id_eq.
Proof. intros a b. rewrite id_eq_eqb. apply Z.eqb_eq. Qed.

(** * Tables in which every key is in its first slot. *)
Definition fset {V} (f : Z -> V) (k : Z) (o : V) : Z -> V := fun x => if (x =? k)%Z then o else f x.

Section Rep.
Context {V : Type}.
Variable hm : Z -> nat.
Variable U : list Z.
Hypothesis J : forall a b, In a U -> In b U -> hm a = hm b -> a = b.
Variable n : nat.
Hypothesis HN : forall k, hm k < n.
Implicit Type l : @slots Z V.
Implicit Type f : Z -> option V.

Definition rep l f : Prop :=
  length l = n /\
  (forall k, In k U -> nth_error l (hm k) = Some (option_map (pair k) (f k))) /\
  (forall i k v, nth_error l i = Some (Some (k, v)) -> i = hm k /\ In k U) /\
  (forall k v, f k = Some v -> In k U).

Lemma rep_home l f : rep l f -> at_home hm U l.
Proof. intros (_ & _ & H & _). exact H. Qed.
Lemma rep_ext l f g : (forall k, f k = g k) -> rep l f -> rep l g.
Proof.
  intros E (A & B & C & D). split; [exact A|]. split; [|split; [exact C|]].
  - intros k K. rewrite <- E. auto.
  - intros k v K. rewrite <- E in K. eauto.
Qed.
Lemma rep_at l f k v : rep l f -> f k = Some v -> nth_error l (hm k) = Some (Some (k, v)).
Proof. intros (_ & B & _ & D) F. rewrite (B k (D k v F)), F. reflexivity. Qed.
Lemma rep_from l f i k v : rep l f -> nth_error l i = Some (Some (k, v)) -> i = hm k /\ f k = Some v.
Proof.
  intros (_ & B & C & _) E. destruct (C i k v E) as [-> I']. split; [reflexivity|].
  rewrite (B k I') in E. destruct (f k); cbn in E; congruence.
Qed.
Lemma rep_probe l f k : rep l f -> In k U -> probe_from id_eq l (hm k) k = Some (hm k).
Proof.
  intros R I'. apply (at_home_probe id_eq id_decides hm U J); [exact (rep_home _ _ R)|exact I'|].
  destruct R as [L _]. rewrite L. apply HN.
Qed.
Lemma rep_found l f : rep l f -> found id_eq hm l.
Proof. intros R. eapply at_home_found; [exact id_decides|exact (rep_home _ _ R)]. Qed.
Lemma rep_value l f k : rep l f -> value id_eq hm l k = f k.
Proof.
  intros R. destruct (value id_eq hm l k) as [v|] eqn:E.
  - unfold value in E. destruct (probe_from id_eq l (hm k) k) as [i|] eqn:P; [|discriminate].
    destruct (nth_error l i) as [[[k' v']|]|] eqn:N; try discriminate. injection E as ->.
    destruct (probe_from_some id_eq id_decides _ _ _ _ P) as [S' _].
    destruct S' as [S'|[w S']]; [congruence|]. rewrite S' in N. injection N as <- <-.
    symmetry. apply (proj2 (rep_from _ _ _ _ _ R S')).
  - destruct (f k) as [v|] eqn:F; [|reflexivity]. exfalso. unfold value in E.
    rewrite (rep_probe l f k R) in E by (destruct R as (_ & _ & _ & D); eauto).
    rewrite (rep_at l f k v R F) in E. discriminate.
Qed.
Lemma rep_upd l f k o : rep l f -> In k U -> rep (upd l (hm k) (option_map (pair k) o)) (fset f k o).
Proof.
  intros (A & B & C & D) K. assert (HL : hm k < length l) by (rewrite A; apply HN).
  split; [rewrite upd_length; exact A|]. split; [|split].
  - intros x X. unfold fset. destruct (Z.eqb_spec x k) as [e|N].
    + subst x. apply nth_error_upd_eq. exact HL.
    + rewrite nth_error_upd_ne by (intros e; apply N; apply J; auto). auto.
  - intros i x v E. destruct (Nat.eq_dec i (hm k)) as [e|N].
    + subst i. rewrite nth_error_upd_eq in E by exact HL. destruct o; cbn in E; [|discriminate].
      injection E as <- _. auto.
    + rewrite nth_error_upd_ne in E by exact N. eauto.
  - intros x v. unfold fset. destruct (Z.eqb_spec x k) as [e|N]; [subst x; auto|eauto].
Qed.
Lemma rep_none : rep (repeat None n) (fun _ => None).
Proof.
  split; [apply repeat_length|]. split; [|split].
  - intros k _. cbn. apply nth_error_repeat. apply HN.
  - intros i k v E. pose proof (nth_error_In _ _ E) as X. apply repeat_spec in X. discriminate.
  - discriminate.
Qed.
Lemma rep_unique l l' f : rep l f -> rep l' f -> l = l'.
Proof.
  intros R R'. apply HashTablesProofs.list_ext. intros i.
  pose proof R as (A & B & C & D). pose proof R' as (A' & B' & C' & D').
  destruct (nth_error l i) as [[[k v]|]|] eqn:E.
  - destruct (rep_from _ _ _ _ _ R E) as [-> F]. symmetry. apply rep_at with (f := f); assumption.
  - destruct (nth_error l' i) as [[[k v]|]|] eqn:E'; [|reflexivity|].
    + destruct (rep_from _ _ _ _ _ R' E') as [-> F]. rewrite (rep_at _ _ _ _ R F) in E. discriminate.
    + apply nth_error_None in E'. assert (X : i < length l) by (apply nth_error_Some; congruence). lia.
  - apply nth_error_None in E. symmetry. apply nth_error_None. lia.
Qed.
Lemma rep_contents l f k v : rep l f -> (In (k, v) (contents l) <-> f k = Some v).
Proof.
  intros R. rewrite contents_in. split.
  - intros [i E]. exact (proj2 (rep_from _ _ _ _ _ R E)).
  - intros F. exists (hm k). apply (rep_at _ _ _ _ R F).
Qed.
Lemma rep_nodup l f : rep l f -> NoDup (map fst (contents l)).
Proof. intros R. apply (found_nodup id_eq hm). eapply rep_found. exact R. Qed.
End Rep.

Lemma rep_empty {V} hm U n (l : @slots Z V) f : rep hm U n l f -> (bs_empty l = true <-> forall k, f k = None).
Proof.
  intros R. rewrite empty_contents. destruct (contents l) as [|[k v] c] eqn:E.
  - split; [|reflexivity]. intros _ k. destruct (f k) as [v|] eqn:F; [|reflexivity].
    apply (rep_contents _ _ _ _ _ k v R) in F. rewrite E in F. destruct F.
  - split; [discriminate|]. intros X. assert (F : f k = Some v); [|rewrite X in F; discriminate].
    apply (rep_contents _ _ _ _ _ k v R). rewrite E. left. reflexivity.
Qed.

(** * Graph states. *)
Definition tag (b : bool) : option unit := if b then Some tt else None.
Definition upd2 (O' : Z -> Z -> bool) (a b : Z) (v : bool) : Z -> Z -> bool :=
  fun x y => if ((x =? a) && (y =? b))%Z then v else O' x y.

Section Graph.
Context {T : Type}.
Variable h : Z -> Z.
Variable n : nat.
Variable U : list Z.
Hypothesis N0 : 0 < n.
Hypothesis JH : no_collisions n h U.
Hypothesis JE : no_collisions n (fun k => k) U.
Let hn (k : Z) : nat := home n (h k).
Let he (k : Z) : nat := home n k.
Let HNn : forall k, hn k < n.
Proof. intros k. apply home_lt. exact N0. Qed.
Let HNe : forall k, he k < n.
Proof. intros k. apply home_lt. exact N0. Qed.
Implicit Type g : bgraph T.

Definition node_ok (a : Z) (nd : bnode T) (o i : Z -> bool) : Prop :=
  bn_id nd = a /\ rep he U n (bn_out nd) (fun b => tag (o b)) /\ rep he U n (bn_in nd) (fun b => tag (i b)).
Definition gst (g : bgraph T) (vals : Z -> option T) (outs ins : Z -> Z -> bool) : Prop :=
  bg_max g = n /\
  exists b f, bg_nodes g = b ++ [None] /\ rep hn U n b f /\
    forall a, match f a with
              | Some nd => vals a = Some (bn_value nd) /\ node_ok a nd (outs a) (ins a)
              | None => vals a = None
              end.

Lemma gst_ext g vals outs ins vals' outs' ins' :
  (forall a, vals a = vals' a) -> (forall a b, vals a <> None -> outs a b = outs' a b) ->
  (forall a b, vals a <> None -> ins a b = ins' a b) -> gst g vals outs ins -> gst g vals' outs' ins'.
Proof.
  intros EV EO EI (M & b & f & EG & R & H). split; [exact M|]. exists b, f. split; [exact EG|]. split; [exact R|].
  intros a. specialize (H a). destruct (f a) as [nd|]; [|rewrite <- EV; exact H].
  destruct H as (A & B & C & D). assert (NN : vals a <> None) by congruence. split; [rewrite <- EV; exact A|]. split; [exact B|].
  split; [eapply rep_ext; [|exact C]|eapply rep_ext; [|exact D]]; intros k; cbn; f_equal; auto.
Qed.

Lemma find_index_rep (b : @slots Z (bnode T)) f k : rep hn U n b f -> In k U -> mp_find_index id_eq h (b ++ [None]) k = Ok (Some (hn k)).
Proof.
  intros R K. pose proof R as [L _]. rewrite mp_find_index_home by lia. rewrite L.
  f_equal. apply (rep_probe hn U JH n HNn b f k R K).
Qed.
Lemma rd_rep (b : @slots Z (bnode T)) f k v : rep hn U n b f -> f k = Some v -> rd (b ++ [None]) (hn k) = Ok (Some (k, v)).
Proof.
  intros R F. pose proof R as [L _]. rewrite rd_app_l by (rewrite L; apply HNn). unfold rd.
  rewrite (rep_at _ _ _ _ _ _ _ R F). reflexivity.
Qed.
Lemma rep_in (b : @slots Z (bnode T)) f k v : rep hn U n b f -> f k = Some v -> In k U.
Proof. intros (_ & _ & _ & D). eauto. Qed.

(** The node of an id. *)
Lemma gst_slot g vals outs ins a v : gst g vals outs ins -> vals a = Some v ->
  exists nd, bg_slot h g a = Ok (hn a) /\ bg_at g (hn a) = Ok nd /\ bn_value nd = v /\ node_ok a nd (outs a) (ins a).
Proof.
  intros (M & b & f & EG & R & H) E. pose proof (H a) as Ha. destruct (f a) as [nd|] eqn:F; [|congruence].
  destruct Ha as (A & B). exists nd. pose proof (rep_in b f a nd R F) as IU.
  assert (G : it_get (bg_nodes g) (hn a) = Ok (a, nd)).
  { unfold it_get. rewrite EG, (rd_rep b f a nd R F). reflexivity. }
  split.
  - unfold bg_slot, mp_find. rewrite EG, (find_index_rep b f a R IU). cbn [bind]. rewrite <- EG, G. reflexivity.
  - split; [unfold bg_at; rewrite G; reflexivity|]. split; [congruence|exact B].
Qed.
Lemma gst_in g vals outs ins a v : gst g vals outs ins -> vals a = Some v -> In a U.
Proof.
  intros (M & b & f & EG & R & H) E. pose proof (H a) as Ha. destruct (f a) as [nd|] eqn:F; [|congruence].
  exact (rep_in b f a nd R F).
Qed.

(** Replacing a node. *)
Lemma gst_set g vals outs ins a v nd' o i :
  gst g vals outs ins -> vals a = Some v -> bn_value nd' = v -> node_ok a nd' o i ->
  exists g', bg_set_at g (hn a) nd' = Ok g' /\
    gst g' vals (fun x => if (x =? a)%Z then o else outs x) (fun x => if (x =? a)%Z then i else ins x) /\
    bg_next g' = bg_next g.
Proof.
  intros (M & b & f & EG & R & H) E EV K. pose proof (H a) as Ha. destruct (f a) as [nd|] eqn:F; [|congruence].
  pose proof (rep_in b f a nd R F) as IU. pose proof R as [L _].
  assert (G : it_get (bg_nodes g) (hn a) = Ok (a, nd)).
  { unfold it_get. rewrite EG, (rd_rep b f a nd R F). reflexivity. }
  exists (set_nodes (upd b (hn a) (Some (a, nd')) ++ [None]) g). split; [|split; [|reflexivity]].
  - unfold bg_set_at. rewrite G. cbn [bind]. rewrite EG, wr_app_l by (rewrite L; apply HNn). reflexivity.
  - split; [exact M|]. exists (upd b (hn a) (Some (a, nd'))), (fset f a (Some nd')). split; [reflexivity|]. split.
    + exact (rep_upd hn U JH n HNn b f a (Some nd') R IU).
    + intros x. unfold fset. destruct (Z.eqb_spec x a) as [e|D].
      * subst x. rewrite EV. auto.
      * apply H.
Qed.

Lemma set_insert_rep (s : @set_slots Z) o k : rep he U n s (fun b => tag (o b)) -> In k U ->
  exists p s', bs_insert id_eq id_hash s k = Ok (p, s') /\ rep he U n s' (fun b => tag (if (b =? k)%Z then true else o b)).
Proof.
  intros R K. pose proof R as [L _].
  exists (he k), (upd s (he k) (Some (k, tt))). split.
  - rewrite (bs_insert_hs id_eq id_decides). unfold hs_insert, id_hash. rewrite find_index_home by lia. rewrite L. change (home n k) with (he k).
    rewrite (rep_probe he U JE n HNe s _ k R K). reflexivity.
  - eapply rep_ext; [|exact (rep_upd he U JE n HNe s _ k (Some tt) R K)].
    intros x. unfold fset. destruct (x =? k)%Z; reflexivity.
Qed.
Lemma set_erase_rep (s : @set_slots Z) o k : rep he U n s (fun b => tag (o b)) -> In k U ->
  exists p s', bs_erase id_eq id_hash s k = Ok (p, s') /\ rep he U n s' (fun b => tag (if (b =? k)%Z then false else o b)).
Proof.
  intros R K. pose proof R as [L _].
  exists (Some (he k)), (upd s (he k) None). split.
  - unfold bs_erase, id_hash. rewrite find_index_home by lia. rewrite L. change (home n k) with (he k).
    rewrite (rep_probe he U JE n HNe s _ k R K). reflexivity.
  - eapply rep_ext; [|exact (rep_upd he U JE n HNe s _ k None R K)].
    intros x. unfold fset. destruct (x =? k)%Z; reflexivity.
Qed.
Lemma set_exists_rep (s : @set_slots Z) o k : rep he U n s (fun b => tag (o b)) -> bs_exists id_eq id_hash s k = Ok (o k).
Proof.
  intros R. pose proof R as [L _]. unfold bs_exists. rewrite (hs_exists_value id_eq id_decides) by lia. cbn beta.
  rewrite L. change (fun k0 : Z => home n (id_hash k0)) with he. rewrite (rep_value he U JE n HNe s _ k R). destruct (o k); reflexivity.
Qed.

Lemma upd2_row (O' : Z -> Z -> bool) a k v x y :
  (if (x =? a)%Z then (fun b => if (b =? k)%Z then v else O' a b) else O' x) y = upd2 O' a k v x y.
Proof. unfold upd2. destruct (Z.eqb_spec x a) as [e|D]; [subst x|]; cbn; destruct (y =? k)%Z; reflexivity. Qed.

Lemma out_insert_gst g vals outs ins a k v : gst g vals outs ins -> vals a = Some v -> In k U ->
  exists g', out_insert g (hn a) k = Ok g' /\ gst g' vals (upd2 outs a k true) ins /\ bg_next g' = bg_next g.
Proof.
  intros G E K. destruct (gst_slot g vals outs ins a v G E) as (nd & _ & A & B & C1 & C2 & C3).
  destruct (set_insert_rep (bn_out nd) _ k C2 K) as (p & s & I1 & I2).
  destruct (gst_set g vals outs ins a v (set_out s nd) (fun b => if (b =? k)%Z then true else outs a b) (ins a) G E B) as (g' & S1 & S2 & S3).
  { split; [exact C1|]. split; [exact I2|exact C3]. }
  exists g'. split; [unfold out_insert; rewrite A; cbn [bind]; rewrite I1; exact S1|]. split; [|exact S3].
  eapply gst_ext; [| | |exact S2]; [reflexivity| |].
  - intros x y _. apply upd2_row.
  - intros x y _. cbn. destruct (Z.eqb_spec x a) as [e|D]; [subst x|]; reflexivity.
Qed.
Lemma in_insert_gst g vals outs ins a k v : gst g vals outs ins -> vals a = Some v -> In k U ->
  exists g', in_insert g (hn a) k = Ok g' /\ gst g' vals outs (upd2 ins a k true) /\ bg_next g' = bg_next g.
Proof.
  intros G E K. destruct (gst_slot g vals outs ins a v G E) as (nd & _ & A & B & C1 & C2 & C3).
  destruct (set_insert_rep (bn_in nd) _ k C3 K) as (p & s & I1 & I2).
  destruct (gst_set g vals outs ins a v (set_in s nd) (outs a) (fun b => if (b =? k)%Z then true else ins a b) G E B) as (g' & S1 & S2 & S3).
  { split; [exact C1|]. split; [exact C2|exact I2]. }
  exists g'. split; [unfold in_insert; rewrite A; cbn [bind]; rewrite I1; exact S1|]. split; [|exact S3].
  eapply gst_ext; [| | |exact S2]; [reflexivity| |].
  - intros x y _. cbn. destruct (Z.eqb_spec x a) as [e|D]; [subst x|]; reflexivity.
  - intros x y _. apply upd2_row.
Qed.
Lemma out_erase_gst g vals outs ins a k v : gst g vals outs ins -> vals a = Some v -> In k U ->
  exists g', out_erase g (hn a) k = Ok g' /\ gst g' vals (upd2 outs a k false) ins /\ bg_next g' = bg_next g.
Proof.
  intros G E K. destruct (gst_slot g vals outs ins a v G E) as (nd & _ & A & B & C1 & C2 & C3).
  destruct (set_erase_rep (bn_out nd) _ k C2 K) as (p & s & I1 & I2).
  destruct (gst_set g vals outs ins a v (set_out s nd) (fun b => if (b =? k)%Z then false else outs a b) (ins a) G E B) as (g' & S1 & S2 & S3).
  { split; [exact C1|]. split; [exact I2|exact C3]. }
  exists g'. split; [unfold out_erase; rewrite A; cbn [bind]; rewrite I1; exact S1|]. split; [|exact S3].
  eapply gst_ext; [| | |exact S2]; [reflexivity| |].
  - intros x y _. apply upd2_row.
  - intros x y _. cbn. destruct (Z.eqb_spec x a) as [e|D]; [subst x|]; reflexivity.
Qed.
Lemma in_erase_gst g vals outs ins a k v : gst g vals outs ins -> vals a = Some v -> In k U ->
  exists g', in_erase g (hn a) k = Ok g' /\ gst g' vals outs (upd2 ins a k false) /\ bg_next g' = bg_next g.
Proof.
  intros G E K. destruct (gst_slot g vals outs ins a v G E) as (nd & _ & A & B & C1 & C2 & C3).
  destruct (set_erase_rep (bn_in nd) _ k C3 K) as (p & s & I1 & I2).
  destruct (gst_set g vals outs ins a v (set_in s nd) (outs a) (fun b => if (b =? k)%Z then false else ins a b) G E B) as (g' & S1 & S2 & S3).
  { split; [exact C1|]. split; [exact C2|exact I2]. }
  exists g'. split; [unfold in_erase; rewrite A; cbn [bind]; rewrite I1; exact S1|]. split; [|exact S3].
  eapply gst_ext; [| | |exact S2]; [reflexivity| |].
  - intros x y _. cbn. destruct (Z.eqb_spec x a) as [e|D]; [subst x|]; reflexivity.
  - intros x y _. apply upd2_row.
Qed.

(** * The operations. *)
Lemma slot_of g vals outs ins a v : gst g vals outs ins -> vals a = Some v -> bg_slot h g a = Ok (hn a).
Proof. intros G E. destruct (gst_slot g vals outs ins a v G E) as (nd & A & _). exact A. Qed.

Lemma edge_gst g vals outs ins a b va vb : gst g vals outs ins -> vals a = Some va -> vals b = Some vb ->
  exists g', bg_edge h a b g = Ok g' /\ gst g' vals (upd2 outs a b true) (upd2 ins b a true) /\ bg_next g' = bg_next g.
Proof.
  intros G A B. pose proof (gst_in _ _ _ _ _ _ G A) as UA. pose proof (gst_in _ _ _ _ _ _ G B) as UB'.
  unfold bg_edge. rewrite (slot_of _ _ _ _ _ _ G A), (slot_of _ _ _ _ _ _ G B). cbn [bind].
  destruct (out_insert_gst _ _ _ _ a b va G A UB') as (g1 & E1 & G1 & X1). rewrite E1. cbn [bind].
  destruct (in_insert_gst _ _ _ _ b a vb G1 B UA) as (g2 & E2 & G2 & X2). exists g2. split; [exact E2|]. split; [exact G2|congruence].
Qed.
Lemma cut_gst g vals outs ins a b va vb : gst g vals outs ins -> vals a = Some va -> vals b = Some vb ->
  exists g', bg_cut h a b g = Ok g' /\ gst g' vals (upd2 outs a b false) (upd2 ins b a false) /\ bg_next g' = bg_next g.
Proof.
  intros G A B. pose proof (gst_in _ _ _ _ _ _ G A) as UA. pose proof (gst_in _ _ _ _ _ _ G B) as UB'.
  unfold bg_cut. rewrite (slot_of _ _ _ _ _ _ G A), (slot_of _ _ _ _ _ _ G B). cbn [bind].
  destruct (out_erase_gst _ _ _ _ a b va G A UB') as (g1 & E1 & G1 & X1). rewrite E1. cbn [bind].
  destruct (in_erase_gst _ _ _ _ b a vb G1 B UA) as (g2 & E2 & G2 & X2). exists g2. split; [exact E2|]. split; [exact G2|congruence].
Qed.
Lemma both_gst g vals outs ins a b va vb : gst g vals outs ins -> vals a = Some va -> vals b = Some vb ->
  exists g', bg_both h a b g = Ok g' /\
    gst g' vals (upd2 (upd2 outs a b true) b a true) (upd2 (upd2 ins a b true) b a true) /\ bg_next g' = bg_next g.
Proof.
  intros G A B. pose proof (gst_in _ _ _ _ _ _ G A) as UA. pose proof (gst_in _ _ _ _ _ _ G B) as UB'.
  unfold bg_both. rewrite (slot_of _ _ _ _ _ _ G A), (slot_of _ _ _ _ _ _ G B). cbn [bind].
  destruct (out_insert_gst _ _ _ _ a b va G A UB') as (g1 & E1 & G1 & X1). rewrite E1. cbn [bind].
  destruct (in_insert_gst _ _ _ _ a b va G1 A UB') as (g2 & E2 & G2 & X2). rewrite E2. cbn [bind].
  destruct (out_insert_gst _ _ _ _ b a vb G2 B UA) as (g3 & E3 & G3 & X3). rewrite E3. cbn [bind].
  destruct (in_insert_gst _ _ _ _ b a vb G3 B UA) as (g4 & E4 & G4 & X4). exists g4. split; [exact E4|]. split; [exact G4|congruence].
Qed.
Lemma cut_both_gst g vals outs ins a b va vb : gst g vals outs ins -> vals a = Some va -> vals b = Some vb ->
  exists g', bg_cut_both h a b g = Ok g' /\
    gst g' vals (upd2 (upd2 outs a b false) b a false) (upd2 (upd2 ins a b false) b a false) /\ bg_next g' = bg_next g.
Proof.
  intros G A B. pose proof (gst_in _ _ _ _ _ _ G A) as UA. pose proof (gst_in _ _ _ _ _ _ G B) as UB'.
  unfold bg_cut_both. rewrite (slot_of _ _ _ _ _ _ G A), (slot_of _ _ _ _ _ _ G B). cbn [bind].
  destruct (out_erase_gst _ _ _ _ a b va G A UB') as (g1 & E1 & G1 & X1). rewrite E1. cbn [bind].
  destruct (in_erase_gst _ _ _ _ a b va G1 A UB') as (g2 & E2 & G2 & X2). rewrite E2. cbn [bind].
  destruct (out_erase_gst _ _ _ _ b a vb G2 B UA) as (g3 & E3 & G3 & X3). rewrite E3. cbn [bind].
  destruct (in_erase_gst _ _ _ _ b a vb G3 B UA) as (g4 & E4 & G4 & X4). exists g4. split; [exact E4|]. split; [exact G4|congruence].
Qed.

Lemma add_gst g vals outs ins v : gst g vals outs ins -> In (bg_next g) U ->
  exists g', bg_add h v g = Ok (bg_next g, g') /\ bg_next g' = sz (bg_next g + 1) /\
    gst g' (fset vals (bg_next g) (Some v)) (fset outs (bg_next g) (fun _ => false)) (fset ins (bg_next g) (fun _ => false)).
Proof.
  intros (M & b & f & EG & R & H) K. pose proof R as [L _]. set (id := bg_next g) in *.
  set (nd := BNode id v (bs_make (bg_max g)) (bs_make (bg_max g))).
  exists (BGraph (bg_max g) (sz (id + 1)) (upd b (hn id) (Some (id, nd)) ++ [None])). split; [|split; [reflexivity|]].
  - unfold bg_add. fold id. fold nd. rewrite EG, mp_insert_probe by (exact id_decides || lia). rewrite L. 
    change (home n (h id)) with (hn id). rewrite (rep_probe hn U JH n HNn b f id R K). reflexivity.
  - split; [exact M|]. exists (upd b (hn id) (Some (id, nd))), (fset f id (Some nd)). split; [reflexivity|]. split.
    + exact (rep_upd hn U JH n HNn b f id (Some nd) R K).
    + intros a. unfold fset. destruct (Z.eqb_spec a id) as [e|D]; [|apply H].
      subst a. split; [reflexivity|]. split; [reflexivity|]. cbn [bn_out bn_in nd]. rewrite M. unfold bs_make.
      split; apply rep_none; exact HNe.
Qed.

Lemma loop_nothing g edges body p nd : bg_at g p = Ok nd -> length (edges nd) = bg_max g -> bs_empty (edges nd) = true ->
  bg_each edges body p g = Ok g.
Proof.
  intros A L E. unfold bg_each. rewrite A. cbn [bind bg_loop]. rewrite first_used_none.
  - rewrite L, Nat.eqb_refl. reflexivity.
  - rewrite empty_contents in E. destruct (contents (edges nd)); [reflexivity|discriminate].
Qed.

Lemma remove_bare_gst g vals outs ins a v : gst g vals outs ins -> vals a = Some v ->
  (forall b, outs a b = false) -> (forall b, ins a b = false) ->
  exists g', bg_remove h a g = Ok g' /\ gst g' (fset vals a None) outs ins /\ bg_next g' = bg_next g.
Proof.
  intros G E EO EI. destruct (gst_slot g vals outs ins a v G E) as (nd & A & B & C & D1 & D2 & D3).
  pose proof (gst_in _ _ _ _ _ _ G E) as IU. unfold bg_remove. rewrite A. cbn [bind].
  pose proof G as (M & b & f & EG & R & H). pose proof R as [L _].
  rewrite (loop_nothing g bn_in _ (hn a) nd B).
  2:{ rewrite M. apply D3. }
  2:{ apply (rep_empty _ _ _ _ _ D3). intros k. cbn beta. rewrite EI. reflexivity. }
  cbn [bind]. rewrite (loop_nothing g bn_out _ (hn a) nd B).
  2:{ rewrite M. apply D2. }
  2:{ apply (rep_empty _ _ _ _ _ D2). intros k. cbn beta. rewrite EO. reflexivity. }
  cbn [bind]. exists (set_nodes (upd b (hn a) None ++ [None]) g). split; [|split; [|reflexivity]].
  - rewrite EG, mp_erase_probe by (exact id_decides || lia). rewrite L. change (home n (h a)) with (hn a).
    rewrite (rep_probe hn U JH n HNn b f a R IU). reflexivity.
  - split; [exact M|]. exists (upd b (hn a) None), (fset f a None). split; [reflexivity|]. split.
    + exact (rep_upd hn U JH n HNn b f a None R IU).
    + intros x. unfold fset. destruct (Z.eqb_spec x a) as [e|D]; [reflexivity|apply H].
Qed.

Lemma has_gst g vals outs ins a : gst g vals outs ins -> bg_has h g a = Ok (match vals a with Some _ => true | None => false end).
Proof.
  intros (M & b & f & EG & R & H). pose proof R as [L _]. unfold bg_has, mp_exists. rewrite EG, mp_find_index_home by lia.
  rewrite L. change (home n (h a)) with (hn a). cbn [bind].
  pose proof (rep_value hn U JH n HNn b f a R) as V. unfold value in V.
  destruct (probe_from id_eq b (hn a) a) as [i|] eqn:P.
  - destruct (probe_from_some id_eq id_decides _ _ _ _ P) as [S' _]. pose proof (stop_lt _ _ _ S') as SL.
    rewrite rd_app_l by exact SL. unfold rd. destruct (nth_error_ex b i SL) as [o EO]. rewrite EO in *. cbn [bind].
    specialize (H a). destruct o as [[k w]|]; rewrite <- V in H; [destruct H as [-> _]|rewrite H]; reflexivity.
  - specialize (H a). rewrite <- V in H. rewrite H. reflexivity.
Qed.

(** * Removing a node that has edges. *)
Lemma loop_edges_ub (P : bgraph T -> Prop) edges body p l :
  (forall g, P g -> exists nd, bg_at g p = Ok nd /\ edges nd = l /\ bg_max g = length l) ->
  (forall g k v, P g -> In (k, v) (contents l) -> exists g', body k g = Ok g' /\ P g') ->
  forall c a g fuel, l = a ++ c -> contents c <> [] -> P g -> length c < fuel ->
  bg_loop fuel edges body p (length a + first_used c) g = UB.
Proof.
  intros HP HB. induction c as [|[[k w]|] c IH]; intros a g fuel EL NC PG HF; cbn [first_used contents] in *.
  - congruence.
  - rewrite Nat.add_0_r. destruct fuel as [|fuel]; [cbn in HF; lia|]. cbn [bg_loop].
    destruct (HP g PG) as (nd & A & B & C). rewrite C.
    assert (LL : length l = length a + S (length c)) by (rewrite EL, app_length; reflexivity).
    destruct (Nat.eqb_spec (length a) (length l)) as [e|_]; [lia|]. rewrite A. cbn [bind]. rewrite B.
    unfold it_get. rewrite EL, rd_app_at. cbn [bind].
    destruct (HB g k w PG) as (g' & E' & PG').
    { rewrite EL, contents_app. apply in_or_app. right. left. reflexivity. }
    rewrite E'. cbn [bind]. destruct (HP g' PG') as (nd' & A' & B' & C'). rewrite A'. cbn [bind]. rewrite B', C'.
    unfold it_next. pose proof (scan_plain true c (a ++ [Some (k, w)]) (S (S (length l)))) as X.
    rewrite <- (app_assoc a) in X. cbn [app] in X. rewrite <- EL in X. rewrite (app_length a) in X. cbn [length] in X.
    rewrite Nat.add_1_r in X. rewrite X by lia. destruct (contents c) as [|q cs] eqn:EC; [reflexivity|]. cbn [bind].
    specialize (IH (a ++ [Some (k, w)]) g' fuel). rewrite (app_length a), Nat.add_1_r in IH by reflexivity.
    apply IH; [rewrite <- app_assoc; exact EL|discriminate|exact PG'|cbn in HF; lia].
  - specialize (IH (a ++ [None]) g fuel). rewrite (app_length a) in IH. cbn [length] in IH.
    replace (length a + S (first_used c)) with (length a + 1 + first_used c) by lia.
    apply IH; [rewrite <- app_assoc; exact EL|exact NC|exact PG|cbn in HF; lia].
Qed.

Lemma each_ub (P : bgraph T -> Prop) edges body p l g :
  (forall g, P g -> exists nd, bg_at g p = Ok nd /\ edges nd = l /\ bg_max g = length l) ->
  (forall g k v, P g -> In (k, v) (contents l) -> exists g', body k g = Ok g' /\ P g') ->
  contents l <> [] -> P g -> bg_each edges body p g = UB.
Proof.
  intros HP HB NC PG. unfold bg_each. destruct (HP g PG) as (nd & A & B & C). rewrite A. cbn [bind]. rewrite B.
  apply (loop_edges_ub P edges body p l HP HB l [] g); auto. lia.
Qed.

Lemma nonempty_contents (s : @set_slots Z) o b : rep he U n s (fun b => tag (o b)) -> o b = true -> contents s <> [].
Proof.
  intros R E X. assert (I' : In (b, tt) (contents s)) by (apply (rep_contents _ _ _ _ _ b tt R); rewrite E; reflexivity).
  rewrite X in I'. destruct I'.
Qed.

Lemma remove_edges_ub g vals outs ins a v : gst g vals outs ins -> vals a = Some v ->
  (forall x y, outs x y = true -> vals x <> None /\ vals y <> None) ->
  (forall x y, ins x y = true -> vals x <> None /\ vals y <> None) ->
  (exists b, outs a b = true \/ ins a b = true) ->
  bg_remove h a g = UB.
Proof.
  intros G E KO KI [b0 T0]. destruct (gst_slot g vals outs ins a v G E) as (nd & A & B & C & D1 & D2 & D3).
  pose proof (gst_in _ _ _ _ _ _ G E) as IU. unfold bg_remove. rewrite A. cbn [bind].
  destruct (bs_empty (bn_in nd)) eqn:EI.
  - pose proof G as (M & _). rewrite (loop_nothing g bn_in _ (hn a) nd B) by (auto; rewrite M; apply D3). cbn [bind].
    assert (OB : outs a b0 = true).
    { destruct T0 as [X|X]; [exact X|]. apply (rep_empty _ _ _ _ _ D3) with (k := b0) in EI. cbn beta in EI.
      rewrite X in EI. discriminate. }
    rewrite (each_ub (fun g => exists ins', gst g vals outs ins') bn_out _ (hn a) (bn_out nd) g); [reflexivity|..].
    + intros g1 (ins1 & G1). destruct (gst_slot g1 vals outs ins1 a v G1 E) as (nd1 & _ & B1 & _ & _ & F2 & _).
      exists nd1. split; [exact B1|]. pose proof (rep_unique _ _ _ _ _ _ F2 D2) as ->. split; [reflexivity|].
      rewrite (proj1 G1). symmetry. apply D2.
    + intros g1 k w (ins1 & G1) I'. apply (rep_contents _ _ _ _ _ k w D2) in I'.
      assert (OK : outs a k = true) by (destruct (outs a k); [reflexivity|discriminate]).
      destruct (KO a k OK) as [_ NK]. destruct (vals k) as [vk|] eqn:EK; [|congruence].
      rewrite (slot_of _ _ _ _ _ _ G1 EK). cbn [bind].
      destruct (in_erase_gst _ _ _ _ k a vk G1 EK IU) as (g2 & E2 & G2 & _). exists g2. split; [exact E2|]. eexists. exact G2.
    + exact (nonempty_contents _ _ _ D2 OB).
    + exists ins. exact G.
  - rewrite (each_ub (fun g => exists outs', gst g vals outs' ins) bn_in _ (hn a) (bn_in nd) g); [reflexivity|..].
    + intros g1 (outs1 & G1). destruct (gst_slot g1 vals outs1 ins a v G1 E) as (nd1 & _ & B1 & _ & _ & _ & F3).
      exists nd1. split; [exact B1|]. pose proof (rep_unique _ _ _ _ _ _ F3 D3) as ->. split; [reflexivity|].
      rewrite (proj1 G1). symmetry. apply D3.
    + intros g1 k w (outs1 & G1) I'. apply (rep_contents _ _ _ _ _ k w D3) in I'.
      assert (OK : ins a k = true) by (destruct (ins a k); [reflexivity|discriminate]).
      destruct (KI a k OK) as [_ NK]. destruct (vals k) as [vk|] eqn:EK; [|congruence].
      rewrite (slot_of _ _ _ _ _ _ G1 EK). cbn [bind].
      destruct (out_erase_gst _ _ _ _ k a vk G1 EK IU) as (g2 & E2 & G2 & _). exists g2. split; [exact E2|]. eexists. exact G2.
    + intros X. rewrite empty_contents, X in EI. discriminate.
    + exists outs. exact G.
Qed.

(** * Loops over the nodes. *)
Lemma scan_yields g keep kb xs : forall i,
  yields false (mp_range (bg_nodes g)) i xs -> (forall p, In p xs -> keep (snd p) = Ok (kb (snd p))) ->
  forall fuel acc, length xs < fuel ->
  bg_scan fuel keep g i acc = Ok (acc ++ map bn_id (filter kb (map snd xs))).
Proof.
  induction xs as [|x xs IH]; intros i Y K fuel acc HF; (destruct fuel as [|fuel]; [cbn in HF; lia|]); cbn [bg_scan].
  - inversion Y as [s E _ X1 X2|]. subst s. cbn in E. unfold mp_range in E. cbn in E. rewrite E. cbn. rewrite app_nil_r. reflexivity.
  - inversion Y as [|s x' s' xs' E1 E2 E3 _ Y' X1 X2]. subst s x' xs'. cbn [mp_range it_range forward at_end get inc] in E1, E2, E3. rewrite E1, E2.
    destruct x as [k nd]. cbn [bind]. pose proof (K (k, nd) (or_introl eq_refl)) as KK. cbn [snd] in KK. rewrite KK. cbn [bind]. rewrite E3. cbn [bind].
    rewrite (IH s' Y'); [|intros q Q; apply K; right; exact Q|cbn in HF; lia].
    cbn [map snd filter]. destruct (kb nd); cbn [map]; [rewrite <- app_assoc|]; reflexivity.
Qed.
Lemma filter_key_map (kb : bnode T -> bool) xs : (forall k nd, In (k, nd) xs -> bn_id nd = k) ->
  map bn_id (filter kb (map snd xs)) = map fst (filter (fun p => kb (snd p)) xs).
Proof.
  induction xs as [|[k nd] xs IH]; intros H; [reflexivity|]. cbn [map snd filter].
  destruct (kb nd); cbn [map]; rewrite IH by (intros; apply H; right; assumption); [|reflexivity].
  rewrite (H k nd) by (left; reflexivity). reflexivity.
Qed.
Lemma filter_map_nodup {A B} (q : A -> bool) (key : A -> B) xs : NoDup (map key xs) -> NoDup (map key (filter q xs)).
Proof.
  induction xs as [|x xs IH]; cbn; intros H; [constructor|]. inversion H as [|? ? N M]; subst. destruct (q x); cbn; auto.
  constructor; auto. intros I'. apply N. apply in_map_iff in I'. destruct I' as (y & E & Y). apply filter_In in Y. rewrite <- E.
  apply in_map. apply Y.
Qed.

Lemma scan_gst g vals outs ins keep kb q :
  gst g vals outs ins ->
  (forall a nd v, bg_node h g a = Ok nd -> vals a = Some v -> bn_value nd = v -> node_ok a nd (outs a) (ins a) ->
     keep nd = Ok (kb nd) /\ kb nd = q a v) ->
  exists l, bg_scan (S (mp_capacity (bg_nodes g))) keep g (bg_begin g) [] = Ok l /\ NoDup l /\
    forall a, In a l <-> exists v, vals a = Some v /\ q a v = true.
Proof.
  intros G KE. pose proof G as (M & b & f & EG & R & H). pose proof R as [L _].
  assert (KP : forall k nd, In (k, nd) (contents b) -> exists v, vals k = Some v /\ keep nd = Ok (kb nd) /\ kb nd = q k v /\ bn_id nd = k).
  { intros k nd I'. apply (rep_contents _ _ _ _ _ k nd R) in I'. pose proof (H k) as Hk. rewrite I' in Hk. destruct Hk as [A B].
    exists (bn_value nd). split; [exact A|].
    destruct (gst_slot g vals outs ins k _ G A) as (nd' & S1 & S2 & S3 & S4).
    assert (nd' = nd) as ->.
    { unfold bg_at, it_get in S2. rewrite EG, (rd_rep b f k nd R I') in S2. cbn in S2. congruence. }
    destruct (KE k nd (bn_value nd)) as [X1 X2]; auto.
    - unfold bg_node. rewrite S1. exact S2.
    - split; [exact X1|]. split; [exact X2|]. apply B. }
  exists (map fst (filter (fun p => kb (snd p)) (contents b))). split; [|split].
  - rewrite (scan_yields g keep kb (contents b)).
    + cbn [app]. rewrite filter_key_map; [reflexivity|]. intros k nd I'. destruct (KP k nd I') as (v & _ & _ & _ & X). exact X.
    + unfold mp_range, bg_begin. rewrite EG, cap_app, firstn_app, Nat.sub_diag, firstn_all, app_nil_r.
      exact (loop_sentinel b []).
    + intros [k nd] I'. destruct (KP k nd I') as (v & _ & X & _). exact X.
    + rewrite EG, cap_app. pose proof (contents_length b). lia.
  - apply filter_map_nodup. eapply rep_nodup; exact R.
  - intros a. rewrite in_map_iff. split.
    + intros ([k nd] & E & I'). cbn in E. subst k. apply filter_In in I'. destruct I' as [I' X]. cbn in X.
      destruct (KP a nd I') as (v & A & _ & B & _). exists v. split; [exact A|congruence].
    + intros (v & A & B). pose proof (H a) as Ha. destruct (f a) as [nd|] eqn:F; [|congruence].
      exists (a, nd). split; [reflexivity|]. apply filter_In.
      assert (I' : In (a, nd) (contents b)) by (apply (rep_contents _ _ _ _ _ a nd R); exact F).
      split; [exact I'|]. cbn. destruct (KP a nd I') as (v' & A' & _ & B' & _). congruence.
Qed.
Lemma size_gst g vals outs ins (m : list (Z * T)) : gst g vals outs ins -> NoDup (map fst m) ->
  (forall a v, In (a, v) m <-> vals a = Some v) -> (Z.of_nat n < 2 ^ 64)%Z -> bg_size g = Z.of_nat (length m).
Proof.
  intros (M & b & f & EG & R & H) ND HM H64. pose proof R as [L _]. unfold bg_size, mp_size. rewrite EG.
  rewrite size_from_app. cbn [mp_size_from]. rewrite size_contents by lia. rewrite Z.add_0_l. f_equal.
  rewrite <- (map_length fst m), <- (map_length fst (contents b)). apply Permutation_length. apply NoDup_Permutation.
  - eapply rep_nodup; exact R.
  - exact ND.
  - intros a. rewrite !in_map_iff. split.
    + intros ([k nd] & E & I'). cbn in E. subst k. apply (rep_contents _ _ _ _ _ a nd R) in I'.
      pose proof (H a) as Ha. rewrite I' in Ha. exists (a, bn_value nd). split; [reflexivity|]. apply HM. apply Ha.
    + intros ([k v] & E & I'). cbn in E. subst k. apply HM in I'. pose proof (H a) as Ha.
      destruct (f a) as [nd|] eqn:F; [|congruence]. exists (a, nd). split; [reflexivity|]. apply (rep_contents _ _ _ _ _ a nd R). exact F.
Qed.
Lemma add_full g vals outs ins (m : list (Z * T)) v : gst g vals outs ins -> NoDup (map fst m) ->
  (forall a v, In (a, v) m <-> vals a = Some v) -> length m = n -> vals (bg_next g) = None -> bg_add h v g = UB.
Proof.
  intros (M & b & f & EG & R & H) ND HM LM VN. pose proof R as [L _]. unfold bg_add.
  rewrite EG, mp_insert_probe by (exact id_decides || lia). rewrite L. set (id := bg_next g) in *.
  change (home n (h id)) with (hn id).
  destruct (probe_from id_eq b (hn id) id) as [i|] eqn:P; [|reflexivity]. exfalso.
  destruct (probe_from_some id_eq id_decides _ _ _ _ P) as [[S'|[w S']] _].
  - apply contents_lt in S'. assert (length (contents b) = n); [|lia].
    rewrite <- LM, <- (map_length fst m), <- (map_length fst (contents b)). apply Permutation_length. apply NoDup_Permutation.
    + eapply rep_nodup; exact R.
    + exact ND.
    + intros a. rewrite !in_map_iff. split.
      * intros ([k nd] & E & I'). cbn in E. subst k. apply (rep_contents _ _ _ _ _ a nd R) in I'.
        pose proof (H a) as Ha. rewrite I' in Ha. exists (a, bn_value nd). split; [reflexivity|]. apply HM. apply Ha.
      * intros ([k w] & E & I'). cbn in E. subst k. apply HM in I'. pose proof (H a) as Ha.
        destruct (f a) as [nd|] eqn:F; [|congruence]. exists (a, nd). split; [reflexivity|]. apply (rep_contents _ _ _ _ _ a nd R). exact F.
  - destruct (rep_from _ _ _ _ _ _ _ _ R S') as [_ F]. pose proof (H id) as Ha. rewrite F in Ha. destruct Ha. congruence.
Qed.

(** * The graph and its specification. *)
Definition inv (g : bgraph T) (d : digraph T) : Prop :=
  gst g (dg_value d) (dg_edge d) (fun a b => dg_edge d b a) /\ bg_next g = dg_next d /\
  (0 <= dg_next d)%Z /\ NoDup (map fst (dg_nodes d)) /\
  (forall a v, dg_value d a = Some v -> (0 <= a < dg_next d)%Z) /\
  (forall a b, dg_edge d a b = true -> dg_value d a <> None /\ dg_value d b <> None).

Lemma has_value (d : digraph T) a : dg_has d a = true <-> exists v, dg_value d a = Some v.
Proof.
  unfold dg_has, has, dg_value. destruct (alookup Z.eqb (dg_nodes d) a) as [v|]; split; try discriminate; eauto.
  intros [v E]. discriminate.
Qed.
Lemma edge_add es nx (nodes : list (Z * T)) a b x y :
  dg_edge (DG nx nodes ((a, b) :: es)) x y = upd2 (dg_edge (DG nx nodes es)) a b true x y.
Proof.
  unfold dg_edge, upd2. cbn [dg_edges existsb fst snd]. rewrite (Z.eqb_sym a), (Z.eqb_sym b).
  destruct ((x =? a) && (y =? b))%Z; reflexivity.
Qed.
Lemma edge_del es nx (nodes : list (Z * T)) a b x y :
  dg_edge (DG nx nodes (del_edge a b es)) x y = upd2 (dg_edge (DG nx nodes es)) a b false x y.
Proof.
  unfold dg_edge, upd2, del_edge. cbn [dg_edges]. induction es as [|[p q] es IH]; cbn [filter existsb fst snd].
  - destruct ((x =? a) && (y =? b))%Z; reflexivity.
  - destruct ((p =? a) && (q =? b))%Z eqn:E; cbn [negb existsb fst snd]; rewrite IH; [|].
    + apply andb_true_iff in E. destruct E as [E1 E2]. apply Z.eqb_eq in E1, E2. subst p q. rewrite (Z.eqb_sym a), (Z.eqb_sym b).
      destruct ((x =? a) && (y =? b))%Z; reflexivity.
    + destruct ((x =? a) && (y =? b))%Z eqn:F; [|reflexivity].
      apply andb_true_iff in F. destruct F as [E1 E2]. apply Z.eqb_eq in E1, E2. subst x y. rewrite E. reflexivity.
Qed.
Lemma edge_in (d : digraph T) a b : dg_edge d a b = true <-> In (a, b) (dg_edges d).
Proof.
  unfold dg_edge. rewrite existsb_exists. split.
  - intros ([x y] & I' & E). cbn in E. apply andb_true_iff in E. destruct E as [E1 E2]. apply Z.eqb_eq in E1, E2. subst. exact I'.
  - intros I'. exists (a, b). split; [exact I'|]. cbn. rewrite !Z.eqb_refl. reflexivity.
Qed.
Lemma touched_edges (d : digraph T) a : dg_touched d a = true <-> exists b, dg_edge d a b = true \/ dg_edge d b a = true.
Proof.
  unfold dg_touched. rewrite existsb_exists. split.
  - intros ([x y] & I' & E). cbn in E. apply orb_true_iff in E. destruct E as [E|E]; apply Z.eqb_eq in E; subst.
    + exists y. left. apply edge_in. exact I'.
    + exists x. right. apply edge_in. exact I'.
  - intros (b & [E|E]); apply edge_in in E; eexists; (split; [exact E|]); cbn; rewrite Z.eqb_refl; [reflexivity|apply orb_true_r].
Qed.
Lemma alookup_remove (m : list (Z * T)) a x : alookup Z.eqb (aremove Z.eqb a m) x = fset (fun x => alookup Z.eqb m x) a None x.
Proof.
  unfold fset. induction m as [|[k v] m IH]; cbn [aremove filter alookup fst]; [destruct (x =? a)%Z; reflexivity|].
  fold (aremove Z.eqb a m). destruct (Z.eqb_spec k a) as [e|N]; cbn [negb].
  - subst k. rewrite IH. rewrite (Z.eqb_sym a). destruct (x =? a)%Z; reflexivity.
  - cbn [alookup]. destruct (Z.eqb_spec k x) as [e|N2]; [|exact IH]. subst k.
    destruct (Z.eqb_spec x a) as [e|_]; [congruence|reflexivity].
Qed.


Lemma step_inv o g d d' :
  inv g d -> dg_step o d = Some d' -> (match o with GRemove a => negb (dg_touched d a) | _ => true end) = true ->
  (match o with GAdd _ => In (dg_next d) U /\ (dg_next d + 1 < 2 ^ 64)%Z | _ => True end) ->
  exists g', bg_step h o g = Ok g' /\ inv g' d'.
Proof.
  intros (G & NX & ZN & ND & KR & KE) S' BR AD.
  assert (EN : forall es, (forall a b, dg_edge (DG (dg_next d) (dg_nodes d) es) a b = true -> dg_value d a <> None /\ dg_value d b <> None) ->
    forall g' outs ins, gst g' (dg_value d) outs ins -> bg_next g' = bg_next g ->
    (forall a b, outs a b = dg_edge (DG (dg_next d) (dg_nodes d) es) a b) ->
    (forall a b, ins a b = dg_edge (DG (dg_next d) (dg_nodes d) es) b a) -> inv g' (DG (dg_next d) (dg_nodes d) es)).
  { intros es KE' g' outs ins G' NX' EO EI. split.
    - eapply gst_ext; [| | |exact G']; [reflexivity| |]; intros; [apply EO|apply EI].
    - split; [cbn; congruence|]. split; [exact ZN|]. split; [exact ND|]. split; [exact KR|exact KE']. }
  destruct o as [v|a b|a b|a b|a b|a]; cbn [dg_step bg_step] in *.
  - injection S' as <-. destruct AD as [IU LT]. rewrite <- NX in IU.
    destruct (add_gst g _ _ _ v G IU) as (g' & E & NX' & G'). exists g'. split; [rewrite E; reflexivity|]. rewrite NX in *.
    assert (VN : dg_value d (dg_next d) = None).
    { destruct (dg_value d (dg_next d)) as [w|] eqn:X; [|reflexivity]. apply KR in X. lia. }
    split.
    + eapply gst_ext; [| | |exact G'].
      * intros a. unfold fset, dg_value. cbn [dg_nodes alookup]. rewrite (Z.eqb_sym a). destruct (dg_next d =? a)%Z; reflexivity.
      * intros a b _. unfold fset. destruct (Z.eqb_spec a (dg_next d)) as [e|N]; [|reflexivity]. subst a.
        destruct (dg_edge d (dg_next d) b) eqn:X; [|symmetry; exact X]. apply KE in X. tauto.
      * intros a b _. unfold fset. destruct (Z.eqb_spec a (dg_next d)) as [e|N]; [|reflexivity]. subst a.
        destruct (dg_edge d b (dg_next d)) eqn:X; [|symmetry; exact X]. apply KE in X. tauto.
    + split; [cbn [dg_next]; rewrite NX'; unfold sz, wrap; apply Z.mod_small; lia|]. split; [cbn; lia|]. split.
      * cbn [dg_nodes map fst]. constructor; [|exact ND]. apply (alookup_none Z.eqb zeq_decides). exact VN.
      * split.
        -- intros a w. unfold dg_value. cbn [dg_nodes alookup dg_next]. destruct (Z.eqb_spec (dg_next d) a) as [e|N]; [lia|].
           intros X. apply KR in X. lia.
        -- intros a b X. apply KE in X. unfold dg_value in *. cbn [dg_nodes alookup].
           destruct (dg_next d =? a)%Z, (dg_next d =? b)%Z; split; try discriminate; apply X.
  - destruct (dg_has d a && dg_has d b) eqn:HB; [|discriminate]. injection S' as <-. apply andb_true_iff in HB. destruct HB as [HA HB].
    apply has_value in HA, HB. destruct HA as [va VA], HB as [vb VB].
    destruct (edge_gst g _ _ _ a b va vb G VA VB) as (g' & E & G' & X). exists g'. split; [exact E|].
    eapply EN; [|exact G'|exact X| |].
    + intros x y. rewrite edge_add. unfold upd2. destruct ((x =? a) && (y =? b))%Z eqn:F; [|apply KE].
      apply andb_true_iff in F. destruct F as [E1 E2]. apply Z.eqb_eq in E1, E2. subst. intros _. split; congruence.
    + intros x y. rewrite edge_add. reflexivity.
    + intros x y. rewrite edge_add. unfold upd2. rewrite andb_comm. reflexivity.
  - destruct (dg_has d a && dg_has d b) eqn:HB; [|discriminate]. injection S' as <-. apply andb_true_iff in HB. destruct HB as [HA HB].
    apply has_value in HA, HB. destruct HA as [va VA], HB as [vb VB].
    destruct (both_gst g _ _ _ a b va vb G VA VB) as (g' & E & G' & X). exists g'. split; [exact E|].
    eapply EN; [|exact G'|exact X| |].
    + intros x y. rewrite edge_add. unfold upd2 at 1. rewrite edge_add. unfold upd2.
      destruct ((x =? a) && (y =? b))%Z eqn:F; [|destruct ((x =? b) && (y =? a))%Z eqn:F2; [|apply KE]];
      [apply andb_true_iff in F; destruct F as [E1 E2]|apply andb_true_iff in F2; destruct F2 as [E1 E2]];
      apply Z.eqb_eq in E1, E2; subst; intros _; split; congruence.
    + intros x y. rewrite edge_add. unfold upd2. rewrite edge_add. unfold upd2. cbn beta.
      change (dg_edge (DG (dg_next d) (dg_nodes d) (dg_edges d))) with (dg_edge d).
      destruct ((x =? a) && (y =? b))%Z, ((x =? b) && (y =? a))%Z; reflexivity.
    + intros x y. rewrite edge_add. unfold upd2. rewrite edge_add. unfold upd2. cbn beta.
      change (dg_edge (DG (dg_next d) (dg_nodes d) (dg_edges d))) with (dg_edge d).
      rewrite (andb_comm (y =? a)%Z), (andb_comm (y =? b)%Z).
      destruct ((x =? a) && (y =? b))%Z, ((x =? b) && (y =? a))%Z; reflexivity.
  - destruct (dg_has d a && dg_has d b) eqn:HB; [|discriminate]. injection S' as <-. apply andb_true_iff in HB. destruct HB as [HA HB].
    apply has_value in HA, HB. destruct HA as [va VA], HB as [vb VB].
    destruct (cut_gst g _ _ _ a b va vb G VA VB) as (g' & E & G' & X). exists g'. split; [exact E|].
    eapply EN; [|exact G'|exact X| |].
    + intros x y. rewrite edge_del. unfold upd2. destruct ((x =? a) && (y =? b))%Z eqn:F; [discriminate|apply KE].
    + intros x y. rewrite edge_del. reflexivity.
    + intros x y. rewrite edge_del. unfold upd2. rewrite andb_comm. reflexivity.
  - destruct (dg_has d a && dg_has d b) eqn:HB; [|discriminate]. injection S' as <-. apply andb_true_iff in HB. destruct HB as [HA HB].
    apply has_value in HA, HB. destruct HA as [va VA], HB as [vb VB].
    destruct (cut_both_gst g _ _ _ a b va vb G VA VB) as (g' & E & G' & X). exists g'. split; [exact E|].
    eapply EN; [|exact G'|exact X| |].
    + intros x y. rewrite edge_del. unfold upd2 at 1. rewrite edge_del. unfold upd2.
      destruct ((x =? a) && (y =? b))%Z eqn:F; [discriminate|]. destruct ((x =? b) && (y =? a))%Z eqn:F2; [discriminate|apply KE].
    + intros x y. rewrite edge_del. unfold upd2. rewrite edge_del. unfold upd2. cbn beta.
      change (dg_edge (DG (dg_next d) (dg_nodes d) (dg_edges d))) with (dg_edge d).
      destruct ((x =? a) && (y =? b))%Z, ((x =? b) && (y =? a))%Z; reflexivity.
    + intros x y. rewrite edge_del. unfold upd2. rewrite edge_del. unfold upd2. cbn beta.
      change (dg_edge (DG (dg_next d) (dg_nodes d) (dg_edges d))) with (dg_edge d).
      rewrite (andb_comm (y =? a)%Z), (andb_comm (y =? b)%Z).
      destruct ((x =? a) && (y =? b))%Z, ((x =? b) && (y =? a))%Z; reflexivity.
  - destruct (dg_has d a) eqn:HA; [|discriminate]. injection S' as <-. apply has_value in HA. destruct HA as [va VA].
    assert (NT : forall b, dg_edge d a b = false /\ dg_edge d b a = false).
    { intros b. destruct (dg_edge d a b) eqn:X1.
      - rewrite (proj2 (touched_edges d a)) in BR by eauto. discriminate.
      - destruct (dg_edge d b a) eqn:X2; [|auto]. rewrite (proj2 (touched_edges d a)) in BR by eauto. discriminate. }
    destruct (remove_bare_gst g _ _ _ a va G VA (fun b => proj1 (NT b)) (fun b => proj2 (NT b))) as (g' & E & G' & X).
    exists g'. split; [exact E|].
    assert (EE : forall x y, dg_edge (DG (dg_next d) (aremove Z.eqb a (dg_nodes d))
        (filter (fun e => negb ((fst e =? a) || (snd e =? a))%Z) (dg_edges d))) x y = dg_edge d x y).
    { intros x y. apply eq_true_iff_eq. rewrite !edge_in. cbn [dg_edges]. rewrite filter_In. split; [tauto|]. intros I'.
      split; [exact I'|]. cbn. apply edge_in in I'. destruct (Z.eqb_spec x a) as [e|N1].
      - subst x. rewrite (proj1 (NT y)) in I'. discriminate.
      - destruct (Z.eqb_spec y a) as [e|N2]; [|reflexivity]. subst y. rewrite (proj2 (NT x)) in I'. discriminate. }
    split.
    + eapply gst_ext; [| | |exact G'].
      * intros x. unfold dg_value. cbn [dg_nodes]. rewrite alookup_remove. reflexivity.
      * intros x y _. symmetry. apply EE.
      * intros x y _. symmetry. apply EE.
    + split; [cbn; congruence|]. split; [exact ZN|]. split; [cbn; apply aremove_nodup; exact ND|]. split.
      * intros x w. unfold dg_value. cbn [dg_nodes dg_next]. rewrite alookup_remove. unfold fset.
        destruct (x =? a)%Z; [discriminate|]. apply KR.
      * intros x y. rewrite EE. intros Y. destruct (KE x y Y) as [K1 K2]. unfold dg_value in *. cbn [dg_nodes].
        rewrite !alookup_remove. unfold fset. destruct (Z.eqb_spec x a) as [e|N1].
        -- subst x. rewrite (proj1 (NT y)) in Y. discriminate.
        -- destruct (Z.eqb_spec y a) as [e|N2]; [|auto]. subst y. rewrite (proj2 (NT x)) in Y. discriminate.
Qed.

Lemma inv_items g d a v : inv g d -> (In (a, v) (dg_nodes d) <-> dg_value d a = Some v).
Proof. intros (_ & _ & _ & ND & _). symmetry. apply (alookup_in Z.eqb zeq_decides). exact ND. Qed.
Lemma filter_perm g d (l : list Z) (q : Z -> T -> bool) q' :
  inv g d -> NoDup l -> (forall a, In a l <-> exists v, dg_value d a = Some v /\ q a v = true) ->
  (forall a v, In (a, v) (dg_nodes d) -> q' (a, v) = q a v) ->
  Permutation l (map fst (filter q' (dg_nodes d))).
Proof.
  intros IV NL HL HQ. pose proof IV as (_ & _ & _ & ND & _). apply NoDup_Permutation; [exact NL|apply filter_map_nodup; exact ND|].
  intros a. rewrite HL, in_map_iff. split.
  - intros (v & A & B). apply (inv_items g d a v IV) in A. exists (a, v). split; [reflexivity|]. apply filter_In.
    split; [exact A|]. rewrite HQ by exact A. exact B.
  - intros ([k v] & E & I'). cbn in E. subst k. apply filter_In in I'. destruct I' as [A B]. exists v.
    split; [apply (inv_items g d a v IV); exact A|]. rewrite <- HQ by exact A. exact B.
Qed.
Lemma map_filter_fst (q : Z -> bool) (m : list (Z * T)) : filter q (map fst m) = map fst (filter (fun p => q (fst p)) m).
Proof. induction m as [|[k v] m IH]; [reflexivity|]. cbn. destruct (q k); cbn; rewrite IH; reflexivity. Qed.
Lemma no_in (d : digraph T) a : existsb (fun e => (snd e =? a)%Z) (dg_edges d) = false <-> forall b, dg_edge d b a = false.
Proof.
  split.
  - intros E b. destruct (dg_edge d b a) eqn:X; [|reflexivity]. apply edge_in in X.
    rewrite <- E. symmetry. apply existsb_exists. exists (b, a). split; [exact X|]. cbn. apply Z.eqb_refl.
  - intros H. apply not_true_iff_false. intros E. apply existsb_exists in E. destruct E as ([x y] & I' & E). cbn in E.
    apply Z.eqb_eq in E. subst y. apply edge_in in I'. rewrite H in I'. discriminate.
Qed.
Lemma no_out (d : digraph T) a : existsb (fun e => (fst e =? a)%Z) (dg_edges d) = false <-> forall b, dg_edge d a b = false.
Proof.
  split.
  - intros E b. destruct (dg_edge d a b) eqn:X; [|reflexivity]. apply edge_in in X.
    rewrite <- E. symmetry. apply existsb_exists. exists (a, b). split; [exact X|]. cbn. apply Z.eqb_refl.
  - intros H. apply not_true_iff_false. intros E. apply existsb_exists in E. destruct E as ([x y] & I' & E). cbn in E.
    apply Z.eqb_eq in E. subst x. apply edge_in in I'. rewrite H in I'. discriminate.
Qed.
Lemma empty_rep (s : @set_slots Z) o e : rep he U n s (fun b => tag (o b)) -> (e = false <-> forall b, o b = false) -> bs_empty s = negb e.
Proof.
  intros R H. apply eq_true_iff_eq. rewrite (rep_empty _ _ _ _ _ R). split.
  - intros X. rewrite (proj2 H); [reflexivity|]. intros b. specialize (X b). destruct (o b); [discriminate|reflexivity].
  - intros X b. destruct e; [discriminate|]. rewrite (proj1 H eq_refl b). reflexivity.
Qed.

Lemma inv_shows g d : (Z.of_nat n < 2 ^ 64)%Z -> inv g d -> graph_shows h g d.
Proof.
  intros H64 IV. pose proof IV as (G & NX & ZN & ND & KR & KE). constructor.
  - intros a. rewrite (has_gst g _ _ _ a G). reflexivity.
  - intros a v E. destruct (gst_slot g _ _ _ a v G E) as (nd & A & B & C & D1 & D2 & D3). exists nd.
    split; [unfold bg_node; rewrite A; exact B|]. split; [exact D1|]. split; [exact C|].
    intros b. split; [apply (set_exists_rep _ _ b D2)|apply (set_exists_rep _ _ b D3)].
  - eapply size_gst; [exact G|exact ND| |exact H64]. intros a v. apply (inv_items g d a v IV).
  - intros cmp v. destruct (scan_gst g _ _ _ (fun nd => Ok (cmp (bn_value nd) v)) (fun nd => cmp (bn_value nd) v) (fun _ w => cmp w v) G)
      as (l & E & NL & HL).
    { intros a nd w _ _ X _. rewrite X. auto. }
    exists l. split; [exact E|]. eapply filter_perm; [exact IV|exact NL|exact HL|]. reflexivity.
  - destruct (scan_gst g _ _ _ (fun nd => nd' <- bg_node h g (bn_id nd) ;; Ok (bs_empty (bn_in nd'))) (fun nd => bs_empty (bn_in nd))
      (fun a _ => negb (existsb (fun e => (snd e =? a)%Z) (dg_edges d))) G) as (l & E & NL & HL).
    { intros a nd w B _ _ (D1 & D2 & D3). rewrite D1, B. split; [reflexivity|]. eapply empty_rep; [exact D3|]. apply no_in. }
    exists l. split; [exact E|]. rewrite map_filter_fst. eapply filter_perm; [exact IV|exact NL|exact HL|]. reflexivity.
  - destruct (scan_gst g _ _ _ (fun nd => nd' <- bg_node h g (bn_id nd) ;; Ok (bs_empty (bn_out nd'))) (fun nd => bs_empty (bn_out nd))
      (fun a _ => negb (existsb (fun e => (fst e =? a)%Z) (dg_edges d))) G) as (l & E & NL & HL).
    { intros a nd w B _ _ (D1 & D2 & D3). rewrite D1, B. split; [reflexivity|]. eapply empty_rep; [exact D2|]. apply no_out. }
    exists l. split; [exact E|]. rewrite map_filter_fst. eapply filter_perm; [exact IV|exact NL|exact HL|]. reflexivity.
Qed.
Lemma inv_make : inv (bg_make n) dg_empty.
Proof.
  split; [|split; [reflexivity|split; [cbn; lia|split; [constructor|split; discriminate]]]].
  split; [reflexivity|]. exists (repeat None n), (fun _ => None). split; [apply make_app|]. split; [apply rep_none; exact HNn|reflexivity].
Qed.
End Graph.

Lemma ids_in m a : In a (ids m) <-> (0 <= a < Z.of_nat m)%Z.
Proof.
  unfold ids. rewrite in_map_iff. split.
  - intros (x & <- & X). apply in_seq in X. lia.
  - intros H. exists (Z.to_nat a). split; [lia|]. apply in_seq. lia.
Qed.
Lemma ids_length m : length (ids m) = m.
Proof. unfold ids. rewrite map_length, seq_length. reflexivity. Qed.
Lemma ids_nodup m : NoDup (ids m).
Proof. unfold ids. apply FinFun.Injective_map_NoDup; [intros x y; lia|apply seq_NoDup]. Qed.
Lemma no_collisions_le n (h : Z -> Z) m : 0 < n -> no_collisions n h (ids m) -> m <= n.
Proof.
  intros N J. enough (X : length (map (fun a => home n (h a)) (ids m)) <= length (seq 0 n))
    by (rewrite map_length, ids_length, seq_length in X; exact X).
  apply NoDup_incl_length.
  - pose proof (ids_nodup m) as ND. clear N. revert J ND. generalize (ids m). intros l J ND.
    induction ND as [|x l N ND IH]; cbn; [constructor|]. constructor.
    + intros I'. apply in_map_iff in I'. destruct I' as (y & E & Y). apply N. rewrite <- (J y x); [exact Y| | |exact E]; cbn; auto.
    + apply IH. intros a b A B. apply J; cbn; auto.
  - intros i I'. apply in_map_iff in I'. destruct I' as (a & <- & _). apply in_seq. pose proof (home_lt (h a) n N). lia.
Qed.

Lemma step_next {T} (o : gop T) d d' : dg_step o d = Some d' -> dg_next d' = (dg_next d + Z.of_nat (adds [o]))%Z.
Proof.
  destruct o; cbn [dg_step adds]; repeat match goal with |- context [if ?b then _ else _] => destruct b end; intros E;
  try discriminate; injection E as <-; cbn [dg_next]; lia.
Qed.
Lemma adds_cons {T} (o : gop T) os : adds (o :: os) = adds [o] + adds os.
Proof. destruct o; reflexivity. Qed.

Section Runs.
Context {T : Type}.
Variable h : Z -> Z.
Variable n m : nat.
Hypothesis N0 : 0 < n.
Hypothesis N64 : (Z.of_nat n < 2 ^ 64)%Z.
Hypothesis JH : no_collisions n h (ids m).
Hypothesis JE : no_collisions n (fun k => k) (ids m).

Lemma run_inv (os : list (gop T)) : forall g d d',
  inv h n (ids m) g d -> dg_run os d = Some d' -> bare_removals os d = true ->
  (dg_next d + Z.of_nat (adds os) <= Z.of_nat m)%Z ->
  exists g', bg_run h os g = Ok g' /\ inv h n (ids m) g' d'.
Proof.
  induction os as [|o os IH]; intros g d d' IV R BR A.
  - cbn in R. injection R as <-. exists g. split; [reflexivity|exact IV].
  - cbn [dg_run bare_removals bg_run] in *. destruct (dg_step o d) as [d1|] eqn:S'; [|discriminate].
    apply andb_true_iff in BR. destruct BR as [B1 B2]. rewrite adds_cons in A. pose proof (step_next o d d1 S') as NX.
    pose proof (no_collisions_le n h m N0 JH) as ML.
    destruct (step_inv h n (ids m) N0 JH JE o g d d1 IV S' B1) as (g1 & E1 & IV1).
    { destruct o; auto. cbn [adds] in *. pose proof IV as (_ & _ & ZN & _). split; [apply ids_in|]; lia. }
    rewrite E1. cbn [bind]. apply (IH g1 d1 d'); auto. lia.
Qed.
Lemma graph_history (os : list (gop T)) d : adds os <= m -> dg_run os dg_empty = Some d -> bare_removals os dg_empty = true ->
  exists g, bg_run h os (bg_make n) = Ok g /\ graph_shows h g d.
Proof.
  intros A R B. destruct (run_inv os _ _ d (inv_make h n (ids m) N0) R B) as (g & E & IV); [cbn; lia|].
  exists g. split; [exact E|]. apply (inv_shows h n (ids m) N0 JH JE); auto.
Qed.
Lemma graph_new_id (os : list (gop T)) d v : adds os < m -> dg_run os dg_empty = Some d -> bare_removals os dg_empty = true ->
  exists g g', bg_run h os (bg_make n) = Ok g /\ bg_add h v g = Ok (Z.of_nat (adds os), g') /\
    graph_shows h g' (DG (dg_next d + 1) ((Z.of_nat (adds os), v) :: dg_nodes d) (dg_edges d)).
Proof.
  intros A R B. destruct (run_inv os _ _ d (inv_make h n (ids m) N0) R B) as (g & E & IV); [cbn; lia|].
  assert (NX : forall (os : list (gop T)) d d', dg_run os d = Some d' -> dg_next d' = (dg_next d + Z.of_nat (adds os))%Z).
  { clear. induction os as [|o os IH]; intros d d' R; [cbn in *; injection R as <-; lia|]. cbn [dg_run] in R.
    destruct (dg_step o d) as [d1|] eqn:S'; [|discriminate]. rewrite adds_cons. apply IH in R. apply step_next in S'. lia. }
  apply NX in R. cbn [dg_empty dg_next] in R. rewrite Z.add_0_l in R.
  pose proof (no_collisions_le n h m N0 JH) as ML. pose proof IV as (G & NX' & ZN & _).
  assert (IU : In (bg_next g) (ids m)) by (apply ids_in; lia).
  destruct (add_gst h n (ids m) N0 JH g _ _ _ v G IU) as (g' & E' & _). exists g, g'. split; [exact E|].
  destruct (step_inv h n (ids m) N0 JH JE (GAdd v) g d _ IV eq_refl eq_refl) as (g2 & E2 & IV2).
  { split; [apply ids_in|]; lia. }
  cbn [bg_step] in E2. rewrite E' in E2. cbn [bind] in E2. injection E2 as <-. split; [rewrite E', NX', R; reflexivity|].
  rewrite <- R. apply (inv_shows h n (ids m) N0 JH JE); auto.
Qed.
Lemma graph_remove_ub (os : list (gop T)) d a : adds os <= m -> dg_run os dg_empty = Some d -> bare_removals os dg_empty = true ->
  dg_has d a = true -> dg_touched d a = true -> bg_run h (os ++ [GRemove a]) (bg_make n) = UB.
Proof.
  intros A R B HA TA. destruct (run_inv os _ _ d (inv_make h n (ids m) N0) R B) as (g & E & IV); [cbn; lia|].
  assert (RA : forall (os os' : list (gop T)) g, bg_run h (os ++ os') g = (g <- bg_run h os g ;; bg_run h os' g)).
  { clear. induction os as [|o os IH]; intros os' g; [reflexivity|]. cbn [app bg_run]. destruct (bg_step h o g); cbn [bind]; auto. }
  rewrite RA, E. cbn [bind bg_run bg_step]. apply has_value in HA. destruct HA as [v VA].
  pose proof IV as (G & NX' & ZN & ND & KR & KE).
  rewrite (remove_edges_ub h n (ids m) N0 JH JE g _ _ _ a v G VA KE (fun x y X => conj (proj2 (KE y x X)) (proj1 (KE y x X)))); [reflexivity|].
  apply touched_edges in TA. exact TA.
Qed.
Lemma graph_full_ub (os : list (gop T)) d v : adds os <= m -> dg_run os dg_empty = Some d -> bare_removals os dg_empty = true ->
  length (dg_nodes d) = n -> bg_run h (os ++ [GAdd v]) (bg_make n) = UB.
Proof.
  intros A R B LN. destruct (run_inv os _ _ d (inv_make h n (ids m) N0) R B) as (g & E & IV); [cbn; lia|].
  assert (RA : forall (os os' : list (gop T)) g, bg_run h (os ++ os') g = (g <- bg_run h os g ;; bg_run h os' g)).
  { clear. induction os as [|o os IH]; intros os' g; [reflexivity|]. cbn [app bg_run]. destruct (bg_step h o g); cbn [bind]; auto. }
  rewrite RA, E. cbn [bind bg_run bg_step]. pose proof IV as (G & NX' & ZN & ND & KR & KE).
  rewrite (add_full h n (ids m) N0 g _ _ _ (dg_nodes d) v G ND); [reflexivity| |exact LN|].
  - intros a w. apply (inv_items h n (ids m) g d a w IV).
  - rewrite NX'. destruct (dg_value d (dg_next d)) as [w|] eqn:X; [|reflexivity]. apply KR in X. lia.
Qed.
End Runs.

(** The ids below n start at different slots unless 59 divides n. *)
Lemma home_small n k : 0 < n -> (0 <= k)%Z -> (59 * k + 83 <= 2 ^ 64)%Z ->
  home n k = Z.to_nat ((2 ^ 64 - 83 - 59 * k) mod Z.of_nat n).
Proof.
  intros N K L. unfold home. f_equal. f_equal.
  replace (k * 18446744073709551557 + 18446744073709551533)%Z with ((2 ^ 64 - 83 - 59 * k) + k * 2 ^ 64)%Z by lia.
  rewrite Z.mod_add by lia. apply Z.mod_small. lia.
Qed.
Lemma identity_spreads n : 0 < n -> (59 * Z.of_nat n + 83 <= 2 ^ 64)%Z -> (Z.of_nat n mod 59 <> 0)%Z ->
  no_collisions n (fun k => k) (ids n).
Proof.
  intros N L D a b A B E. apply ids_in in A, B. rewrite !home_small in E by lia.
  assert (X : ((2 ^ 64 - 83 - 59 * a) mod Z.of_nat n = (2 ^ 64 - 83 - 59 * b) mod Z.of_nat n)%Z).
  { pose proof (Z.mod_pos_bound (2 ^ 64 - 83 - 59 * a) (Z.of_nat n)). pose proof (Z.mod_pos_bound (2 ^ 64 - 83 - 59 * b) (Z.of_nat n)). lia. }
  assert (DV : (Z.of_nat n | 59 * (b - a))%Z).
  { exists ((2 ^ 64 - 83 - 59 * a) / Z.of_nat n - (2 ^ 64 - 83 - 59 * b) / Z.of_nat n)%Z.
    pose proof (Z.div_mod (2 ^ 64 - 83 - 59 * a) (Z.of_nat n)). pose proof (Z.div_mod (2 ^ 64 - 83 - 59 * b) (Z.of_nat n)). nia. }
  assert (P59 : Znumtheory.prime 59).
  { apply Znumtheory.prime_alt. split; [lia|]. intros q Q [c C].
    assert (c < 59)%Z by nia. assert (0 < c)%Z by nia. 
    assert (Q8 : (q <= 7 \/ c <= 7)%Z) by nia.
    destruct Q8 as [Q8|Q8].
    - assert (q = 2 \/ q = 3 \/ q = 4 \/ q = 5 \/ q = 6 \/ q = 7)%Z by lia. lia.
    - assert (c = 1 \/ c = 2 \/ c = 3 \/ c = 4 \/ c = 5 \/ c = 6 \/ c = 7)%Z by lia. lia. }
  assert (G : Znumtheory.rel_prime (Z.of_nat n) 59).
  { apply Znumtheory.rel_prime_sym. apply Znumtheory.prime_rel_prime; [exact P59|]. intros Q. apply D.
    apply Z.mod_divide in Q; lia. }
  apply Znumtheory.Gauss in DV; [|exact G]. destruct DV as [q Q]. assert (q = 0)%Z by nia. nia.
Qed.

(** * The statements of the properties *)

Lemma run_app {T} h (os os' : list (gop T)) : forall g, bg_run h (os ++ os') g = (g <- bg_run h os g ;; bg_run h os' g).
Proof. induction os as [|o os IH]; intros g; [reflexivity|]. cbn [app bg_run]. destruct (bg_step h o g); cbn [bind]; auto. Qed.
Lemma dg_run_app {T} (os os' : list (gop T)) : forall d, dg_run (os ++ os') d = match dg_run os d with Some d => dg_run os' d | None => None end.
Proof. induction os as [|o os IH]; intros d; [reflexivity|]. cbn [app dg_run]. destruct (dg_step o d); auto. Qed.
Lemma bare_app {T} (os os' : list (gop T)) : forall d, bare_removals (os ++ os') d = bare_removals os d && match dg_run os d with Some d => bare_removals os' d | None => true end.
Proof.
  induction os as [|o os IH]; intros d; [reflexivity|]. cbn [app bare_removals dg_run]. rewrite <- andb_assoc. f_equal.
  destruct (dg_step o d); auto.
Qed.
Lemma adds_app {T} (os os' : list (gop T)) : adds (os ++ os') = (adds os + adds os')%nat.
Proof. induction os as [|o os IH]; [reflexivity|]. destruct o; cbn [app adds]; lia. Qed.
Lemma bg_history {T} h n m (os : list (gop T)) d : (0 < n)%nat -> (Z.of_nat n < 2 ^ 64)%Z -> no_collisions n h (ids m) -> no_collisions n (fun k => k) (ids m) ->
  (adds os <= m)%nat -> dg_run os dg_empty = Some d -> bare_removals os dg_empty = true ->
  exists g, bg_run h os (bg_make n) = Ok g /\ graph_shows h g d.
Proof. intros. eapply graph_history; eassumption. Qed.
Lemma bg_new_id {T} h n m (os : list (gop T)) d v : (0 < n)%nat -> (Z.of_nat n < 2 ^ 64)%Z -> no_collisions n h (ids m) -> no_collisions n (fun k => k) (ids m) ->
  (adds os < m)%nat -> dg_run os dg_empty = Some d -> bare_removals os dg_empty = true ->
  exists g g', bg_run h os (bg_make n) = Ok g /\ bg_add h v g = Ok (Z.of_nat (adds os), g') /\
    graph_shows h g' (DG (dg_next d + 1) ((Z.of_nat (adds os), v) :: dg_nodes d) (dg_edges d)).
Proof. intros. eapply graph_new_id; eassumption. Qed.
Lemma bg_full {T} h n m (os : list (gop T)) d v : (0 < n)%nat -> (Z.of_nat n < 2 ^ 64)%Z -> no_collisions n h (ids m) -> no_collisions n (fun k => k) (ids m) ->
  (adds os <= m)%nat -> dg_run os dg_empty = Some d -> bare_removals os dg_empty = true ->
  length (dg_nodes d) = n -> bg_run h (os ++ [GAdd v]) (bg_make n) = UB.
Proof. intros. eapply graph_full_ub; eassumption. Qed.
Lemma bg_remove_edges {T} h n m (os : list (gop T)) d a : (0 < n)%nat -> (Z.of_nat n < 2 ^ 64)%Z -> no_collisions n h (ids m) -> no_collisions n (fun k => k) (ids m) ->
  (adds os <= m)%nat -> dg_run os dg_empty = Some d -> bare_removals os dg_empty = true ->
  dg_has d a = true -> dg_touched d a = true -> bg_run h (os ++ [GRemove a]) (bg_make n) = UB.
Proof. intros. eapply graph_remove_ub; eassumption. Qed.
Lemma bg_remove_bare {T} h n m (os : list (gop T)) d a : (0 < n)%nat -> (Z.of_nat n < 2 ^ 64)%Z -> no_collisions n h (ids m) -> no_collisions n (fun k => k) (ids m) ->
  (adds os <= m)%nat -> dg_run os dg_empty = Some d -> bare_removals os dg_empty = true ->
  dg_has d a = true -> dg_touched d a = false ->
  exists g, bg_run h (os ++ [GRemove a]) (bg_make n) = Ok g /\
    graph_shows h g (DG (dg_next d) (aremove Z.eqb a (dg_nodes d)) (dg_edges d)).
Proof.
  intros N0 N64 JH JE A R B HA NT. eapply graph_history; try eassumption.
  - rewrite adds_app. cbn [adds]. lia.
  - rewrite dg_run_app, R. cbn [dg_run dg_step]. rewrite HA. do 2 f_equal.
    rewrite (filter_ext_in _ (fun _ => true)).
    + induction (dg_edges d) as [|e es IH]; [reflexivity|]. cbn. f_equal. exact IH.
    + intros e I'. apply negb_true_iff. unfold dg_touched in NT.
      destruct ((fst e =? a) || (snd e =? a))%Z eqn:X; [|reflexivity]. rewrite <- NT. symmetry. apply existsb_exists. eauto.
  - rewrite bare_app, B, R. cbn [bare_removals dg_step]. rewrite NT, HA. reflexivity.
Qed.
Lemma bg_lost_edge : exists (os : list (gop Z)) d g nd,
  dg_run os dg_empty = Some d /\ adds os = 3%nat /\ bg_run (fun k => k) os (bg_make 59) = Ok g /\ bg_node (fun k => k) g 2%Z = Ok nd /\
  dg_edge d 2 1 = true /\ bs_exists id_eq id_hash (bn_out nd) 1%Z = Ok false.
Proof.
  exists [GAdd 0; GAdd 0; GAdd 0; GEdge 2 0; GEdge 2 1; GCut 2 0]%Z. do 3 eexists. split; [vm_compute; reflexivity|]. split; [reflexivity|].
  split; [vm_compute; reflexivity|]. split; [vm_compute; reflexivity|]. vm_compute. split; reflexivity.
Qed.
Lemma bg_lost_node : exists (os : list (gop Z)) d g,
  dg_run os dg_empty = Some d /\ bare_removals os dg_empty = true /\ bg_run (fun k => k) os (bg_make 2) = Ok g /\
  dg_has d 2 = true /\ bg_has (fun k => k) g 2%Z = Ok false /\ bg_size g = 1%Z.
Proof.
  exists [GAdd 0; GAdd 0; GRemove 1; GAdd 0; GRemove 0]%Z. do 2 eexists. split; [vm_compute; reflexivity|]. split; [reflexivity|].
  split; [vm_compute; reflexivity|]. vm_compute. repeat split.
Qed.
Lemma id_ne_spec a b : id_ne a b = negb (a =? b)%Z.
Proof. unfold id_ne. f_equal. apply id_eq_eqb. Qed.
Lemma proxy_ne_spec a b : proxy_ne a b = true <-> a <> b.
Proof.
  destruct a as [g a], b as [g' b]. unfold proxy_ne. cbn [fst snd]. rewrite id_ne_spec.
  destruct (Z.eqb_spec a b) as [e|N], (Z.eqb_spec g g') as [e2|N2]; cbn; split; intros; try discriminate; try congruence; reflexivity.
Qed.
Lemma proxy_lt_spec g a b : proxy_lt (g, a) (g, b) = true <-> (a < b)%Z.
Proof. unfold proxy_lt, id_lt, id_compare. cbn [snd]. destruct (Z.eqb_spec a b) as [e|N]; [|destruct (Z.ltb_spec a b) as [L|L]]; cbn; lia. Qed.
Lemma proxy_eq_some a b : (a = b -> proxy_eq a b = true) /\ (fst a <> fst b -> snd a <> snd b -> proxy_eq a b = false).
Proof.
  unfold proxy_eq. rewrite id_eq_eqb. split.
  - intros <-. rewrite Z.eqb_refl. reflexivity.
  - intros A B. apply Z.eqb_neq in A, B. rewrite A, B. reflexivity.
Qed.
Lemma proxy_eq_wrong g a b : a <> b -> proxy_eq (g, a) (g, b) = true /\ proxy_ne (g, a) (g, b) = true.
Proof.
  intros N. split; [unfold proxy_eq; cbn [fst snd]; rewrite Z.eqb_refl; apply orb_true_r|]. apply proxy_ne_spec. congruence.
Qed.
Lemma proxy_eq_graphs g g' a : g <> g' -> proxy_eq (g, a) (g', a) = true.
Proof. intros _. unfold proxy_eq. cbn [fst snd]. rewrite id_eq_eqb, Z.eqb_refl. reflexivity. Qed.
Open Scope Z_scope.

Lemma c248_history_partial :
  forall (T : Type) (h : Z -> Z) n m (os : list (gop T)) d,
  (0 < n)%nat -> Z.of_nat n < 2 ^ 64 -> no_collisions n h (ids m) -> no_collisions n (fun k => k) (ids m) ->
  (adds os <= m)%nat -> dg_run os dg_empty = Some d -> bare_removals os dg_empty = true ->
  exists g, bg_run h os (bg_make n) = Ok g /\ graph_shows h g d.
Proof.
  exact @bg_history.
Qed.

Lemma c248_new_id_partial :
  forall (T : Type) (h : Z -> Z) n m (os : list (gop T)) d v,
  (0 < n)%nat -> Z.of_nat n < 2 ^ 64 -> no_collisions n h (ids m) -> no_collisions n (fun k => k) (ids m) ->
  (adds os < m)%nat -> dg_run os dg_empty = Some d -> bare_removals os dg_empty = true ->
  exists g g', bg_run h os (bg_make n) = Ok g /\ bg_add h v g = Ok (Z.of_nat (adds os), g') /\
    graph_shows h g' (DG (dg_next d + 1) ((Z.of_nat (adds os), v) :: dg_nodes d) (dg_edges d)).
Proof.
  exact @bg_new_id.
Qed.

Lemma c248_ids_spread :
  forall n, (0 < n)%nat -> 59 * Z.of_nat n + 83 <= 2 ^ 64 -> Z.of_nat n mod 59 <> 0 ->
  no_collisions n (fun k => k) (ids n).
Proof.
  exact identity_spreads.
Qed.

Lemma c248_full_refuted :
  forall (T : Type) (h : Z -> Z) n m (os : list (gop T)) d v,
  (0 < n)%nat -> Z.of_nat n < 2 ^ 64 -> no_collisions n h (ids m) -> no_collisions n (fun k => k) (ids m) ->
  (adds os <= m)%nat -> dg_run os dg_empty = Some d -> bare_removals os dg_empty = true ->
  length (dg_nodes d) = n -> bg_run h (os ++ [GAdd v]) (bg_make n) = UB.
Proof.
  exact @bg_full.
Qed.

Lemma c248_lost_edge_refuted :
  exists (os : list (gop Z)) d g nd,
  dg_run os dg_empty = Some d /\ adds os = 3%nat /\ bg_run (fun k => k) os (bg_make 59) = Ok g /\ bg_node (fun k => k) g 2 = Ok nd /\
  dg_edge d 2 1 = true /\ bs_exists id_eq id_hash (bn_out nd) 1 = Ok false.
Proof.
  exact bg_lost_edge.
Qed.

Lemma c249_bare_partial :
  forall (T : Type) (h : Z -> Z) n m (os : list (gop T)) d a,
  (0 < n)%nat -> Z.of_nat n < 2 ^ 64 -> no_collisions n h (ids m) -> no_collisions n (fun k => k) (ids m) ->
  (adds os <= m)%nat -> dg_run os dg_empty = Some d -> bare_removals os dg_empty = true ->
  dg_has d a = true -> dg_touched d a = false ->
  exists g, bg_run h (os ++ [GRemove a]) (bg_make n) = Ok g /\
    graph_shows h g (DG (dg_next d) (aremove Z.eqb a (dg_nodes d)) (dg_edges d)).
Proof.
  exact @bg_remove_bare.
Qed.

Lemma c249_edges_refuted :
  forall (T : Type) (h : Z -> Z) n m (os : list (gop T)) d a,
  (0 < n)%nat -> Z.of_nat n < 2 ^ 64 -> no_collisions n h (ids m) -> no_collisions n (fun k => k) (ids m) ->
  (adds os <= m)%nat -> dg_run os dg_empty = Some d -> bare_removals os dg_empty = true ->
  dg_has d a = true -> dg_touched d a = true -> bg_run h (os ++ [GRemove a]) (bg_make n) = UB.
Proof.
  exact @bg_remove_edges.
Qed.

Lemma c249_lost_node_refuted :
  exists (os : list (gop Z)) d g,
  dg_run os dg_empty = Some d /\ bare_removals os dg_empty = true /\ bg_run (fun k => k) os (bg_make 2) = Ok g /\
  dg_has d 2 = true /\ bg_has (fun k => k) g 2 = Ok false /\ bg_size g = 1.
Proof.
  exact bg_lost_node.
Qed.

Lemma c250_ne :
  forall a b, proxy_ne a b = true <-> a <> b.
Proof.
  exact proxy_ne_spec.
Qed.

Lemma c250_lt :
  forall g a b, proxy_lt (g, a) (g, b) = true <-> a < b.
Proof.
  exact proxy_lt_spec.
Qed.

Lemma c250_eq_partial :
  forall a b, (a = b -> proxy_eq a b = true) /\ (fst a <> fst b -> snd a <> snd b -> proxy_eq a b = false).
Proof.
  exact proxy_eq_some.
Qed.

Lemma c250_eq_refuted :
  forall g a b, a <> b -> proxy_eq (g, a) (g, b) = true /\ proxy_ne (g, a) (g, b) = true.
Proof.
  exact proxy_eq_wrong.
Qed.

Lemma c250_eq_graphs_refuted :
  forall g g' a, g <> g' -> proxy_eq (g, a) (g', a) = true.
Proof.
  exact proxy_eq_graphs.
Qed.

Lemma c248_valid_ids_l :
  forall id, 0 <= id < 2 ^ 64 -> (id_valid id = true <-> id < 2 ^ 64 - 1) /\ id_valid no_id = false.
Proof.
  intros id R. unfold id_valid, no_id. change (2 ^ 64) with 18446744073709551616 in *. split; [|reflexivity].
  destruct (Z.eqb_spec id (18446744073709551616 - 1)); cbn; split; intros H; try reflexivity; try discriminate; lia.
Qed.
