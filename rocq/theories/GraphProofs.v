(** Proofs about the graph container. *)
From Coq Require Import ZifyBool.
From Verif Require Import Common CommonProofs Ints Graph SpecGraph.
Open Scope Z_scope.
Local Arguments Z.mul : simpl never.
Local Arguments Z.add : simpl never.
Local Arguments Z.sub : simpl never.
Local Arguments Z.pow : simpl never.
Local Arguments Z.of_nat : simpl never.

(** ** Sets *)

Lemma set_mem_spec x s : set_mem x s = true <-> In x s.
Proof.
  unfold set_mem. rewrite existsb_exists. split.
  - intros (y & HI & HE). apply Z.eqb_eq in HE. now subst y.
  - intros HI. exists x. split; [assumption | apply Z.eqb_refl].
Qed.

Lemma set_mem_false x s : set_mem x s = false <-> ~ In x s.
Proof. rewrite <- set_mem_spec. destruct (set_mem x s); split; intros; congruence. Qed.

Lemma set_insert_in x s y : In y (set_insert x s) <-> y = x \/ In y s.
Proof.
  unfold set_insert. destruct (set_mem x s) eqn:E; cbn.
  - apply set_mem_spec in E. split; [auto|]. intros [-> | ]; auto.
  - split; intros [H | H]; auto.
Qed.

Lemma set_insert_nodup x s : NoDup s -> NoDup (set_insert x s).
Proof.
  intros H. unfold set_insert. destruct (set_mem x s) eqn:E; [assumption|].
  constructor; [now apply set_mem_false | assumption].
Qed.

Lemma set_erase_in x s y : In y (set_erase x s) <-> In y s /\ y <> x.
Proof.
  unfold set_erase. rewrite filter_In. split; intros [H1 H2]; split; auto; lia.
Qed.

Lemma set_erase_nodup x s : NoDup s -> NoDup (set_erase x s).
Proof. apply NoDup_filter. Qed.

Section Value.
Context {T : Type}.
Implicit Types (g : graph T) (a : agraph T) (n : gnode T) (m : list (Z * gnode T)).

(** ** Maps *)

Lemma map_find_in m k n : map_find m k = Some n -> In k (map fst m).
Proof.
  induction m as [|[k' n'] m IH]; cbn; [discriminate|].
  destruct (Z.eqb_spec k k') as [-> | E]; auto.
Qed.

Lemma map_find_none m k : map_find m k = None <-> ~ In k (map fst m).
Proof.
  induction m as [|[k' n'] m IH]; cbn; [split; auto|].
  destruct (Z.eqb_spec k k') as [-> | E]; [split; [discriminate | intros H; exfalso; auto]|].
  rewrite IH. split; intros H; [intros [H1 | H1]; congruence || auto | auto].
Qed.

Lemma map_set_keys m k n : map fst (map_set m k n) = map fst m.
Proof.
  induction m as [|[k' n'] m IH]; cbn; [reflexivity|].
  destruct (k =? k'); cbn; [reflexivity | now rewrite IH].
Qed.

Lemma map_find_set m k n j :
  map_find (map_set m k n) j =
  if j =? k then (match map_find m k with Some _ => Some n | None => None end) else map_find m j.
Proof.
  induction m as [|[k' n'] m IH]; cbn.
  - now destruct (j =? k).
  - destruct (Z.eqb_spec k k') as [-> | E]; cbn.
    + destruct (Z.eqb_spec j k'); reflexivity.
    + rewrite IH. destruct (Z.eqb_spec j k') as [-> | E2]; [|reflexivity].
      now replace (k' =? k) with false by lia.
Qed.

Lemma map_find_erase m k j :
  map_find (map_erase m k) j = if j =? k then None else map_find m j.
Proof.
  unfold map_erase. induction m as [|[k' n'] m IH]; cbn.
  - now destruct (j =? k).
  - destruct (Z.eqb_spec k k') as [-> | E]; cbn.
    + rewrite IH. destruct (Z.eqb_spec j k'); reflexivity.
    + rewrite IH. destruct (Z.eqb_spec j k') as [-> | E2]; [|reflexivity].
      now replace (k' =? k) with false by lia.
Qed.

Lemma map_erase_keys m k : NoDup (map fst m) -> NoDup (map fst (map_erase m k)).
Proof.
  unfold map_erase. induction m as [|[k' n'] m IH]; cbn; [auto|].
  intros H. inversion H as [|x l H1 H2]; subst.
  destruct (k =? k'); cbn; [auto|]. constructor; [|auto].
  intros HI. apply H1. apply in_map_iff in HI. destruct HI as (p & <- & HI).
  apply filter_In in HI. apply in_map. tauto.
Qed.

(** ** The representation *)

Definition nrep a (k : Z) n : Prop :=
  a_node a k = Some (gval n) /\ NoDup (gout n) /\ NoDup (gin n) /\
  (forall v, In v (gout n) <-> a_edge a k v = true) /\
  (forall v, In v (gin n) <-> a_edge a v k = true).

Definition grep g a : Prop :=
  gcur g = a_next a /\ 0 <= a_next a <= 2 ^ 64 - 1 /\ NoDup (map fst (gnodes g)) /\
  (forall k n, map_find (gnodes g) k = Some n -> nrep a k n) /\
  (forall k, map_find (gnodes g) k = None -> a_node a k = None) /\
  (forall u v, a_edge a u v = true -> a_node a u <> None /\ a_node a v <> None) /\
  (forall k, a_node a k <> None -> 0 <= k < a_next a).

Lemma rep_empty : grep g_empty a_empty.
Proof.
  unfold grep; cbn. repeat apply conj; try lia; try (intros; congruence). constructor.
Qed.

Lemma rep_id g a k : grep g a -> a_node a k <> None -> k <> NO_ID /\ 0 <= k < 2 ^ 64 - 1.
Proof. intros (_ & B & _ & _ & _ & _ & K) H. specialize (K k H). unfold NO_ID. lia. Qed.

Lemma rep_find g a k : grep g a -> a_node a k <> None -> exists n, map_find (gnodes g) k = Some n /\ nrep a k n.
Proof.
  intros (_ & _ & _ & F & N & _) H. destruct (map_find (gnodes g) k) as [n|] eqn:E.
  - exists n. auto.
  - now apply N in E.
Qed.

Lemma has_node_ok dbg g a k : grep g a -> k <> NO_ID -> g_has_node dbg g k = Ok (a_has a k).
Proof.
  intros R HK. unfold g_has_node, id_value, dbg_check.
  replace (k =? NO_ID) with false by lia. cbn [negb]. rewrite andb_false_r. cbn [bind].
  destruct R as (_ & _ & _ & F & N & _). unfold a_has.
  destruct (map_find (gnodes g) k) as [n|] eqn:E.
  - destruct (F k n E) as (-> & _). reflexivity.
  - now rewrite (N k E).
Qed.

Lemma require_ok dbg g a k : grep g a -> a_node a k <> None -> g_require dbg g k = Ok tt.
Proof.
  intros R H. unfold g_require. rewrite (has_node_ok dbg g a k R) by now apply (rep_id g a k R).
  cbn [bind]. unfold a_has. destruct (a_node a k); [|congruence].
  unfold dbg_check. now rewrite andb_false_r.
Qed.

Lemma get_ok dbg g a k :
  grep g a -> a_node a k <> None -> exists n, g_get dbg g k = Ok n /\ map_find (gnodes g) k = Some n /\ nrep a k n.
Proof.
  intros R H. destruct (rep_find g a k R H) as (n & E & NR). exists n.
  unfold g_get. rewrite (require_ok dbg g a k R H). cbn [bind].
  unfold id_value, dbg_check. destruct (rep_id g a k R H) as (NI & _).
  replace (k =? NO_ID) with false by lia. cbn [negb]. rewrite andb_false_r. cbn [bind].
  rewrite E. auto.
Qed.

(** Updates need only the key structure, so the intermediate states, in which
    the edge sets do not match, are covered by this weaker invariant. *)
Definition keys g (P : Z -> Prop) : Prop :=
  (forall k, P k -> k <> NO_ID) /\ (forall k, P k <-> map_find (gnodes g) k <> None).

Lemma rep_keys g a : grep g a -> keys g (fun k => a_node a k <> None).
Proof.
  intros R. split.
  - intros k H. now apply (rep_id g a k R).
  - intros k. split; intros H.
    + destruct (rep_find g a k R H) as (n & -> & _). discriminate.
    + destruct R as (_ & _ & _ & F & _). destruct (map_find (gnodes g) k) as [n|] eqn:E; [|congruence].
      destruct (F k n E) as (-> & _). discriminate.
Qed.

Lemma keys_require dbg g P k : keys g P -> P k -> g_require dbg g k = Ok tt.
Proof.
  intros (K1 & K2) H. unfold g_require, g_has_node, id_value, dbg_check.
  specialize (K1 k H). replace (k =? NO_ID) with false by lia. cbn [negb]. rewrite andb_false_r. cbn [bind].
  apply K2 in H. destruct (map_find (gnodes g) k); [|congruence]. now rewrite andb_false_r.
Qed.

Lemma keys_get dbg g P k : keys g P -> P k ->
  exists n, map_find (gnodes g) k = Some n /\ g_get dbg g k = Ok n.
Proof.
  intros K H. unfold g_get. rewrite (keys_require dbg g P k K H). cbn [bind].
  destruct K as (K1 & K2). specialize (K1 k H). unfold id_value, dbg_check.
  replace (k =? NO_ID) with false by lia. cbn [negb]. rewrite andb_false_r. cbn [bind].
  apply K2 in H. destruct (map_find (gnodes g) k) as [n|]; [|congruence]. exists n. auto.
Qed.

Definition apply_at (k : Z) (f : gnode T -> gnode T) (j : Z) (o : option (gnode T)) : option (gnode T) :=
  if j =? k then match o with Some n => Some (f n) | None => None end else o.

Lemma keys_update dbg g P k f :
  keys g P -> P k ->
  exists g', g_update dbg g k f = Ok g' /\ keys g' P /\ gcur g' = gcur g /\
    map fst (gnodes g') = map fst (gnodes g) /\
    forall j, map_find (gnodes g') j = apply_at k f j (map_find (gnodes g) j).
Proof.
  intros K H. destruct (keys_get dbg g P k K H) as (n & E & G).
  unfold g_update. rewrite G. cbn [bind]. eexists. split; [reflexivity|].
  cbn [gcur gnodes].
  assert (Q : forall j, map_find (map_set (gnodes g) k (f n)) j = apply_at k f j (map_find (gnodes g) j)).
  { intros j. rewrite map_find_set. unfold apply_at. destruct (Z.eqb_spec j k) as [-> |]; [|reflexivity].
    now rewrite E. }
  split; [|split; [reflexivity | split; [apply map_set_keys | exact Q]]].
  destruct K as (K1 & K2). split; [exact K1|]. intros j. cbn [gnodes]. rewrite K2, Q. unfold apply_at.
  destruct (j =? k); [|reflexivity]. destruct (map_find (gnodes g) j); split; congruence.
Qed.

(** Building a new representation from what happened to each node. *)
Lemma rebuild g g' a a' :
  grep g a -> gcur g' = gcur g -> map fst (gnodes g') = map fst (gnodes g) ->
  a_next a' = a_next a -> (forall k, a_node a' k = a_node a k) ->
  (forall u v, a_edge a' u v = true -> a_node a u <> None /\ a_node a v <> None) ->
  (forall k n, map_find (gnodes g) k = Some n -> nrep a k n ->
     exists n', map_find (gnodes g') k = Some n' /\ gval n' = gval n /\ NoDup (gout n') /\ NoDup (gin n') /\
       (forall v, In v (gout n') <-> a_edge a' k v = true) /\
       (forall v, In v (gin n') <-> a_edge a' v k = true)) ->
  grep g' a'.
Proof.
  intros R HC HK HN HV HE HF. destruct R as (R1 & R2 & R3 & R4 & R5 & R6 & R7).
  repeat apply conj; try congruence; try lia.
  - intros k n' E'. destruct (map_find (gnodes g) k) as [n|] eqn:E.
    + destruct (HF k n E (R4 k n E)) as (n2 & E2 & Hv & Hr). rewrite E' in E2. injection E2 as ->.
      split; [|exact Hr]. rewrite HV, Hv. apply (R4 k n E).
    + exfalso. apply map_find_in in E'. apply map_find_none in E. rewrite HK in E'. contradiction.
  - intros k E'. rewrite HV. apply R5. apply map_find_none. apply map_find_none in E'. now rewrite <- HK.
  - intros u v H. rewrite !HV. auto.
  - intros k H. rewrite HN. apply R7. now rewrite <- HV.
Qed.

Lemma add_node_rep dbg g a x ids a' :
  grep g a -> agraph_step a (GAddNode x) = Some (ids, a') ->
  exists g', graph_step (fun l => l) dbg g (GAddNode x) = Ok (ids, g') /\ grep g' a'.
Proof.
  intros R HS. cbn [agraph_step] in HS.
  destruct (Z.ltb_spec (a_next a) (2 ^ 64 - 1)) as [L | L]; [|discriminate]. injection HS as <- <-.
  pose proof R as R'. destruct R as (R1 & R2 & R3 & R4 & R5 & R6 & R7).
  cbn [graph_step]. unfold g_add_node, dbg_check. rewrite R1.
  replace (a_next a =? NO_ID) with false by (unfold NO_ID; lia). cbn [negb]. rewrite andb_false_r. cbn [bind].
  assert (AN : a_node a (a_next a) = None).
  { destruct (a_node a (a_next a)) eqn:E; [|reflexivity]. assert (a_node a (a_next a) <> None) as H by congruence.
    apply R7 in H. lia. }
  assert (E : map_find (gnodes g) (a_next a) = None).
  { destruct (map_find (gnodes g) (a_next a)) as [n|] eqn:E; [|reflexivity].
    destruct (R4 _ _ E) as (H & _). congruence. }
  rewrite E. eexists. split; [reflexivity|].
  repeat apply conj; cbn [gcur gnodes a_next a_node a_edge map fst].
  - unfold sz. rewrite Z.mod_small by lia. reflexivity.
  - lia.
  - lia.
  - constructor; [now apply map_find_none | assumption].
  - intros k n. cbn [map_find]. destruct (Z.eqb_spec k (a_next a)) as [-> | NE].
    + intros H. injection H as <-. unfold nrep; cbn. rewrite Z.eqb_refl. repeat split; try constructor.
      * intros [].
      * intros H. apply R6 in H. destruct H as (H & _). congruence.
      * intros [].
      * intros H. apply R6 in H. destruct H as (_ & H). congruence.
    + intros H. destruct (R4 k n H) as (N1 & N2). unfold nrep; cbn.
      replace (k =? a_next a) with false by lia. split; assumption.
  - intros k. cbn [map_find]. destruct (Z.eqb_spec k (a_next a)); [discriminate|]. auto.
  - intros u v H. apply R6 in H. destruct H as (H1 & H2).
    split; [destruct (u =? a_next a) | destruct (v =? a_next a)]; congruence || assumption.
  - intros k H. destruct (Z.eqb_spec k (a_next a)) as [Ek | NE]; [lia|]. apply R7 in H. lia.
Qed.

Lemma has_some a k : a_has a k = true -> a_node a k <> None.
Proof. unfold a_has. destruct (a_node a k); congruence. Qed.

(** The four operations on two given nodes. *)
Lemma pair_rep dbg g a u v (fs : list (Z * (gnode T -> gnode T))) :
  grep g a -> a_has a u = true -> a_has a v = true ->
  (forall p, In p fs -> fst p = u \/ fst p = v) ->
  exists g',
    fold_left (fun r p => g <- r ;; g_update dbg g (fst p) (snd p)) fs (Ok g) = Ok g' /\
    gcur g' = gcur g /\ map fst (gnodes g') = map fst (gnodes g) /\
    (forall j, map_find (gnodes g') j =
               fold_left (fun o p => apply_at (fst p) (snd p) j o) fs (map_find (gnodes g) j)).
Proof.
  intros R HU HV HF. apply has_some in HU, HV. pose proof (rep_keys g a R) as K. clear R.
  revert g K. induction fs as [|p fs IH]; intros g K.
  - exists g. cbn. auto.
  - destruct (keys_update dbg g _ (fst p) (snd p) K) as (g1 & E1 & K1 & C1 & M1 & F1).
    { destruct (HF p) as [-> | ->]; cbn; auto. }
    destruct (IH (fun q H => HF q (or_intror H)) g1 K1) as (g2 & E2 & C2 & M2 & F2).
    exists g2. cbn [fold_left bind]. rewrite E1. split; [assumption|]. split; [congruence|].
    split; [congruence|]. intros j. rewrite F2, F1. reflexivity.
Qed.

Lemma apply_at_some k f j n : apply_at k f j (Some n) = Some (if j =? k then f n else n).
Proof. unfold apply_at. now destruct (j =? k). Qed.

Lemma pair_step dbg g a a' u v fs :
  grep g a -> a_has a u = true -> a_has a v = true ->
  (forall p, In p fs -> fst p = u \/ fst p = v) ->
  a_next a' = a_next a -> (forall k, a_node a' k = a_node a k) ->
  (forall x y, a_edge a' x y = true -> a_node a x <> None /\ a_node a y <> None) ->
  (forall k n, nrep a k n ->
     let n' := fold_left (fun o p => if k =? fst p then snd p o else o) fs n in
     gval n' = gval n /\ NoDup (gout n') /\ NoDup (gin n') /\
     (forall w, In w (gout n') <-> a_edge a' k w = true) /\
     (forall w, In w (gin n') <-> a_edge a' w k = true)) ->
  exists g',
    fold_left (fun r p => g <- r ;; g_update dbg g (fst p) (snd p)) fs (Ok g) = Ok g' /\ grep g' a'.
Proof.
  intros R HU HV HF HN HK HE HR.
  destruct (pair_rep dbg g a u v fs R HU HV HF) as (g' & E & C & M & F).
  exists g'. split; [assumption|]. apply (rebuild g g' a a' R C M HN HK HE).
  intros k n En NR. specialize (HR k n NR). cbn zeta in HR.
  exists (fold_left (fun o p => if k =? fst p then snd p o else o) fs n). split; [|exact HR].
  rewrite F, En. clear. revert n. induction fs as [|p fs IH]; intros n; [reflexivity|].
  cbn [fold_left]. rewrite apply_at_some. apply IH.
Qed.

Lemma edge_is_iff u v x y : edge_is u v x y = true <-> x = u /\ y = v.
Proof. unfold edge_is. rewrite andb_true_iff, !Z.eqb_eq. reflexivity. Qed.

Lemma edge_is_not u v x y : negb (edge_is u v x y) = true <-> ~ (x = u /\ y = v).
Proof. rewrite <- edge_is_iff. destruct (edge_is u v x y); cbn; split; congruence. Qed.

Lemma add_directed_rep dbg g a u v ids a' :
  grep g a -> agraph_step a (GAddDirected u v) = Some (ids, a') ->
  exists g', graph_step (fun l => l) dbg g (GAddDirected u v) = Ok (ids, g') /\ grep g' a'.
Proof.
  intros R HS. cbn [agraph_step] in HS.
  destruct (a_has a u) eqn:HU; [|discriminate]. destruct (a_has a v) eqn:HV; [|discriminate].
  cbn in HS. injection HS as <- <-. pose proof R as R0. destruct R0 as (_ & _ & _ & _ & _ & R6 & _).
  match goal with |- exists _, _ /\ grep _ ?a' =>
    destruct (pair_step dbg g a a' u v
      [(u, out_insert v); (v, in_insert u)] R HU HV)
      as (g' & E & R') end.
  6:{ exists g'. split; [|exact R']. cbn [graph_step]. unfold g_add_directed.
      rewrite !(require_ok dbg g a _ R) by now apply has_some. cbn [bind].
      cbn [fold_left bind fst snd] in E. rewrite E. reflexivity. }
  all: cbn [a_next a_node a_edge].
  - intros p [<- | [<- | []]]; auto.
  - reflexivity.
  - reflexivity.
  - intros x y H. apply orb_true_iff in H. rewrite edge_is_iff in H. destruct H as [[-> ->] | H]; [|auto].
    split; now apply has_some.
  - intros k n (NV & NO & NI & EO & EI). cbn [fold_left fst snd].
    destruct (Z.eqb_spec k u) as [Eu | Eu], (Z.eqb_spec k v) as [Ev | Ev];
      cbn [gval gin gout out_insert in_insert out_erase in_erase];
      repeat apply conj; try assumption; try (now apply set_insert_nodup); try reflexivity;
      intros w; rewrite ?set_insert_in, ?orb_true_iff, ?edge_is_iff, ?EO, ?EI; intuition congruence.
Qed.

Lemma add_undirected_rep dbg g a u v ids a' :
  grep g a -> agraph_step a (GAddUndirected u v) = Some (ids, a') ->
  exists g', graph_step (fun l => l) dbg g (GAddUndirected u v) = Ok (ids, g') /\ grep g' a'.
Proof.
  intros R HS. cbn [agraph_step] in HS.
  destruct (a_has a u) eqn:HU; [|discriminate]. destruct (a_has a v) eqn:HV; [|discriminate].
  cbn in HS. injection HS as <- <-. pose proof R as R0. destruct R0 as (_ & _ & _ & _ & _ & R6 & _).
  match goal with |- exists _, _ /\ grep _ ?a' =>
    destruct (pair_step dbg g a a' u v
      [(u, out_insert v); (u, in_insert v); (v, out_insert u); (v, in_insert u)] R HU HV)
      as (g' & E & R') end.
  6:{ exists g'. split; [|exact R']. cbn [graph_step]. unfold g_add_undirected.
      rewrite !(require_ok dbg g a _ R) by now apply has_some. cbn [bind].
      cbn [fold_left bind fst snd] in E.
      destruct (g_update dbg g u (out_insert v)) as [g1| | |]; cbn [bind] in *; try discriminate.
      destruct (g_update dbg g1 u (in_insert v)) as [g2| | |]; cbn [bind] in *; try discriminate.
      destruct (g_update dbg g2 v (out_insert u)) as [g3| | |]; cbn [bind] in *; try discriminate.
      rewrite E. reflexivity. }
  all: cbn [a_next a_node a_edge].
  - intros p [<- | [<- | [<- | [<- | []]]]]; auto.
  - reflexivity.
  - reflexivity.
  - intros x y H. rewrite !orb_true_iff, !edge_is_iff in H.
    destruct H as [[[-> ->] | [-> ->]] | H]; [| |auto]; split; now apply has_some.
  - intros k n (NV & NO & NI & EO & EI). cbn [fold_left fst snd].
    destruct (Z.eqb_spec k u) as [Eu | Eu], (Z.eqb_spec k v) as [Ev | Ev];
      cbn [gval gin gout out_insert in_insert out_erase in_erase];
      repeat apply conj; try assumption; repeat (apply set_insert_nodup); try assumption; try reflexivity;
      intros w; rewrite ?set_insert_in, ?orb_true_iff, ?edge_is_iff, ?EO, ?EI; intuition congruence.
Qed.

Lemma remove_directed_rep dbg g a u v ids a' :
  grep g a -> agraph_step a (GRemoveDirected u v) = Some (ids, a') ->
  exists g', graph_step (fun l => l) dbg g (GRemoveDirected u v) = Ok (ids, g') /\ grep g' a'.
Proof.
  intros R HS. cbn [agraph_step] in HS.
  destruct (a_has a u) eqn:HU; [|discriminate]. destruct (a_has a v) eqn:HV; [|discriminate].
  cbn in HS. injection HS as <- <-. pose proof R as R0. destruct R0 as (_ & _ & _ & _ & _ & R6 & _).
  match goal with |- exists _, _ /\ grep _ ?a' =>
    destruct (pair_step dbg g a a' u v
      [(u, out_erase v); (v, in_erase u)] R HU HV)
      as (g' & E & R') end.
  6:{ exists g'. split; [|exact R']. cbn [graph_step]. unfold g_remove_directed.
      rewrite !(require_ok dbg g a _ R) by now apply has_some. cbn [bind].
      cbn [fold_left bind fst snd] in E. rewrite E. reflexivity. }
  all: cbn [a_next a_node a_edge].
  - intros p [<- | [<- | []]]; auto.
  - reflexivity.
  - reflexivity.
  - intros x y H. apply andb_true_iff in H. apply R6. tauto.
  - intros k n (NV & NO & NI & EO & EI). cbn [fold_left fst snd].
    destruct (Z.eqb_spec k u) as [Eu | Eu], (Z.eqb_spec k v) as [Ev | Ev];
      cbn [gval gin gout out_insert in_insert out_erase in_erase];
      repeat apply conj; try assumption; try (now apply set_erase_nodup); try reflexivity;
      intros w; rewrite ?set_erase_in, ?andb_true_iff, ?edge_is_not, ?EO, ?EI; intuition congruence.
Qed.

Lemma remove_edges_rep dbg g a u v ids a' :
  grep g a -> agraph_step a (GRemoveEdges u v) = Some (ids, a') ->
  exists g', graph_step (fun l => l) dbg g (GRemoveEdges u v) = Ok (ids, g') /\ grep g' a'.
Proof.
  intros R HS. cbn [agraph_step] in HS.
  destruct (a_has a u) eqn:HU; [|discriminate]. destruct (a_has a v) eqn:HV; [|discriminate].
  cbn in HS. injection HS as <- <-. pose proof R as R0. destruct R0 as (_ & _ & _ & _ & _ & R6 & _).
  match goal with |- exists _, _ /\ grep _ ?a' =>
    destruct (pair_step dbg g a a' u v
      [(u, out_erase v); (u, in_erase v); (v, out_erase u); (v, in_erase u)] R HU HV)
      as (g' & E & R') end.
  6:{ exists g'. split; [|exact R']. cbn [graph_step]. unfold g_remove_edges.
      rewrite !(require_ok dbg g a _ R) by now apply has_some. cbn [bind].
      cbn [fold_left bind fst snd] in E.
      destruct (g_update dbg g u (out_erase v)) as [g1| | |]; cbn [bind] in *; try discriminate.
      destruct (g_update dbg g1 u (in_erase v)) as [g2| | |]; cbn [bind] in *; try discriminate.
      destruct (g_update dbg g2 v (out_erase u)) as [g3| | |]; cbn [bind] in *; try discriminate.
      rewrite E. reflexivity. }
  all: cbn [a_next a_node a_edge].
  - intros p [<- | [<- | [<- | [<- | []]]]]; auto.
  - reflexivity.
  - reflexivity.
  - intros x y H. apply andb_true_iff in H. apply R6. tauto.
  - intros k n (NV & NO & NI & EO & EI). cbn [fold_left fst snd].
    destruct (Z.eqb_spec k u) as [Eu | Eu], (Z.eqb_spec k v) as [Ev | Ev];
      cbn [gval gin gout out_insert in_insert out_erase in_erase];
      repeat apply conj; try assumption; repeat (apply set_erase_nodup); try assumption; try reflexivity;
      intros w; rewrite ?set_erase_in, ?andb_true_iff, ?edge_is_not, ?EO, ?EI; intuition congruence.
Qed.

(** remove_node *)
Lemma update_all dbg f P (HV : forall n, gval (f n) = gval n)
    (Q : gnode T -> gnode T -> Z -> list Z -> Prop)
    (Q0 : forall n j, Q n n j [])
    (Qs : forall n n' j i ids, Q (if j =? i then f n else n) n' j ids -> Q n n' j (i :: ids)) :
  forall ids g, keys g P -> (forall i, In i ids -> P i) ->
  exists g', g_update_all dbg g ids f = Ok g' /\ keys g' P /\ gcur g' = gcur g /\
    map fst (gnodes g') = map fst (gnodes g) /\
    (forall j n, map_find (gnodes g) j = Some n ->
       exists n', map_find (gnodes g') j = Some n' /\ Q n n' j ids).
Proof.
  induction ids as [|i ids IH]; intros g K HI.
  - exists g. split; [reflexivity|]. split; [assumption|]. split; [reflexivity|]. split; [reflexivity|].
    intros j n En. exists n. auto.
  - destruct (keys_update dbg g P i f K) as (g1 & E1 & K1 & C1 & M1 & F1); [apply HI; now left|].
    destruct (IH g1 K1) as (g2 & E2 & K2 & C2 & M2 & F2); [intros; apply HI; now right|].
    exists g2. cbn [g_update_all]. rewrite (keys_require dbg g P i K) by (apply HI; now left).
    cbn [bind]. rewrite E1. cbn [bind]. split; [assumption|]. split; [assumption|].
    split; [congruence|]. split; [congruence|].
    intros j n En. specialize (F1 j). rewrite En, apply_at_some in F1.
    destruct (F2 j _ F1) as (n' & En' & HQ). exists n'. split; [assumption|]. now apply Qs.
Qed.

Lemma ord_in ord (l : list Z) i : any_order ord -> In i (ord l) <-> In i l.
Proof.
  intros HO. split; apply Permutation_in; [apply Permutation_sym|]; apply HO.
Qed.

Lemma remove_node_rep ord dbg g a u ids a' :
  any_order ord ->
  grep g a -> agraph_step a (GRemoveNode u) = Some (ids, a') ->
  exists g', graph_step ord dbg g (GRemoveNode u) = Ok (ids, g') /\ grep g' a'.
Proof.
  intros HO R HS. cbn [agraph_step] in HS.
  destruct (a_has a u) eqn:HU; [|discriminate]. injection HS as <- <-.
  apply has_some in HU. cbn [graph_step]. unfold g_remove_node.
  rewrite (require_ok dbg g a u R HU). cbn [bind].
  destruct (get_ok dbg g a u R HU) as (n & G & E & NR). rewrite G. cbn [bind].
  pose proof (rep_keys g a R) as K.
  assert (IN1 : forall i, In i (ord (gin n)) <-> a_edge a i u = true).
  { intros i. destruct NR as (_ & _ & _ & _ & EI). rewrite <- EI. now apply ord_in. }
  pose proof R as R0. destruct R0 as (R1 & R2 & R3 & R4 & R5 & R6 & R7).
  destruct (update_all dbg (out_erase u) (fun k => a_node a k <> None) (fun _ => eq_refl)
    (fun n n' j ids => gval n' = gval n /\ gin n' = gin n /\ (NoDup (gout n) -> NoDup (gout n')) /\
        forall w, In w (gout n') <-> In w (gout n) /\ ~ (w = u /\ In j ids))) with (ids := ord (gin n)) (g := g)
    as (g1 & E1 & K1 & C1 & M1 & F1); auto.
  { intros n0 j. repeat split; auto; intuition. }
  { intros n0 n1 j i l (Q1 & Q2 & Q3 & Q4).
    destruct (Z.eqb_spec j i) as [-> | NE]; cbn [gval gin gout out_erase in_erase In] in *.
    - split; [assumption|]. split; [assumption|]. split; [intros H; apply Q3; now apply set_erase_nodup|].
      intros w. rewrite Q4, set_erase_in. intuition congruence.
    - split; [assumption|]. split; [assumption|]. split; [assumption|].
      intros w. rewrite Q4. intuition congruence. }
  { intros i Hi. apply IN1 in Hi. apply (R6 i u Hi). }
  rewrite E1. cbn [bind].
  destruct (F1 u n E) as (n1 & En1 & V1 & I1 & D1 & O1).
  destruct (keys_get dbg g1 _ u K1 HU) as (n1' & En1' & G1). rewrite En1 in En1'. injection En1' as <-.
  rewrite G1. cbn [bind].
  destruct NR as (NV & NO & NI & EO & EI).
  assert (IN2 : forall i, In i (ord (gout n1)) <-> a_edge a u i = true /\ ~ (i = u)).
  { intros i. rewrite (ord_in ord _ i HO), O1, EO, IN1. split; intros (X1 & X2); (split; [assumption|]).
    - intros ->. auto.
    - tauto. }
  destruct (update_all dbg (in_erase u) (fun k => a_node a k <> None) (fun _ => eq_refl)
    (fun n n' j ids => gval n' = gval n /\ gout n' = gout n /\ (NoDup (gin n) -> NoDup (gin n')) /\
        forall w, In w (gin n') <-> In w (gin n) /\ ~ (w = u /\ In j ids))) with (ids := ord (gout n1)) (g := g1)
    as (g2 & E2 & K2 & C2 & M2 & F2); auto.
  { intros n0 j. repeat split; auto; intuition. }
  { intros n0 n2 j i l (Q1 & Q2 & Q3 & Q4).
    destruct (Z.eqb_spec j i) as [-> | NE]; cbn [gval gin gout out_erase in_erase In] in *.
    - split; [assumption|]. split; [assumption|]. split; [intros H; apply Q3; now apply set_erase_nodup|].
      intros w. rewrite Q4, set_erase_in. intuition congruence.
    - split; [assumption|]. split; [assumption|]. split; [assumption|].
      intros w. rewrite Q4. intuition congruence. }
  { intros i Hi. apply IN2 in Hi. apply (R6 u i). tauto. }
  rewrite E2. cbn [bind].
  destruct (rep_id g a u R HU) as (NU & _).
  unfold id_value, dbg_check. replace (u =? NO_ID) with false by lia. cbn [negb]. rewrite andb_false_r. cbn [bind].
  eexists. split; [reflexivity|].
  assert (KEYS : forall k, map_find (gnodes g2) k = None <-> map_find (gnodes g) k = None).
  { intros k. rewrite !map_find_none, M2, M1. reflexivity. }
  repeat apply conj; cbn [gcur gnodes a_next a_node a_edge]; try congruence; try lia.
  - apply map_erase_keys. rewrite M2, M1. assumption.
  - intros k n'. rewrite map_find_erase. destruct (Z.eqb_spec k u) as [-> | NE]; [discriminate|].
    intros H. destruct (map_find (gnodes g) k) as [n0|] eqn:E0.
    2:{ apply KEYS in E0. congruence. }
    destruct (F1 k n0 E0) as (m1 & Em1 & A1 & A2 & A3 & A4).
    destruct (F2 k m1 Em1) as (m2 & Em2 & B1 & B2 & B3 & B4).
    rewrite H in Em2. injection Em2 as <-.
    destruct (R4 k n0 E0) as (S1 & S2 & S3 & S4 & S5).
    unfold nrep; cbn. replace (k =? u) with false by lia. cbn [negb andb].
    repeat apply conj.
    + congruence.
    + rewrite B2. auto.
    + apply B3. rewrite A2. assumption.
    + intros w. rewrite B2, A4, S4, IN1, !andb_true_iff, negb_true_iff, Z.eqb_neq.
      split; [intros (X1 & X2) | intros (X1 & X2)].
      * split; [|assumption]. intros ->. apply X2. auto.
      * split; [assumption|]. tauto.
    + intros w. rewrite B4, A2, S5, IN2, !andb_true_iff, !negb_true_iff, !Z.eqb_neq.
      split; [intros (X1 & X2) | intros ((X1 & _) & X2)].
      * split; [|assumption]. split; [|reflexivity]. intros ->. apply X2. auto.
      * split; [assumption|]. tauto.
  - intros k. rewrite map_find_erase. destruct (k =? u); [reflexivity|]. intros H. apply KEYS in H. auto.
  - intros x y H. rewrite !andb_true_iff, !negb_true_iff in H. destruct H as ((-> & ->) & H). auto.
  - intros k. destruct (k =? u); [congruence | auto].
Qed.

Lemma step_rep ord dbg g a o ids a' :
  any_order ord -> grep g a -> agraph_step a o = Some (ids, a') ->
  exists g', graph_step ord dbg g o = Ok (ids, g') /\ grep g' a'.
Proof.
  intros HO R HS. destruct o.
  - exact (add_node_rep dbg g a x ids a' R HS).
  - exact (add_directed_rep dbg g a u v ids a' R HS).
  - exact (add_undirected_rep dbg g a u v ids a' R HS).
  - exact (remove_node_rep ord dbg g a u ids a' HO R HS).
  - exact (remove_directed_rep dbg g a u v ids a' R HS).
  - exact (remove_edges_rep dbg g a u v ids a' R HS).
Qed.

Lemma run_rep ord dbg os : any_order ord -> forall g a ids a',
  grep g a -> agraph_run a os = Some (ids, a') ->
  exists g', graph_run ord dbg g os = Ok (ids, g') /\ grep g' a'.
Proof.
  intros HO. induction os as [|o os IH]; intros g a ids a' R HS.
  - cbn in HS. injection HS as <- <-. exists g. auto.
  - cbn [agraph_run] in HS. destruct (agraph_step a o) as [[x a1]|] eqn:E1; [|discriminate].
    destruct (agraph_run a1 os) as [[xs a2]|] eqn:E2; [|discriminate]. injection HS as <- <-.
    destruct (step_rep ord dbg g a o x a1 HO R E1) as (g1 & G1 & R1).
    destruct (IH g1 a1 xs a2 R1 E2) as (g2 & G2 & R2).
    exists g2. cbn [graph_run]. rewrite G1. cbn [bind]. rewrite G2. auto.
Qed.

Lemma history_rep ord dbg os ids a :
  any_order ord -> agraph_run a_empty os = Some (ids, a) ->
  exists g, graph_run ord dbg g_empty os = Ok (ids, g) /\ grep g a.
Proof. intros HO. exact (run_rep ord dbg os HO _ _ _ _ rep_empty). Qed.

Lemma rep_has_keys g a k : grep g a -> In k (map fst (gnodes g)) <-> a_has a k = true.
Proof.
  intros R. destruct (rep_keys g a R) as (_ & K). specialize (K k).
  pose proof (map_find_none (gnodes g) k) as M. unfold a_has.
  destruct (a_node a k) as [x|] eqn:E.
  - split; [reflexivity|]. intros _. destruct (in_dec Z.eq_dec k (map fst (gnodes g))) as [H | H]; [assumption|].
    apply M in H. exfalso. assert (map_find (gnodes g) k <> None) by (apply K; discriminate). congruence.
  - split; [|discriminate]. intros H. exfalso. destruct (map_find (gnodes g) k) eqn:F.
    + assert (@None T <> None) by (apply K; discriminate). congruence.
    + apply M in H; auto.
Qed.
Lemma rep_shows dbg g a : grep g a -> graph_shows dbg g a.
Proof.
  intros R. split; [|split].
  - exists (map fst (gnodes g)). split; [apply R|]. split; [intros k; now apply rep_has_keys|].
    unfold g_size. now rewrite map_length.
  - intros k H. now apply has_node_ok.
  - intros k x H. destruct (get_ok dbg g a k R) as (n & G & E & NV & NO & NI & EO & EI); [congruence|].
    exists n. repeat (split; [assumption || congruence|]). assumption.
Qed.

(** ** Searching *)

Lemma visit_ok dbg g a pred : grep g a -> forall ids,
  (forall k, In k ids -> a_has a k = true) -> NoDup ids ->
  exists r, g_visit dbg g ids pred = Ok r /\ NoDup r /\
    forall k, In k r <-> In k ids /\ exists n, map_find (gnodes g) k = Some n /\ pred n = true.
Proof.
  intros R. induction ids as [|i ids IH]; intros HI HN.
  - exists []. cbn. split; [reflexivity|]. split; [constructor|]. tauto.
  - inversion HN as [|x l N1 N2]; subst.
    destruct IH as (r & E & NR & HR); [intros; apply HI; now right | assumption|].
    destruct (get_ok dbg g a i R) as (n & G & F & _); [apply has_some, HI; now left|].
    cbn [g_visit]. rewrite G. cbn [bind]. rewrite E. cbn [bind]. eexists. split; [reflexivity|].
    destruct (pred n) eqn:P.
    + split.
      * constructor; [|assumption]. rewrite HR. tauto.
      * intros k. cbn [In]. rewrite HR. split.
        -- intros [-> | H]; [split; [auto | eauto] | tauto].
        -- intros ([-> | H1] & H2); auto.
    + split; [assumption|]. intros k. cbn [In]. rewrite HR. split; [tauto|].
      intros ([-> | H1] & n' & H2 & H3); [congruence|]. split; [assumption | eauto].
Qed.

Lemma ord_nodup ord (l : list Z) : any_order ord -> NoDup l -> NoDup (ord l).
Proof. intros HO. apply Permutation_NoDup, HO. Qed.

Lemma find_ok ord dbg g a pred : any_order ord -> grep g a ->
  exists r, g_find ord dbg g pred = Ok r /\ NoDup r /\
    forall k, In k r <-> exists n, map_find (gnodes g) k = Some n /\ pred n = true.
Proof.
  intros HO R. destruct (visit_ok dbg g a pred R (ord (map fst (gnodes g)))) as (r & E & NR & HR).
  - intros k. rewrite (ord_in ord _ k HO). now apply rep_has_keys.
  - apply ord_nodup; [assumption | apply R].
  - exists r. split; [exact E|]. split; [assumption|]. intros k. rewrite HR, (ord_in ord _ k HO).
    split; [tauto|]. intros (n & F & P). split; [now apply map_find_in in F | eauto].
Qed.

Lemma find_value_ok ord dbg g a p : any_order ord -> grep g a ->
  exists r, g_find ord dbg g (fun n => p (gval n)) = Ok r /\ NoDup r /\
    forall k, In k r <-> exists x, a_node a k = Some x /\ p x = true.
Proof.
  intros HO R. destruct (find_ok ord dbg g a (fun n => p (gval n)) HO R) as (r & E & NR & HR).
  exists r. split; [assumption|]. split; [assumption|]. intros k. rewrite HR. split.
  - intros (n & F & P). destruct R as (_ & _ & _ & R4 & _). destruct (R4 k n F) as (V & _). eauto.
  - intros (x & V & P). destruct (rep_find g a k R) as (n & F & NV & _); [congruence|].
    exists n. split; [assumption|]. congruence.
Qed.

Lemma is_nil_iff l : is_nil l = true <-> forall x, ~ In x l.
Proof.
  destruct l as [|y l]; cbn; split; auto; [discriminate|]. intros H. exfalso. apply (H y). now left.
Qed.

Lemma find_roots_ok ord dbg g a : any_order ord -> grep g a ->
  exists r, g_find_roots ord dbg g = Ok r /\ NoDup r /\
    forall k, In k r <-> a_has a k = true /\ forall u, a_edge a u k = false.
Proof.
  intros HO R. destruct (find_ok ord dbg g a (fun n => is_nil (gin n)) HO R) as (r & E & NR & HR).
  exists r. split; [assumption|]. split; [assumption|]. intros k. rewrite HR. split.
  - intros (n & F & P). destruct R as (_ & _ & _ & R4 & _). destruct (R4 k n F) as (V & _ & _ & _ & EI).
    unfold a_has. rewrite V. split; [reflexivity|]. intros u. apply is_nil_iff with (x := u) in P.
    rewrite EI in P. now apply not_true_is_false.
  - intros (V & P). destruct (rep_find g a k R (has_some a k V)) as (n & F & _ & _ & _ & _ & EI).
    exists n. split; [assumption|]. apply is_nil_iff. intros u. rewrite EI, P. discriminate.
Qed.

Lemma find_leaves_ok ord dbg g a : any_order ord -> grep g a ->
  exists r, g_find_leaves ord dbg g = Ok r /\ NoDup r /\
    forall k, In k r <-> a_has a k = true /\ forall v, a_edge a k v = false.
Proof.
  intros HO R. destruct (find_ok ord dbg g a (fun n => is_nil (gout n)) HO R) as (r & E & NR & HR).
  exists r. split; [assumption|]. split; [assumption|]. intros k. rewrite HR. split.
  - intros (n & F & P). destruct R as (_ & _ & _ & R4 & _). destruct (R4 k n F) as (V & _ & _ & EO & _).
    unfold a_has. rewrite V. split; [reflexivity|]. intros u. apply is_nil_iff with (x := u) in P.
    rewrite EO in P. now apply not_true_is_false.
  - intros (V & P). destruct (rep_find g a k R (has_some a k V)) as (n & F & _ & _ & _ & EO & _).
    exists n. split; [assumption|]. apply is_nil_iff. intros u. rewrite EO, P. discriminate.
Qed.

(** Ids never come back. *)
Lemma agraph_ids os : forall a ids a',
  agraph_run a os = Some (ids, a') ->
  a_next a <= a_next a' /\ NoDup ids /\ forall i, In i ids -> a_next a <= i < a_next a'.
Proof.
  induction os as [|o os IH]; intros a ids a' H.
  - cbn in H. injection H as <- <-. split; [lia|]. split; [constructor|]. intros i [].
  - cbn [agraph_run] in H. destruct (agraph_step a o) as [[x a1]|] eqn:E1; [|discriminate].
    destruct (agraph_run a1 os) as [[xs a2]|] eqn:E2; [|discriminate]. injection H as <- <-.
    destruct (IH a1 xs a2 E2) as (L & N & B).
    assert (Q : (x = [] /\ a_next a1 = a_next a) \/ (x = [a_next a] /\ a_next a1 = a_next a + 1)).
    { destruct o; cbn [agraph_step] in E1;
        repeat match type of E1 with context [if ?b then _ else _] => destruct b end;
        try discriminate; injection E1 as <- <-; auto. }
    destruct Q as [[-> Q] | [-> Q]]; cbn [app].
    + rewrite Q in *. auto.
    + split; [lia|]. split.
      * constructor; [|assumption]. intros HI. apply B in HI. lia.
      * intros i [<- | HI]; [lia|]. apply B in HI. lia.
Qed.
End Value.
