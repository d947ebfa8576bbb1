(** Proofs about ring_adaptor and bounded_vector_t. *)
From Coq Require Import ZifyBool.
From Verif Require Import Common CommonProofs Ints SeqContainers SpecSeq.
Open Scope Z_scope.
Local Arguments Z.mul : simpl never.
Local Arguments Z.add : simpl never.
Local Arguments Z.sub : simpl never.
Local Arguments Z.pow : simpl never.
Local Arguments Z.of_nat : simpl never.
Local Arguments Z.to_nat : simpl never.

Section Elem.
Context {A : Type}.
Implicit Types l : list A.

Local Ltac bool_true :=
  match goal with |- context [?a && ?b] =>
    replace (a && b) with true by (symmetry; apply andb_true_iff; split; lia) end.
Local Ltac bool_false :=
  match goal with |- context [?a && ?b] =>
    replace (a && b) with false by (symmetry; apply andb_false_iff; lia) end.

(** ** Slots *)

Lemma get_mid l x post n :
  n = Z.of_nat (length l) -> get (l ++ x :: post) n = Ok x.
Proof.
  intros ->. unfold get. rewrite app_length; cbn [length].
  bool_true.
  rewrite Nat2Z.id. apply rd_some. rewrite nth_error_app2, Nat.sub_diag by lia. reflexivity.
Qed.

Lemma upd_mid l x y post : upd (l ++ x :: post) (length l) y = l ++ y :: post.
Proof. induction l as [|a l IH]; cbn; [reflexivity | now rewrite IH]. Qed.

Lemma put_mid l x y post n :
  n = Z.of_nat (length l) -> put (l ++ x :: post) n y = Ok (l ++ y :: post).
Proof.
  intros ->. unfold put. rewrite app_length; cbn [length].
  bool_true.
  rewrite Nat2Z.id, wr_ok by (rewrite app_length; cbn [length]; lia).
  now rewrite upd_mid.
Qed.

Lemma get_nth l n x : nth_error l n = Some x -> get l (Z.of_nat n) = Ok x.
Proof.
  intros H. unfold get. pose proof (nth_error_some_lt _ _ _ H).
  bool_true.
  rewrite Nat2Z.id. now apply rd_some.
Qed.

Lemma put_ok l n x : (n < length l)%nat -> put l (Z.of_nat n) x = Ok (upd l n x).
Proof.
  intros H. unfold put.
  bool_true.
  rewrite Nat2Z.id. now apply wr_ok.
Qed.

Lemma get_out l n : Z.of_nat (length l) <= n -> get l n = UB.
Proof.
  intros H. unfold get. replace (n <? _) with false by (symmetry; lia).
  now rewrite andb_false_r.
Qed.

Lemma put_out l n x : Z.of_nat (length l) <= n -> put l n x = UB.
Proof.
  intros H. unfold put. replace (n <? _) with false by (symmetry; lia).
  now rewrite andb_false_r.
Qed.

Lemma sz_id z : 0 <= z < 2 ^ 64 -> sz z = z.
Proof. intros H. unfold sz. now apply Z.mod_small. Qed.

(** ** ring_adaptor *)

Definition big : Z := 2 ^ 64.

(** The ring holds [q]; [n] bounds how far the counters have run. *)
Definition rrep (cap : nat) (n : Z) (r : ring A) (q : list A) : Prop :=
  exists H,
    0 <= H /\ rhead r = H mod big /\ rtail r = (H + Z.of_nat (length q)) mod big /\
    length (rq r) = cap /\ (length q <= cap)%nat /\ Z.of_nat cap < big /\
    ((Z.of_nat cap | big) \/ H + Z.of_nat (length q) <= n) /\
    forall i x, nth_error q i = Some x ->
                nth_error (rq r) (Z.to_nat ((H + Z.of_nat i) mod Z.of_nat cap)) = Some x.

Lemma big_pos : 0 < big. Proof. reflexivity. Qed.

Lemma mod_mod_idx X cap :
  0 < cap -> 0 <= X -> ((cap | big) \/ X < big) -> (X mod big) mod cap = X mod cap.
Proof.
  intros HC HX [D | D].
  - destruct D as [k Hk]. rewrite Hk, (Z.mul_comm k cap).
    assert (0 < k) by (pose proof big_pos; nia).
    rewrite Z.rem_mul_r by lia.
    rewrite (Z.mul_comm cap (_ mod k)), Z.mod_add by lia. now rewrite Z.mod_mod by lia.
  - now rewrite (Z.mod_small X big) by lia.
Qed.

Lemma rsize cap n r q : rrep cap n r q -> r_size r = Z.of_nat (length q).
Proof.
  intros (H & H0 & HH & HT & HL & HQ & HB & _). unfold r_size, sz. fold big.
  rewrite HH, HT, <- Zminus_mod.
  replace (H + Z.of_nat (length q) - H) with (Z.of_nat (length q)) by lia.
  apply Z.mod_small. lia.
Qed.

Lemma rempty cap n r q : rrep cap n r q -> r_is_empty r = (length q =? 0)%nat.
Proof.
  intros R. pose proof (rsize _ _ _ _ R) as S1.
  destruct R as (H & H0 & HH & HT & HL & HQ & HB & _).
  unfold r_is_empty. unfold r_size, sz in S1. fold big in S1.
  destruct (Nat.eqb_spec (length q) 0) as [E | E].
  - apply Z.eqb_eq. rewrite HH, HT, E. f_equal; lia.
  - apply Z.eqb_neq. intros C. rewrite C, Z.sub_diag, Z.mod_0_l in S1 by (pose proof big_pos; lia). lia.
Qed.

Lemma rfull cap n r q : rrep cap n r q -> r_is_full r = (length q =? cap)%nat.
Proof.
  intros R. unfold r_is_full, r_capacity. rewrite (rsize _ _ _ _ R).
  destruct R as (H & H0 & HH & HT & HL & HQ & HB & _). rewrite HL.
  destruct (Nat.eqb_spec (length q) cap); [apply Z.eqb_eq | apply Z.eqb_neq]; lia.
Qed.

Lemma rcap cap n r q : rrep cap n r q -> r_capacity r = Z.of_nat cap.
Proof. intros (H & H0 & HH & HT & HL & _). unfold r_capacity. now rewrite HL. Qed.

Lemma rrep_more cap n n' r q : n <= n' -> rrep cap n r q -> rrep cap n' r q.
Proof.
  intros L (H & H0 & HH & HT & HL & HQ & HB & HD & HI).
  exists H. repeat (split; [assumption|]). split; [|assumption].
  destruct HD; [left; assumption | right; lia].
Qed.

Lemma idx_to_nat X cap : 0 < cap -> Z.of_nat (Z.to_nat (X mod cap)) = X mod cap.
Proof. intros H. apply Z2Nat.id. apply Z.mod_pos_bound. lia. Qed.

Lemma rpush cap n r q v dbg :
  rrep cap n r q -> (length q < cap)%nat -> ((Z.of_nat cap | big) \/ n < big) ->
  exists r', r_push_back dbg r v = Ok r' /\ rrep cap (n + 1) r' (q ++ [v]).
Proof.
  intros R HLt HN. pose proof (rfull _ _ _ _ R) as F. pose proof (rcap _ _ _ _ R) as C.
  destruct R as (H & H0 & HH & HT & HL & HQ & HB & HD & HI).
  unfold r_push_back. rewrite F.
  replace (length q =? cap)%nat with false by (symmetry; apply Nat.eqb_neq; lia).
  unfold cassert. cbn [negb andb]. rewrite andb_false_r. cbn [bind].
  unfold r_get_idx. rewrite C. replace (Z.of_nat cap =? 0) with false by (symmetry; lia). cbn [bind].
  rewrite HT, mod_mod_idx; [|lia|lia|destruct HD, HN; auto; right; lia].
  set (k := Z.to_nat ((H + Z.of_nat (length q)) mod Z.of_nat cap)).
  assert (Hk : Z.of_nat k = (H + Z.of_nat (length q)) mod Z.of_nat cap) by (apply idx_to_nat; lia).
  assert (Hkl : (k < length (rq r))%nat).
  { pose proof (Z.mod_pos_bound (H + Z.of_nat (length q)) (Z.of_nat cap)). lia. }
  rewrite <- Hk, put_ok by assumption. cbn [bind]. eexists; split; [reflexivity|].
  exists H; cbn [rq rhead rtail]. rewrite app_length; cbn [length].
  repeat (split; [try assumption; try lia|]).
  - unfold sz. fold big. rewrite Zplus_mod_idemp_l. f_equal; lia.
  - now rewrite upd_length.
  - destruct HD; [left; assumption | right; lia].
  - intros i x Hi.
    destruct (Nat.lt_ge_cases i (length q)) as [Li | Li].
    + rewrite nth_error_app1 in Hi by assumption.
      rewrite nth_error_upd_ne; [now apply HI|].
      intros E. apply (f_equal Z.of_nat) in E. rewrite Hk, idx_to_nat in E by lia.
      pose proof (Z.div_mod (H + Z.of_nat i) (Z.of_nat cap) ltac:(lia)) as D1.
      pose proof (Z.div_mod (H + Z.of_nat (length q)) (Z.of_nat cap) ltac:(lia)) as D2.
      rewrite E in D1.
      set (a := (H + Z.of_nat i) / Z.of_nat cap) in *. set (b := (H + Z.of_nat (length q)) / Z.of_nat cap) in *.
      assert (Z.of_nat cap * (b - a) = Z.of_nat (length q) - Z.of_nat i) by lia.
      assert (0 < b - a) by nia. nia.
    + assert (i = length q).
      { apply nth_error_some_lt in Hi. rewrite app_length in Hi; cbn in Hi. lia. }
      subst i. rewrite nth_error_app2, Nat.sub_diag in Hi by lia. cbn in Hi. injection Hi as <-.
      fold k. now apply nth_error_upd_eq.
Qed.

Lemma rpop cap n r x q dbg :
  rrep cap n r (x :: q) -> ((Z.of_nat cap | big) \/ n < big) ->
  exists r', r_pop_front dbg r = Ok (x, r') /\ rrep cap n r' q.
Proof.
  intros R HN. pose proof (rempty _ _ _ _ R) as F. pose proof (rcap _ _ _ _ R) as C.
  destruct R as (H & H0 & HH & HT & HL & HQ & HB & HD & HI). cbn [length] in *.
  unfold r_pop_front. rewrite F. unfold cassert.
  cbn [negb andb Nat.eqb]. rewrite andb_false_r. cbn [bind].
  unfold r_get_idx. rewrite C. replace (Z.of_nat cap =? 0) with false by (symmetry; lia). cbn [bind].
  rewrite HH, mod_mod_idx; [|lia|lia|destruct HD, HN; auto; right; lia].
  specialize (HI O x eq_refl) as H1. rewrite Z.add_0_r in H1.
  apply get_nth in H1. rewrite idx_to_nat in H1 by lia. rewrite H1. cbn [bind].
  eexists; split; [reflexivity|].
  exists (H + 1); cbn [rq rhead rtail].
  repeat (split; [try assumption; try lia|]).
  - unfold sz. fold big. now rewrite Zplus_mod_idemp_l.
  - rewrite HT. f_equal; lia.
  - destruct HD; [left; assumption | right; lia].
  - intros i y Hi. specialize (HI (S i) y Hi).
    replace (H + 1 + Z.of_nat i) with (H + Z.of_nat (S i)) by lia. assumption.
Qed.

Lemma rclear cap n r q : 0 <= n -> rrep cap n r q -> rrep cap n (r_clear r) [].
Proof.
  intros Hn (H & H0 & HH & HT & HL & HQ & HB & HD & HI).
  exists 0; cbn. repeat split; try assumption; try lia.
  intros i x Hi. destruct i; discriminate Hi.
Qed.

Lemma rmake cap c : length c = cap -> Z.of_nat cap < big -> rrep cap 0 (r_make c) [].
Proof.
  intros <- HB. exists 0; cbn. repeat split; try lia; auto.
  intros i x Hi. destruct i; discriminate Hi.
Qed.

Lemma rat cap n r q dbg i x :
  rrep cap n r q -> ((Z.of_nat cap | big) \/ n <= big) ->
  nth_error q i = Some x -> r_at dbg r (Z.of_nat i) = Ok x.
Proof.
  intros R HN Hi. pose proof (rsize _ _ _ _ R) as F. pose proof (rcap _ _ _ _ R) as C.
  destruct R as (H & H0 & HH & HT & HL & HQ & HB & HD & HI).
  pose proof (nth_error_some_lt _ _ _ Hi) as Li.
  unfold r_at. rewrite F. replace (Z.of_nat i <? _) with true by (symmetry; lia).
  unfold cassert. rewrite andb_false_r. cbn [bind].
  unfold r_get_idx. rewrite C. replace (Z.of_nat cap =? 0) with false by (symmetry; lia). cbn [bind].
  unfold sz. fold big. rewrite HH, Zplus_mod_idemp_l, mod_mod_idx; [|lia|lia|destruct HD, HN; auto; right; lia].
  specialize (HI i x Hi). apply get_nth in HI. rewrite idx_to_nat in HI by lia. assumption.
Qed.

Lemma rread cap n r q dbg :
  rrep cap n r q -> ((Z.of_nat cap | big) \/ n <= big) ->
  r_contents dbg r = Ok q.
Proof.
  intros R HN. unfold r_contents. rewrite (rsize _ _ _ _ R), Nat2Z.id.
  assert (G : forall post pre, q = pre ++ post ->
            r_read dbg r (Z.of_nat (length pre)) (length post) = Ok post).
  { induction post as [|x post IH]; intros pre E; cbn [length r_read]; [reflexivity|].
    rewrite (rat cap n r q dbg (length pre) x R HN); cbn [bind].
    2:{ subst q. rewrite nth_error_app2, Nat.sub_diag by lia. reflexivity. }
    specialize (IH (pre ++ [x])). rewrite app_length in IH; cbn [length] in IH.
    replace (Z.of_nat (length pre) + 1) with (Z.of_nat (length pre + 1)) by lia.
    rewrite IH; [reflexivity|]. subst q. now rewrite <- app_assoc. }
  exact (G q [] eq_refl).
Qed.

(** No emplace_back in a history. *)
Definition no_emplace (o : ring_op A) : Prop := match o with REmplace _ => False | _ => True end.

Lemma rstep cap n r q dbg o x q' :
  0 <= n ->
  rrep cap n r q -> ((Z.of_nat cap | big) \/ n < big) -> no_emplace o ->
  queue_step cap q o = Some (x, q') ->
  exists r', ring_step dbg r o = Ok (x, r') /\ rrep cap (n + 1) r' q'.
Proof.
  intros Hn R HN HE HS. destruct o as [v | | | v]; cbn [queue_step] in HS.
  - destruct (Nat.ltb_spec (length q) cap) as [L | L]; [|discriminate]. injection HS as <- <-.
    destruct (rpush cap n r q v dbg R L HN) as (r' & E & R').
    exists r'. cbn [ring_step]. rewrite E. auto.
  - destruct q as [|y q0]; [discriminate|]. injection HS as <- <-.
    destruct (rpop cap n r y q0 dbg R HN) as (r' & E & R').
    exists r'. cbn [ring_step]. rewrite E. split; [reflexivity|]. apply (rrep_more _ n); [lia | assumption].
  - injection HS as <- <-. exists (r_clear r). split; [reflexivity|].
    apply (rrep_more _ n); [lia|]. now apply (rclear cap n r q).
  - contradiction.
Qed.

Lemma rrun cap dbg os : forall n r q xs q',
  0 <= n ->
  rrep cap n r q -> ((Z.of_nat cap | big) \/ n + Z.of_nat (length os) <= big) -> Forall no_emplace os ->
  queue_run cap q os = Some (xs, q') ->
  exists r', ring_run dbg r os = Ok (xs, r') /\ rrep cap (n + Z.of_nat (length os)) r' q'.
Proof.
  induction os as [|o os IH]; intros n r q xs q' Hn R HN HF HR.
  - cbn in HR. injection HR as <- <-. exists r. split; [reflexivity|].
    apply (rrep_more _ n); [lia | assumption].
  - cbn [queue_run] in HR. destruct (queue_step cap q o) as [[x q1]|] eqn:ES; [|discriminate].
    destruct (queue_run cap q1 os) as [[ys q2]|] eqn:ER; [|discriminate]. injection HR as <- <-.
    inversion HF as [|o' os' HO HOS]; subst. cbn [length] in *.
    destruct (rstep cap n r q dbg o x q1 Hn R) as (r1 & E1 & R1); auto.
    { destruct HN; [left; assumption | right; lia]. }
    destruct (IH (n + 1) r1 q1 ys q2) as (r2 & E2 & R2); auto; try lia.
    { destruct HN; [left; assumption | right; lia]. }
    exists r2. cbn [ring_run]. rewrite E1; cbn [bind]. rewrite E2; cbn [bind]. split; [reflexivity|].
    replace (n + Z.of_nat (S (length os))) with (n + 1 + Z.of_nat (length os)) by lia. assumption.
Qed.

(** Everything a caller can observe of a ring that holds [q]. *)
Lemma ring_history dbg (c : list A) os xs q :
  Z.of_nat (length c) < 2 ^ 64 ->
  (Z.of_nat (length c) | 2 ^ 64) \/ Z.of_nat (length os) <= 2 ^ 64 ->
  (forall v, ~ In (REmplace v) os) ->
  queue_run (length c) [] os = Some (xs, q) ->
  exists r, ring_run dbg (r_make c) os = Ok (xs, r) /\
    r_size r = Z.of_nat (length q) /\
    r_capacity r = Z.of_nat (length c) /\
    r_is_empty r = (length q =? 0)%nat /\
    r_is_full r = (length q =? length c)%nat /\
    r_contents dbg r = Ok q /\
    (forall i x, nth_error q i = Some x -> r_at dbg r (Z.of_nat i) = Ok x).
Proof.
  intros HB HN HE HR.
  destruct (rrun (length c) dbg os 0 (r_make c) [] xs q) as (r & E & R); auto; try lia.
  { now apply rmake. }
  { apply Forall_forall. intros o HI. destruct o; cbn; auto. now apply (HE v). }
  exists r. split; [assumption|].
  split; [exact (rsize _ _ _ _ R)|]. split; [exact (rcap _ _ _ _ R)|].
  split; [exact (rempty _ _ _ _ R)|]. split; [exact (rfull _ _ _ _ R)|].
  split; [exact (rread _ _ _ _ dbg R HN)|].
  intros i x. exact (rat _ _ _ _ dbg i x R HN).
Qed.

Lemma ring_debug (c : list A) os xs q v i :
  Z.of_nat (length c) < 2 ^ 64 ->
  (Z.of_nat (length c) | 2 ^ 64) \/ Z.of_nat (length os) <= 2 ^ 64 ->
  (forall v, ~ In (REmplace v) os) ->
  queue_run (length c) [] os = Some (xs, q) ->
  exists r, ring_run true (r_make c) os = Ok (xs, r) /\
    (length q = length c -> r_push_back true r v = Throw) /\
    (q = [] -> r_pop_front true r = Throw) /\
    (Z.of_nat (length q) <= i -> r_at true r i = Throw).
Proof.
  intros HB HN HE HR.
  destruct (ring_history true c os xs q HB HN HE HR) as (r & E & Sz & Cp & Em & Fu & _).
  exists r. split; [assumption|]. split; [|split].
  - intros L. unfold r_push_back. rewrite Fu, L, Nat.eqb_refl. reflexivity.
  - intros ->. unfold r_pop_front. rewrite Em. reflexivity.
  - intros L. unfold r_at. rewrite Sz. replace (i <? _) with false by (symmetry; lia). reflexivity.
Qed.

(** emplace_back moves the wrong end. *)
Lemma emplace_size dbg (r r' : ring A) v :
  0 <= rhead r < 2 ^ 64 -> 0 <= rtail r < 2 ^ 64 ->
  r_emplace_back dbg r v = Ok r' -> r_size r' = sz (r_size r - 1).
Proof.
  intros H1 H2. unfold r_emplace_back.
  destruct (cassert _ _); cbn [bind]; try discriminate.
  destruct (r_get_idx _ _) as [i| | |]; cbn [bind]; try discriminate.
  destruct (put _ _ _) as [q| | |]; cbn [bind]; try discriminate.
  intros E. injection E as <-. unfold r_size, sz; cbn.
  rewrite Zminus_mod_idemp_r, Zminus_mod_idemp_l. f_equal; lia.
Qed.

Lemma rrep_range cap n r q : rrep cap n r q -> 0 <= rhead r < 2 ^ 64 /\ 0 <= rtail r < 2 ^ 64.
Proof.
  intros (H & H0 & HH & HT & _). rewrite HH, HT. split; apply Z.mod_pos_bound; exact big_pos.
Qed.

Lemma emplace_wrong dbg (c : list A) os xs q v :
  Z.of_nat (length c) < 2 ^ 64 ->
  (Z.of_nat (length c) | 2 ^ 64) \/ Z.of_nat (length os) < 2 ^ 64 ->
  (forall v, ~ In (REmplace v) os) ->
  queue_run (length c) [] os = Some (xs, q) ->
  (length q < length c)%nat ->
  exists r r', ring_run dbg (r_make c) os = Ok (xs, r) /\
    r_emplace_back dbg r v = Ok r' /\
    r_size r' = sz (Z.of_nat (length q) - 1).
Proof.
  intros HB HN HE HR HL.
  destruct (rrun (length c) dbg os 0 (r_make c) [] xs q) as (r & E & R); auto; try lia.
  { now apply rmake. }
  { destruct HN; [left; assumption | right; unfold big; lia]. }
  { apply Forall_forall. intros o HI. destruct o; cbn; auto. now apply (HE v0). }
  pose proof (rfull _ _ _ _ R) as F. pose proof (rcap _ _ _ _ R) as C.
  assert (exists r', r_emplace_back dbg r v = Ok r') as (r' & ER).
  { unfold r_emplace_back. rewrite F.
    replace (length q =? length c)%nat with false by (symmetry; apply Nat.eqb_neq; lia).
    unfold cassert. cbn [negb]. rewrite andb_false_r. cbn [bind].
    unfold r_get_idx. rewrite C. replace (Z.of_nat (length c) =? 0) with false by (symmetry; lia). cbn [bind].
    destruct R as (H & H0 & HH & HT & HLr & _).
    assert (LI : (Z.to_nat (rhead r mod Z.of_nat (length c)) < length (rq r))%nat).
    { rewrite HLr. pose proof (Z.mod_pos_bound (rhead r) (Z.of_nat (length c))). lia. }
    pose proof (put_ok (rq r) _ v LI) as P. rewrite idx_to_nat in P by lia. rewrite P. cbn [bind].
    eexists; reflexivity. }
  exists r, r'. split; [assumption|]. split; [assumption|].
  rewrite (emplace_size dbg r r' v); auto; try apply (rrep_range _ _ _ _ R).
  now rewrite (rsize _ _ _ _ R).
Qed.

(** The counters wrap at 2^64, which only fits capacities dividing 2^64. *)
Lemma ring_pairs dbg (c : list A) v n os :
  (0 < length c)%nat -> Z.of_nat (length c) < 2 ^ 64 ->
  Z.of_nat n < 2 ^ 64 ->
  exists q, length q = length c /\
  ring_run dbg (r_make c) (concat (repeat [RPush v; RPop] n) ++ os) =
    (' (xs, r) <- ring_run dbg {| rq := q; rhead := Z.of_nat n; rtail := Z.of_nat n |} os ;;
     Ok (repeat v n ++ xs, r)).
Proof.
  intros HC HB. revert os. induction n as [|n IH]; intros os HN.
  - exists c. split; [reflexivity|]. cbn [repeat concat app].
    change (Z.of_nat 0) with 0. change (r_make c) with {| rq := c; rhead := 0; rtail := 0 |}.
    destruct (ring_run dbg _ os) as [[xs r]| | |]; reflexivity.
  - destruct (IH ([RPush v; RPop] ++ os)) as (q & Lq & E); [lia|].
    replace (concat (repeat [RPush v; RPop] (S n)) ++ os)
      with (concat (repeat [RPush v; RPop] n) ++ [RPush v; RPop] ++ os).
    2:{ rewrite app_assoc. f_equal. clear. induction n as [|n IH]; [reflexivity|].
        cbn [repeat concat] in *. rewrite <- app_assoc, IH. reflexivity. }
    rewrite E. clear E. cbn [app ring_run ring_step].
    unfold r_push_back, r_is_full, r_size, r_get_idx, r_capacity; cbn [rq rhead rtail].
    rewrite Z.sub_diag. change (sz 0) with 0. rewrite Lq.
    replace (0 =? Z.of_nat (length c)) with false by (symmetry; lia).
    unfold cassert. cbn [negb]. rewrite andb_false_r. cbn [bind].
    replace (Z.of_nat (length c) =? 0) with false by (symmetry; lia). cbn [bind].
    assert (LI : (Z.to_nat (Z.of_nat n mod Z.of_nat (length c)) < length q)%nat).
    { rewrite Lq. pose proof (Z.mod_pos_bound (Z.of_nat n) (Z.of_nat (length c))). lia. }
    pose proof (put_ok q _ v LI) as P. rewrite idx_to_nat in P by lia. rewrite P. cbn [bind].
    unfold r_pop_front, r_is_empty, r_get_idx, r_capacity; cbn [rq rhead rtail].
    rewrite sz_id by lia.
    replace (Z.of_nat n =? Z.of_nat n + 1) with false by (symmetry; lia).
    unfold cassert. cbn [negb]. rewrite andb_false_r. cbn [bind].
    rewrite upd_length, Lq. replace (Z.of_nat (length c) =? 0) with false by (symmetry; lia). cbn [bind].
    set (k := Z.to_nat (Z.of_nat n mod Z.of_nat (length c))) in *.
    assert (G : get (upd q k v) (Z.of_nat n mod Z.of_nat (length c)) = Ok v).
    { rewrite <- (idx_to_nat (Z.of_nat n) (Z.of_nat (length c))) by lia.
      apply get_nth. now apply nth_error_upd_eq. }
    rewrite G. cbn [bind].
    exists (upd q k v). split; [now rewrite upd_length|].
    replace (Z.of_nat n + 1) with (Z.of_nat (S n)) by lia.
    destruct (ring_run dbg _ os) as [[xs r]| | |]; cbn [bind]; try reflexivity.
    do 2 f_equal. cbn [repeat].
    clear. induction n as [|n IH]; [reflexivity|]. cbn [repeat app] in *. now rewrite IH.
Qed.

Lemma queue_pairs cap (v : A) n os :
  (0 < cap)%nat ->
  queue_run cap [] (concat (repeat [RPush v; RPop] n) ++ os) =
  match queue_run cap [] os with Some (xs, q) => Some (repeat v n ++ xs, q) | None => None end.
Proof.
  intros HC. induction n as [|n IH].
  - cbn. destruct (queue_run cap [] os) as [[xs q]|]; reflexivity.
  - cbn [repeat concat app queue_run queue_step length].
    replace (0 <? cap)%nat with true by (symmetry; apply Nat.ltb_lt; lia).
    cbn [app]. rewrite IH. destruct (queue_run cap [] os) as [[xs q]|]; reflexivity.
Qed.

Lemma ring_wrap dbg (c : list A) (a b : A) :
  length c = 3%nat -> a <> b ->
  exists os xs ys q r,
    (forall v, ~ In (REmplace v) os) /\
    queue_run (length c) [] os = Some (xs, q) /\
    ring_run dbg (r_make c) os = Ok (ys, r) /\ xs <> ys.
Proof.
  intros HC Hab. set (n := Z.to_nat (2 ^ 64 - 1)).
  assert (Hn : Z.of_nat n = 18446744073709551615) by (unfold n; rewrite Z2Nat.id; [reflexivity | discriminate]).
  destruct (ring_pairs dbg c a n [RPush a; RPush b; RPop]) as (q & Lq & E); try lia.
  rewrite Hn in E.
  exists (concat (repeat [RPush a; RPop] n) ++ [RPush a; RPush b; RPop]).
  exists (repeat a n ++ [a]), (repeat a n ++ [b]), [b].
  destruct q as [|q0 [|q1 [|q2 [|]]]]; cbn in Lq; try lia.
  eexists. repeat apply conj.
  - intros v HI. apply in_app_or in HI. destruct HI as [HI | HI].
    + apply in_concat in HI. destruct HI as (x & HI & HV). apply repeat_spec in HI. subst x.
      destruct HV as [HV | [HV | []]]; discriminate.
    + destruct HI as [HI | [HI | [HI | []]]]; discriminate.
  - rewrite queue_pairs by lia. rewrite HC. reflexivity.
  - rewrite E. clear E Hn. destruct dbg; reflexivity.
  - intros C. apply app_inv_head in C. now injection C.
Qed.

(** ** bounded_vector_t *)

Variable dflt : A.

(** The vector holds [l]: the used slots start at slot 0. *)
Definition brep (N : nat) (v : bvec A) (l : list A) : Prop :=
  bfirst v = 0 /\ bindex v = Z.of_nat (length l) /\ Z.of_nat N < 2 ^ 63 /\
  exists rest, bstack v = l ++ rest /\ (length l + length rest)%nat = N.

Lemma b_store_mid (xs : list A) : forall pre old post n,
  n = Z.of_nat (length pre) -> length old = length xs ->
  b_store (pre ++ old ++ post) n xs = Ok (pre ++ xs ++ post).
Proof.
  induction xs as [|x xs IH]; intros pre old post n En EL; destruct old as [|o old]; try discriminate EL.
  - reflexivity.
  - cbn [app b_store]. rewrite (put_mid pre o x (old ++ post) n En). cbn [bind].
    specialize (IH (pre ++ [x]) old post (n + 1)).
    rewrite app_length in IH; cbn [length] in IH. rewrite <- !app_assoc in IH. cbn [app] in IH.
    apply IH; [lia|]. cbn in EL; lia.
Qed.

Lemma b_read_mid l : forall pre post n,
  n = Z.of_nat (length pre) -> b_read (pre ++ l ++ post) n (length l) = Ok l.
Proof.
  induction l as [|x l IH]; intros pre post n En; [reflexivity|].
  cbn [app b_read length]. rewrite (get_mid pre x (l ++ post) n En). cbn [bind].
  specialize (IH (pre ++ [x]) post (n + 1)).
  rewrite app_length in IH; cbn [length] in IH. rewrite <- !app_assoc in IH. cbn [app] in IH.
  rewrite IH by lia. reflexivity.
Qed.

Lemma b_rread_mid l : forall post,
  b_rread (rev l ++ post) (Z.of_nat (length l)) (length l) = Ok l.
Proof.
  induction l as [|x l IH]; intros post; [reflexivity|].
  cbn [rev length b_rread]. rewrite <- app_assoc. cbn [app].
  replace (Z.of_nat (S (length l)) - 1) with (Z.of_nat (length l)) by lia.
  rewrite (get_mid (rev l) x post) by (now rewrite rev_length). cbn [bind].
  now rewrite IH.
Qed.

Lemma b_shift_mid (tail : list A) : forall pre mid post i j,
  i = Z.of_nat (length pre) -> j = Z.of_nat (length pre + length mid) ->
  exists mid', length mid' = length mid /\
  b_shift (pre ++ mid ++ tail ++ post) i j (length tail) = Ok (pre ++ tail ++ mid' ++ post).
Proof.
  induction tail as [|t tail IH]; intros pre mid post i j Ei Ej.
  - exists mid. split; reflexivity.
  - destruct mid as [|m mid].
    + destruct (IH (pre ++ [t]) [] post (i + 1) (j + 1)) as (mid' & L & E).
      { rewrite app_length; cbn; lia. } { rewrite app_length; cbn in *; lia. }
      exists mid'. split; [assumption|]. cbn [app length] in *.
      cbn [b_shift]. rewrite Nat.add_0_r in Ej. subst j. rewrite <- Ei in *.
      rewrite (get_mid pre t (tail ++ post) i Ei). cbn [bind].
      rewrite (put_mid pre t t (tail ++ post) i Ei). cbn [bind].
      rewrite (put_mid pre t t (tail ++ post) i Ei). cbn [bind].
      rewrite <- !app_assoc in E. cbn [app] in E. assumption.
    + destruct (IH (pre ++ [t]) (mid ++ [m]) post (i + 1) (j + 1)) as (mid' & L & E).
      { rewrite app_length; cbn; lia. } { rewrite !app_length; cbn [length] in *; lia. }
      exists mid'. split; [rewrite L, app_length; cbn; lia|].
      cbn [app length] in *. cbn [b_shift].
      rewrite (get_mid pre m (mid ++ t :: tail ++ post) i Ei). cbn [bind].
      replace (pre ++ m :: mid ++ t :: tail ++ post) with ((pre ++ m :: mid) ++ t :: tail ++ post)
        by now rewrite <- app_assoc.
      rewrite (get_mid (pre ++ m :: mid) t (tail ++ post) j) by (rewrite app_length; cbn; lia). cbn [bind].
      replace ((pre ++ m :: mid) ++ t :: tail ++ post) with (pre ++ m :: mid ++ t :: tail ++ post)
        by now rewrite <- app_assoc.
      rewrite (put_mid pre m t (mid ++ t :: tail ++ post) i Ei). cbn [bind].
      replace (pre ++ t :: mid ++ t :: tail ++ post) with ((pre ++ t :: mid) ++ t :: tail ++ post)
        by now rewrite <- app_assoc.
      rewrite (put_mid (pre ++ t :: mid) t m (tail ++ post) j) by (rewrite app_length; cbn; lia). cbn [bind].
      rewrite <- !app_assoc in E. cbn [app] in E. rewrite <- !app_assoc. cbn [app]. assumption.
Qed.

Ltac unrep H :=
  let F := fresh "F" in let I := fresh "I" in let B := fresh "B" in
  let rest := fresh "rest" in let S1 := fresh "St" in let L := fresh "L" in
  destruct H as (F & I & B & rest & S1 & L).

Lemma bsize N v l : brep N v l -> b_size v = Z.of_nat (length l).
Proof. intros H. unrep H. unfold b_size. rewrite F, I, Z.sub_0_r. apply sz_id. lia. Qed.

Lemma bcap N v l : brep N v l -> b_capacity v = Z.of_nat N.
Proof. intros H. unrep H. unfold b_capacity. rewrite St, app_length. lia. Qed.

Lemma broom N v l k : brep N v l -> b_make_room v k = Ok v.
Proof. intros H. unrep H. unfold b_make_room, b_can_move_front. rewrite F. reflexivity. Qed.

Lemma bempty N : Z.of_nat N < 2 ^ 63 -> brep N (b_empty dflt N) [].
Proof.
  intros H. repeat split; auto. exists (repeat dflt N). split; [reflexivity|].
  rewrite repeat_length. reflexivity.
Qed.

Lemma bclear N v l : brep N v l -> brep N (b_clear v) [].
Proof.
  intros H. unrep H. repeat split; auto. exists (l ++ rest). cbn. split; [assumption|].
  rewrite app_length. lia.
Qed.

Lemma bpush N v l x :
  brep N v l -> (length l < N)%nat ->
  exists v', b_push_back v x = Ok v' /\ brep N v' (l ++ [x]).
Proof.
  intros H HL. unfold b_push_back. rewrite (broom _ _ _ _ H). cbn [bind]. unrep H.
  destruct rest as [|o rest]; [cbn in L; lia|].
  rewrite St, (put_mid l o x rest _ I). cbn [bind]. eexists; split; [reflexivity|].
  repeat split; cbn [bfirst bindex bstack]; auto.
  - rewrite I, sz_id, app_length; cbn [length]; lia.
  - exists rest. rewrite <- app_assoc, app_length. cbn in *. split; [reflexivity|lia].
Qed.

Lemma bemplace N v l k x :
  brep N v l -> b_emplace_back v k x = b_push_back v x.
Proof.
  intros H. unfold b_emplace_back, b_push_back. now rewrite !(broom _ _ _ _ H).
Qed.

Lemma bpush_range N v l xs :
  brep N v l -> (length l + length xs <= N)%nat ->
  exists v', b_push_range v xs (Z.of_nat (length xs)) = Ok v' /\ brep N v' (l ++ xs).
Proof.
  intros H HL. unfold b_push_range. rewrite (broom _ _ _ _ H). cbn [bind]. unrep H.
  rewrite I, sz_id by lia.
  replace (Z.of_nat (length l) + Z.of_nat (length xs) - Z.of_nat (length l)) with (Z.of_nat (length xs)) by lia.
  rewrite Z.ltb_irrefl, Nat2Z.id, firstn_all, St.
  rewrite <- (firstn_skipn (length xs) rest).
  rewrite (b_store_mid xs l (firstn (length xs) rest) _ _ eq_refl)
    by (rewrite firstn_length; lia).
  cbn [bind]. eexists; split; [reflexivity|].
  repeat split; cbn [bfirst bindex bstack]; auto.
  - rewrite app_length. lia.
  - exists (skipn (length xs) rest). rewrite <- app_assoc, app_length, skipn_length. split; [reflexivity|lia].
Qed.

Lemma bpush_times n (x : A) : forall N v l,
  brep N v l -> (length l + n <= N)%nat ->
  exists v', b_push_times v n x = Ok v' /\ brep N v' (l ++ repeat x n).
Proof.
  induction n as [|n IH]; intros N v l H HL.
  - exists v. cbn. rewrite app_nil_r. auto.
  - destruct (bpush N v l x H) as (v1 & E & R); [lia|].
    destruct (IH N v1 (l ++ [x]) R) as (v2 & E2 & R2); [rewrite app_length; cbn; lia|].
    exists v2. cbn [b_push_times repeat]. rewrite E; cbn [bind]. split; [assumption|].
    rewrite <- app_assoc in R2. assumption.
Qed.

Lemma bpop_back N v l x :
  brep N v (l ++ [x]) -> exists v', b_pop_back v = Ok (x, v') /\ brep N v' l.
Proof.
  intros H. unrep H. rewrite app_length in I, L; cbn [length] in I, L.
  unfold b_pop_back. rewrite I, sz_id by lia.
  rewrite St, <- app_assoc. cbn [app].
  rewrite (get_mid l x rest) by lia. cbn [bind]. eexists; split; [reflexivity|].
  repeat split; cbn [bfirst bindex bstack]; auto; try lia.
  exists (x :: rest). cbn [length]. split; [reflexivity | lia].
Qed.

Lemma bresize N v l n :
  brep N v l -> (n <= N)%nat ->
  exists v', b_resize dflt v (Z.of_nat n) = Ok v' /\
             brep N v' (firstn n l ++ repeat dflt (n - length l)).
Proof.
  intros H HL. unfold b_resize. rewrite (bcap _ _ _ H), (bsize _ _ _ H).
  replace (Z.of_nat N <? Z.of_nat n) with false by (symmetry; lia).
  destruct (Z.ltb_spec (Z.of_nat (length l)) (Z.of_nat n)) as [C | C].
  - rewrite (broom _ _ _ _ H). cbn [bind]. rewrite (bsize _ _ _ H).
    replace (Z.to_nat (Z.of_nat n - Z.of_nat (length l))) with (n - length l)%nat by lia.
    unrep H. rewrite St. set (k := (n - length l)%nat).
    rewrite <- (firstn_skipn k rest).
    rewrite (b_store_mid (repeat dflt k) l (firstn k rest) _ _ eq_refl)
      by (rewrite firstn_length, repeat_length; lia).
    cbn [bind bfirst bindex bstack]. eexists; split; [reflexivity|].
    rewrite firstn_all2 by lia.
    repeat split; cbn [bfirst bindex bstack]; auto.
    + rewrite app_length, repeat_length. lia.
    + exists (skipn k rest). rewrite <- app_assoc, app_length, repeat_length, skipn_length.
      split; [reflexivity | lia].
  - cbn [bind]. eexists; split; [reflexivity|]. unrep H.
    replace (n - length l)%nat with O by lia. cbn [repeat]. rewrite app_nil_r.
    repeat split; cbn [bfirst bindex bstack]; auto.
    + rewrite firstn_length. lia.
    + exists (skipn n l ++ rest). rewrite app_assoc, firstn_skipn, firstn_length, app_length, skipn_length.
      split; [assumption | lia].
Qed.

Lemma bresize_throw N v l n :
  brep N v l -> Z.of_nat N < n -> b_resize dflt v n = Throw.
Proof.
  intros H HL. unfold b_resize. rewrite (bcap _ _ _ H).
  now replace (Z.of_nat N <? n) with true by (symmetry; lia).
Qed.

Lemma skipn_add b : forall a l, skipn a (skipn b l) = skipn (b + a) l.
Proof.
  induction b as [|b IH]; intros a l; [reflexivity|].
  destruct l; [now rewrite skipn_nil | apply IH].
Qed.

(** The common part of the two erase functions. *)
Lemma berase_core N v l f e :
  brep N v l -> (f <= e <= length l)%nat ->
  exists st v',
    b_shift (bstack v) (Z.of_nat f) (Z.of_nat e) (Z.to_nat (bindex v - Z.of_nat e)) = Ok st /\
    b_resize dflt {| bindex := bindex v; bfirst := bfirst v; bstack := st |}
             (Z.of_nat (length l - (e - f))) = Ok v' /\
    brep N v' (firstn f l ++ skipn e l).
Proof.
  intros H HL. pose proof H as H'. unrep H.
  set (pre := firstn f l). set (mid := firstn (e - f) (skipn f l)). set (tail := skipn e l).
  assert (El : l = pre ++ mid ++ tail).
  { unfold pre, mid, tail. replace (skipn e l) with (skipn (e - f) (skipn f l)) by (rewrite skipn_add; f_equal; lia).
    now rewrite !firstn_skipn. }
  assert (Lp : length pre = f) by (unfold pre; rewrite firstn_length; lia).
  assert (Lm : length mid = (e - f)%nat) by (unfold mid; rewrite firstn_length, skipn_length; lia).
  assert (Lt : length tail = (length l - e)%nat) by (unfold tail; rewrite skipn_length; lia).
  destruct (b_shift_mid tail pre mid rest (Z.of_nat f) (Z.of_nat e)) as (mid' & Lm' & ES); try lia.
  exists (pre ++ tail ++ mid' ++ rest).
  assert (R1 : brep N {| bindex := bindex v; bfirst := bfirst v; bstack := pre ++ tail ++ mid' ++ rest |}
                    (pre ++ tail ++ mid')).
  { repeat split; cbn [bfirst bindex bstack]; auto.
    - rewrite !app_length. lia.
    - exists rest. rewrite <- !app_assoc, !app_length. split; [reflexivity | lia]. }
  destruct (bresize N _ _ (length l - (e - f)) R1) as (v' & ER & R2); [lia|].
  exists v'. split; [|split; [exact ER|]].
  - rewrite I. replace (Z.to_nat (Z.of_nat (length l) - Z.of_nat e)) with (length tail) by lia.
    rewrite St, El, <- !app_assoc. exact ES.
  - rewrite app_assoc, firstn_app, !app_length in R2.
    replace (length l - (e - f) - (length pre + length tail))%nat with O in R2 by lia.
    replace (length l - (e - f) - (length pre + length tail + length mid'))%nat with O in R2 by lia.
    cbn [firstn repeat] in R2. rewrite !app_nil_r in R2.
    rewrite firstn_all2 in R2 by (rewrite app_length; lia). exact R2.
Qed.

(** erase( pos ): the contents are right, the returned position is one too far
    unless the last element was erased. *)
Lemma berase N v l p :
  brep N v l -> (p < length l)%nat ->
  exists v', b_erase dflt v (Z.of_nat p) =
    Ok (if (S p =? length l)%nat then Z.of_nat p else Z.of_nat p + 1, v') /\
    brep N v' (firstn p l ++ skipn (S p) l).
Proof.
  intros H HL. destruct (berase_core N v l p (S p) H) as (st & v' & ES & ER & R); [lia|].
  pose proof H as H'. unrep H'. exists v'. split; [|assumption].
  unfold b_erase. unfold b_next at 1. rewrite (bcap _ _ _ H).
  bool_true. cbn [bind].
  rewrite I. replace (Z.of_nat (length l) <? Z.of_nat p + 1) with false by (symmetry; lia).
  replace (Z.of_nat p + 1) with (Z.of_nat (S p)) in * by lia.
  rewrite I in ES. rewrite ES. cbn [bind]. rewrite (bsize _ _ _ H).
  rewrite sz_id by lia. rewrite I in ER.
  replace (Z.of_nat (length l) - 1) with (Z.of_nat (length l - (S p - p))) by lia. rewrite ER. cbn [bind].
  pose proof R as R'. destruct R' as (F2 & I2 & B2 & _). rewrite I2, app_length, firstn_length, skipn_length.
  destruct (Nat.eqb_spec (S p) (length l)) as [E | E].
  - replace (Z.of_nat p =? _) with true by (symmetry; lia). do 2 f_equal. lia.
  - replace (Z.of_nat p =? _) with false by (symmetry; lia).
    unfold b_next. rewrite (bcap _ _ _ R).
    bool_true. reflexivity.
Qed.

Lemma berase_range N v l f e dbg :
  brep N v l -> (f <= e <= length l)%nat -> (dbg = true -> e - f < length l)%nat ->
  exists v', brep N v' (firstn f l ++ skipn e l) /\
    b_erase_range dflt dbg v (Z.of_nat f) (Z.of_nat e) =
    if (e + (e - f) =? length l)%nat then Ok (Z.of_nat e, v')
    else if (e =? N)%nat then UB else Ok (Z.of_nat e + 1, v').
Proof.
  intros H HL HD. destruct (berase_core N v l f e H HL) as (st & v' & ES & ER & R).
  pose proof H as H'. unrep H'. exists v'. split; [assumption|].
  unfold b_erase_range. rewrite (bsize _ _ _ H). rewrite I in *.
  replace (Z.of_nat (length l) <? Z.of_nat e) with false by (symmetry; lia).
  rewrite ES. cbn [bind].
  replace (cassert dbg _) with (@Ok unit tt).
  2:{ unfold cassert. destruct dbg; [|reflexivity]. specialize (HD eq_refl).
      bool_true. reflexivity. }
  cbn [bind]. rewrite sz_id by lia.
  replace (Z.of_nat (length l) - (Z.of_nat e - Z.of_nat f)) with (Z.of_nat (length l - (e - f))) by lia.
  rewrite ER. cbn [bind].
  pose proof R as R'. destruct R' as (F2 & I2 & B2 & _). rewrite I2, app_length, firstn_length, skipn_length.
  destruct (Nat.eqb_spec (e + (e - f)) (length l)) as [E | E].
  - replace (Z.of_nat e =? _) with true by (symmetry; lia). do 2 f_equal. lia.
  - replace (Z.of_nat e =? _) with false by (symmetry; lia).
    unfold b_next. rewrite (bcap _ _ _ R).
    destruct (Nat.eqb_spec e N) as [E2 | E2].
    + bool_false. reflexivity.
    + bool_true. reflexivity.
Qed.

Lemma berase_all N v l :
  brep N v l -> b_erase_range dflt true v 0 (Z.of_nat (length l)) = Throw.
Proof.
  intros H. destruct (berase_core N v l 0 (length l) H) as (st & v' & ES & ER & R); [lia|].
  pose proof H as H'. unrep H'. unfold b_erase_range. rewrite (bsize _ _ _ H). rewrite I in *.
  rewrite Z.ltb_irrefl. change (Z.of_nat 0) with 0 in ES. rewrite ES. cbn [bind].
  rewrite Z.sub_0_r, Z.ltb_irrefl. reflexivity.
Qed.

Lemma bzero N v l z :
  brep N v l -> exists v', b_zero v z = Ok v' /\ brep N v' (map (fun _ => z) l).
Proof.
  intros H. unrep H. unfold b_zero.
  pose proof (b_store_mid (repeat z (length (bstack v))) [] (bstack v) [] 0 eq_refl) as E.
  cbn [app] in E. rewrite !app_nil_r in E. rewrite E by now rewrite repeat_length.
  cbn [bind]. eexists; split; [reflexivity|].
  repeat split; cbn [bfirst bindex bstack]; auto.
  - now rewrite map_length.
  - exists (repeat z (length rest)). rewrite map_length, repeat_length. split; [|assumption].
    rewrite St, app_length, repeat_app. f_equal. clear. induction l; cbn; congruence.
Qed.

Lemma bstep N dbg v l o x l' :
  brep N v l -> vec_supported dbg N l o ->
  list_step dflt N l o = Some (x, l') ->
  exists v', vec_step dflt dbg v o = Ok (x, v') /\ brep N v' l'.
Proof.
  intros H OKo HS. assert (F0 : bfirst v = 0) by (now unrep H).
  destruct o as [y | k y | ys | n y | | | n | p | f e | | z]; cbn [list_step vec_step] in *.
  - destruct (Nat.ltb_spec (length l) N); [|discriminate]. injection HS as <- <-.
    destruct (bpush N v l y H) as (v' & E & R); [assumption|]. exists v'. rewrite E. auto.
  - destruct (Nat.ltb_spec (length l) N); [|discriminate]. injection HS as <- <-.
    destruct (bpush N v l y H) as (v' & E & R); [assumption|]. exists v'. rewrite (bemplace _ _ _ _ _ H), E. auto.
  - destruct (Nat.leb_spec (length l + length ys) N); [|discriminate]. injection HS as <- <-.
    destruct (bpush_range N v l ys H) as (v' & E & R); [assumption|]. exists v'. rewrite E. auto.
  - destruct (Nat.leb_spec n N); [|discriminate]. injection HS as <- <-.
    destruct (bpush_times n y N (b_clear v) [] (bclear _ _ _ H)) as (v' & E & R); [cbn; lia|].
    exists v'. unfold b_assign. rewrite E. auto.
  - destruct (rev l) as [|y r] eqn:E; [discriminate|]. injection HS as <- <-.
    apply (f_equal (@rev A)) in E. rewrite rev_involutive in E. cbn [rev] in E. subst l.
    destruct (bpop_back N v (rev r) y H) as (v' & E & R). exists v'. rewrite E. auto.
  - contradiction.
  - destruct (Nat.leb_spec n N); [|discriminate]. injection HS as <- <-.
    destruct (bresize N v l n H) as (v' & E & R); [assumption|]. exists v'. rewrite E. auto.
  - destruct (Nat.ltb_spec p (length l)); [|discriminate]. injection HS as <- <-.
    destruct (berase N v l p H) as (v' & E & R); [assumption|]. exists v'.
    rewrite F0, Z.add_0_l, E. auto.
  - destruct OKo as (O1 & O2).
    destruct (Nat.leb_spec f e); [|discriminate]. destruct (Nat.leb_spec e (length l)); [|discriminate].
    cbn in HS. injection HS as <- <-.
    destruct (berase_range N v l f e dbg H) as (v' & R & E); [lia | assumption |].
    exists v'. rewrite F0, !Z.add_0_l, E.
    replace (e =? N)%nat with false by (symmetry; apply Nat.eqb_neq; lia).
    destruct (e + (e - f) =? length l)%nat; auto.
  - injection HS as <- <-. exists (b_clear v). split; [reflexivity|]. now apply (bclear N v l).
  - injection HS as <- <-. destruct (bzero N v l z H) as (v' & E & R). exists v'. rewrite E. auto.
Qed.

Lemma brun N dbg os : forall v l xs l',
  brep N v l -> list_run dflt N (vec_supported dbg N) l os xs l' ->
  exists v', vec_run dflt dbg v os = Ok (xs, v') /\ brep N v' l'.
Proof.
  induction os as [|o os IH]; intros v l xs l' H HR; inversion HR; subst.
  - exists v. auto.
  - destruct (bstep N dbg v l o x l1 H) as (v1 & E1 & R1); auto.
    destruct (IH v1 l1 xs0 l' R1) as (v2 & E2 & R2); auto.
    exists v2. cbn [vec_run]. rewrite E1; cbn [bind]. rewrite E2; cbn [bind]. auto.
Qed.

Lemma bshows N v l : brep N v l -> vec_shows N v l.
Proof.
  intros H. pose proof (bsize _ _ _ H) as Sz. pose proof (bcap _ _ _ H) as Cp. unrep H.
  unfold vec_shows. repeat apply conj; auto.
  - unfold b_contents. rewrite Sz, F, Nat2Z.id, St. exact (b_read_mid l [] rest 0 eq_refl).
  - unfold b_rcontents. rewrite Sz, I, Nat2Z.id, St.
    pose proof (b_rread_mid (rev l) rest) as E. rewrite rev_involutive, rev_length in E. exact E.
  - unfold b_available. rewrite Sz, Cp, sz_id; lia.
  - unfold b_is_empty. rewrite I, F. destruct (Nat.eqb_spec (length l) 0); [apply Z.eqb_eq | apply Z.eqb_neq]; lia.
  - unfold b_is_full. fold (b_size v). rewrite Sz, Cp.
    destruct (Nat.eqb_spec (length l) N); [apply Z.eqb_eq | apply Z.eqb_neq]; lia.
  - intros x t ->. unfold b_front. rewrite F, St. exact (get_mid [] x (t ++ rest) 0 eq_refl).
  - intros x t ->. rewrite app_length in I, L; cbn [length] in I, L.
    unfold b_back. rewrite I, sz_id, St, <- app_assoc by lia.
    apply get_mid. lia.
  - intros i x Hi. pose proof (nth_error_some_lt _ _ _ Hi).
    unfold b_at_op, b_at. rewrite Sz, F, Z.add_0_l, Z.add_0_r, sz_id by lia.
    replace (Z.of_nat i <? _) with true by (symmetry; lia). rewrite St.
    assert (G : get (l ++ rest) (Z.of_nat i) = Ok x) by (apply get_nth; now rewrite nth_error_app1).
    auto.
  - intros i Hi. unfold b_at. rewrite Sz. now replace (i <? _) with false by (symmetry; lia).
Qed.

Lemma bhistory N dbg os xs l :
  Z.of_nat N < 2 ^ 63 ->
  list_run dflt N (vec_supported dbg N) [] os xs l ->
  exists v, vec_run dflt dbg (b_empty dflt N) os = Ok (xs, v) /\ brep N v l.
Proof. intros HB HR. exact (brun N dbg os _ _ _ _ (bempty N HB) HR). Qed.

Lemma vec_history N dbg os xs l :
  Z.of_nat N < 2 ^ 63 ->
  list_run dflt N (vec_supported dbg N) [] os xs l ->
  exists v, vec_run dflt dbg (b_empty dflt N) os = Ok (xs, v) /\ vec_shows N v l.
Proof.
  intros HB HR. destruct (bhistory N dbg os xs l HB HR) as (v & E & R).
  exists v. split; [assumption | now apply bshows].
Qed.

(** The constructors. *)
Lemma bfrom_ptr N (mem : list A) count :
  Z.of_nat N < 2 ^ 63 -> 0 <= count -> Z.min count (Z.of_nat N) <= Z.of_nat (length mem) ->
  exists v, b_from_ptr dflt N mem count = Ok v /\
            brep N v (firstn (Z.to_nat (Z.min count (Z.of_nat N))) mem).
Proof.
  intros HB HC HM. unfold b_from_ptr. set (c := Z.min count (Z.of_nat N)) in *.
  replace (Z.of_nat (length mem) <? c) with false by (symmetry; lia).
  set (xs := firstn (Z.to_nat c) mem).
  assert (Lx : length xs = Z.to_nat c) by (unfold xs; rewrite firstn_length; lia).
  replace (repeat dflt N) with ([] ++ repeat dflt (length xs) ++ repeat dflt (N - length xs)).
  2:{ cbn [app]. rewrite <- repeat_app. f_equal. lia. }
  rewrite (b_store_mid xs [] _ _ 0 eq_refl) by now rewrite repeat_length. cbn [bind app].
  eexists; split; [reflexivity|]. repeat split; cbn [bfirst bindex bstack]; auto.
  - lia.
  - exists (repeat dflt (N - length xs)). rewrite repeat_length. split; [reflexivity | lia].
Qed.

Lemma bfrom_range N (xs : list A) :
  Z.of_nat N < 2 ^ 63 -> (length xs <= N)%nat ->
  exists v, b_from_range dflt N xs = Ok v /\ brep N v xs.
Proof.
  intros HB HL. unfold b_from_range.
  replace (repeat dflt N) with ([] ++ repeat dflt (length xs) ++ repeat dflt (N - length xs)).
  2:{ cbn [app]. rewrite <- repeat_app. f_equal. lia. }
  rewrite (b_store_mid xs [] _ _ 0 eq_refl) by now rewrite repeat_length. cbn [bind app].
  eexists; split; [reflexivity|]. repeat split; cbn [bfirst bindex bstack]; auto.
  exists (repeat dflt (N - length xs)). rewrite repeat_length. split; [reflexivity | lia].
Qed.

Lemma b_store_over (xs : list A) : forall st n,
  0 <= n -> n + Z.of_nat (length xs) > Z.of_nat (length st) -> n <= Z.of_nat (length st) ->
  b_store st n xs = UB.
Proof.
  induction xs as [|x xs IH]; intros st n H0 H1 H2; cbn [length] in *; [lia|].
  cbn [b_store]. destruct (Z.eq_dec n (Z.of_nat (length st))) as [E | E].
  - rewrite put_out by lia. reflexivity.
  - replace n with (Z.of_nat (Z.to_nat n)) by lia. rewrite put_ok by lia. cbn [bind].
    apply IH; rewrite ?upd_length; lia.
Qed.

Lemma bfrom_range_over N xs : (N < length xs)%nat -> b_from_range dflt N xs = UB.
Proof.
  intros H. unfold b_from_range. rewrite b_store_over; auto; rewrite ?repeat_length; lia.
Qed.

Lemma bpush_over N v l x : brep N v l -> length l = N -> b_push_back v x = UB.
Proof.
  intros H HL. unfold b_push_back. rewrite (broom _ _ _ _ H). cbn [bind]. unrep H.
  rewrite put_out; [reflexivity|]. rewrite St, app_length, I. lia.
Qed.

Lemma bpop_front_throw N v x l : brep N v (x :: l) -> b_pop_front v = Throw.
Proof.
  intros H. pose proof (bshows _ _ _ H) as SH.
  destruct SH as (_ & _ & _ & _ & _ & _ & _ & FR & _).
  unfold b_pop_front. rewrite (FR x l eq_refl). cbn [bind]. unrep H. cbn [length] in *.
  unfold b_pop_front_n. rewrite I, sz_id by lia.
  now replace (Z.of_nat (S (length l)) <=? _) with false by (symmetry; lia).
Qed.

Lemma bpop_front_n N v l count :
  brep N v l -> 0 <= count < 2 ^ 63 ->
  b_pop_front_n v count =
    if count =? 0 then Ok v
    else if count <=? Z.of_nat (length l) then Throw
    else Ok {| bindex := Z.of_nat (length l) + count; bfirst := 0; bstack := bstack v |}.
Proof.
  intros H HC. unrep H. unfold b_pop_front_n. rewrite I, F.
  destruct (Z.eqb_spec count 0) as [E | E].
  - subst count. rewrite Z.sub_0_r, Z.add_0_r, sz_id, Z.leb_refl by lia.
    destruct v; cbn in *; subst; reflexivity.
  - destruct (Z.leb_spec count (Z.of_nat (length l))) as [E2 | E2].
    + rewrite (sz_id (_ - _)) by lia. now replace (Z.of_nat (length l) <=? _) with false by (symmetry; lia).
    + replace (sz (Z.of_nat (length l) - count)) with (Z.of_nat (length l) - count + 2 ^ 64).
      2:{ unfold sz. apply Z.mod_unique_pos with (q := -1); lia. }
      replace (Z.of_nat (length l) <=? _) with true by (symmetry; lia).
      rewrite sz_id by lia. reflexivity.
Qed.

Lemma bhas_room N v l count :
  brep N v l -> 0 <= count < 2 ^ 63 ->
  b_has_room v count = (N <=? Z.to_nat count + length l)%nat.
Proof.
  intros H HC. unfold b_has_room. rewrite (bcap _ _ _ H), (bsize _ _ _ H). unrep H.
  rewrite sz_id by lia.
  destruct (Nat.leb_spec N (Z.to_nat count + length l)); [apply Z.leb_le | apply Z.leb_gt]; lia.
Qed.

Lemma bpush_new N v l :
  brep N v l -> (length l < N)%nat ->
  exists x v', b_push_new v = Ok (Z.of_nat (length l), v') /\ brep N v' (l ++ [x]).
Proof.
  intros H HL. unfold b_push_new. rewrite (broom _ _ _ _ H). cbn [bind]. unrep H.
  destruct rest as [|x rest]; [cbn in L; lia|]. cbn [length] in L.
  exists x. eexists. rewrite I. split; [reflexivity|].
  repeat split; cbn [bfirst bindex bstack]; auto.
  - rewrite sz_id, app_length; cbn [length]; lia.
  - exists rest. rewrite <- app_assoc, app_length. cbn. split; [assumption | lia].
Qed.

(** swap *)
Lemma b_swap_loop_ok (ys : list A) : forall pl pr xs lpost rpost il ir n,
  Z.of_nat (length pl + length xs + length lpost) < 2 ^ 63 ->
  Z.of_nat (length pr + length ys + length rpost) < 2 ^ 63 ->
  n = Z.of_nat (length pl) -> length pr = length pl -> length xs = length ys ->
  b_swap_loop {| bindex := il; bfirst := 0; bstack := pl ++ xs ++ lpost |}
              {| bindex := ir; bfirst := 0; bstack := pr ++ ys ++ rpost |} n (length ys) =
  Ok ({| bindex := il; bfirst := 0; bstack := pl ++ ys ++ lpost |},
      {| bindex := ir; bfirst := 0; bstack := pr ++ xs ++ rpost |}).
Proof.
  induction ys as [|y ys IH]; intros pl pr xs lpost rpost il ir n B1 B2 En Ep Ex;
    destruct xs as [|x xs]; try discriminate Ex.
  - reflexivity.
  - cbn [length] in *. cbn [b_swap_loop]. unfold b_at_op; cbn [bstack bfirst bindex].
    rewrite Z.add_0_l, sz_id by lia. cbn [app].
    rewrite (get_mid pl x (xs ++ lpost) n) by lia. cbn [bind].
    rewrite (get_mid pr y (ys ++ rpost) n) by lia. cbn [bind].
    rewrite (put_mid pl x y (xs ++ lpost) n) by lia. cbn [bind].
    rewrite (put_mid pr y x (ys ++ rpost) n) by lia. cbn [bind].
    specialize (IH (pl ++ [y]) (pr ++ [x]) xs lpost rpost il ir (n + 1)).
    rewrite !app_length in IH; cbn [length] in IH. rewrite <- !app_assoc in IH. cbn [app] in IH.
    apply IH; lia.
Qed.

Lemma b_swap_ok N v w lv lw :
  brep N v lv -> brep N w lw -> (length lv <= length lw)%nat ->
  exists v' w', b_swap v w = Ok (v', w') /\ brep N v' lw /\ brep N w' lv.
Proof.
  intros H1 H2 HL. pose proof (bsize _ _ _ H2) as Sz.
  destruct H1 as (F1 & I1 & B1 & r1 & S1 & L1). destruct H2 as (F2 & I2 & B2 & r2 & S2 & L2).
  unfold b_swap. rewrite F1, F2, I1, I2, S1, S2.
  replace (Z.to_nat (b_size _)) with (length lw).
  2:{ unfold b_size; cbn [bindex bfirst]. rewrite Z.sub_0_r, sz_id; lia. }
  set (k := (length lw - length lv)%nat).
  replace (lv ++ r1) with ([] ++ (lv ++ firstn k r1) ++ skipn k r1)
    by (cbn [app]; now rewrite <- app_assoc, firstn_skipn).
  rewrite (b_swap_loop_ok lw [] [] (lv ++ firstn k r1) (skipn k r1) r2).
  2-6: rewrite ?app_length, ?firstn_length, ?skipn_length; cbn [length]; lia.
  eexists; eexists; split; [reflexivity|]. split.
  - repeat split; cbn [bfirst bindex bstack app]; auto. exists (skipn k r1). rewrite skipn_length.
    split; [reflexivity | lia].
  - repeat split; cbn [bfirst bindex bstack app]; auto. exists (firstn k r1 ++ r2).
    rewrite app_length, firstn_length. split; [now rewrite <- app_assoc | lia].
Qed.

(** When the left side is longer, its surplus elements stay behind and the right
    side shows its own old slots instead. *)
Lemma b_swap_long N v w lv lw :
  brep N v lv -> brep N w lw -> (length lw < length lv)%nat ->
  exists v' w' extra, b_swap v w = Ok (v', w') /\ brep N v' lw /\
    bstack w = lw ++ extra /\
    brep N w' (firstn (length lw) lv ++ firstn (length lv - length lw) extra).
Proof.
  intros H1 H2 HL. pose proof (bsize _ _ _ H2) as Sz.
  destruct H1 as (F1 & I1 & B1 & r1 & S1 & L1). destruct H2 as (F2 & I2 & B2 & r2 & S2 & L2).
  unfold b_swap. rewrite F1, F2, I1, I2, S1, S2.
  replace (Z.to_nat (b_size _)) with (length lw).
  2:{ unfold b_size; cbn [bindex bfirst]. rewrite Z.sub_0_r, sz_id; lia. }
  set (k := length lw) in *.
  replace (lv ++ r1) with ([] ++ firstn k lv ++ (skipn k lv ++ r1))
    by (cbn [app]; now rewrite app_assoc, firstn_skipn).
  rewrite (b_swap_loop_ok lw [] [] (firstn k lv) (skipn k lv ++ r1) r2).
  2-6: rewrite ?app_length, ?firstn_length, ?skipn_length; cbn [length]; lia.
  eexists; eexists; exists r2; split; [reflexivity|]. split; [|split; [reflexivity|]].
  - repeat split; cbn [bfirst bindex bstack app]; auto. exists (skipn k lv ++ r1).
    rewrite app_length, skipn_length. split; [reflexivity | lia].
  - repeat split; cbn [bfirst bindex bstack app]; auto.
    + rewrite app_length, !firstn_length. lia.
    + exists (skipn (length lv - k) r2). rewrite app_length, !firstn_length, skipn_length, <- app_assoc, firstn_skipn.
      split; [reflexivity | lia].
Qed.

(** ** Statements about histories *)

Lemma constructors N (mem : list A) count :
  Z.of_nat N < 2 ^ 63 -> 0 <= count ->
  Z.min count (Z.of_nat N) <= Z.of_nat (length mem) ->
  (exists v, b_from_ptr dflt N mem count = Ok v /\
             vec_shows N v (firstn (Z.to_nat (Z.min count (Z.of_nat N))) mem)) /\
  ((length mem <= N)%nat -> exists v, b_from_range dflt N mem = Ok v /\ vec_shows N v mem).
Proof.
  intros HB HC HM. split.
  - destruct (bfrom_ptr N mem count HB HC HM) as (v & E & R). exists v. split; [assumption | now apply bshows].
  - intros HL. destruct (bfrom_range N mem HB HL) as (v & E & R). exists v. split; [assumption | now apply bshows].
Qed.

Lemma push_new N dbg os xs l :
  Z.of_nat N < 2 ^ 63 ->
  list_run dflt N (vec_supported dbg N) [] os xs l -> (length l < N)%nat ->
  exists v x v', vec_run dflt dbg (b_empty dflt N) os = Ok (xs, v) /\
    b_push_new v = Ok (Z.of_nat (length l), v') /\ vec_shows N v' (l ++ [x]).
Proof.
  intros HB HR HL. destruct (bhistory N dbg os xs l HB HR) as (v & E & R).
  destruct (bpush_new N v l R HL) as (x & v' & E' & R'). exists v, x, v'.
  split; [assumption|]. split; [assumption | now apply bshows].
Qed.

Lemma resize_reports N dbg os xs l n :
  Z.of_nat N < 2 ^ 63 ->
  list_run dflt N (vec_supported dbg N) [] os xs l -> Z.of_nat N < n ->
  exists v, vec_run dflt dbg (b_empty dflt N) os = Ok (xs, v) /\ b_resize dflt v n = Throw.
Proof.
  intros HB HR HL. destruct (bhistory N dbg os xs l HB HR) as (v & E & R).
  exists v. split; [assumption|]. now apply (bresize_throw N v l).
Qed.

Lemma vec_run_app dbg os1 : forall v os2,
  vec_run dflt dbg v (os1 ++ os2) =
  (' (xs, v) <- vec_run dflt dbg v os1 ;; ' (ys, v) <- vec_run dflt dbg v os2 ;; Ok (xs ++ ys, v)).
Proof.
  induction os1 as [|o os1 IH]; intros v os2; cbn [app vec_run bind].
  - destruct (vec_run dflt dbg v os2) as [[ys w]| | |]; reflexivity.
  - destruct (vec_step dflt dbg v o) as [[x w]| | |]; cbn [bind]; try reflexivity.
    rewrite IH. destruct (vec_run dflt dbg w os1) as [[y u]| | |]; cbn [bind]; try reflexivity.
    destruct (vec_run dflt dbg u os2) as [[z t]| | |]; cbn [bind]; try reflexivity.
    now rewrite app_assoc.
Qed.

Lemma push_over N dbg os xs l x :
  Z.of_nat N < 2 ^ 63 ->
  list_run dflt N (vec_supported dbg N) [] os xs l -> length l = N ->
  vec_run dflt dbg (b_empty dflt N) (os ++ [VPush x]) = UB /\
  b_from_range dflt N (l ++ [x]) = UB.
Proof.
  intros HB HR HL. destruct (bhistory N dbg os xs l HB HR) as (v & E & R). split.
  - rewrite vec_run_app, E. cbn [bind vec_run vec_step]. now rewrite (bpush_over N v l x R HL).
  - apply bfrom_range_over. rewrite app_length. cbn. lia.
Qed.

Lemma pop_front_refuted N dbg os xs x l :
  Z.of_nat N < 2 ^ 63 ->
  list_run dflt N (vec_supported dbg N) [] os xs (x :: l) ->
  vec_run dflt dbg (b_empty dflt N) (os ++ [VPopFront]) = Throw.
Proof.
  intros HB HR. destruct (bhistory N dbg os xs (x :: l) HB HR) as (v & E & R).
  rewrite vec_run_app, E. cbn [bind vec_run vec_step]. now rewrite (bpop_front_throw N v x l R).
Qed.

Lemma pop_front_n_refuted N dbg os xs l count :
  Z.of_nat N < 2 ^ 63 -> 0 < count < 2 ^ 63 ->
  list_run dflt N (vec_supported dbg N) [] os xs l ->
  exists v, vec_run dflt dbg (b_empty dflt N) os = Ok (xs, v) /\
    (count <= Z.of_nat (length l) -> b_pop_front_n v count = Throw) /\
    (Z.of_nat (length l) < count ->
     exists v', b_pop_front_n v count = Ok v' /\ b_size v' = Z.of_nat (length l) + count).
Proof.
  intros HB HC HR. destruct (bhistory N dbg os xs l HB HR) as (v & E & R).
  exists v. split; [assumption|]. rewrite (bpop_front_n N v l count R) by lia.
  replace (count =? 0) with false by (symmetry; lia). split; intros HL.
  - now replace (count <=? _) with true by (symmetry; lia).
  - replace (count <=? _) with false by (symmetry; lia). eexists; split; [reflexivity|].
    unfold b_size; cbn [bindex bfirst]. rewrite Z.sub_0_r. apply sz_id.
    unrep R. lia.
Qed.

Lemma has_room_refuted N dbg os xs l count :
  Z.of_nat N < 2 ^ 63 -> 0 <= count < 2 ^ 63 ->
  list_run dflt N (vec_supported dbg N) [] os xs l ->
  exists v, vec_run dflt dbg (b_empty dflt N) os = Ok (xs, v) /\
    (b_has_room v count = true <-> Z.of_nat N - Z.of_nat (length l) <= count).
Proof.
  intros HB HC HR. destruct (bhistory N dbg os xs l HB HR) as (v & E & R).
  exists v. split; [assumption|]. rewrite (bhas_room N v l count R HC), Nat.leb_le. lia.
Qed.

Lemma erase_iterator N dbg os xs l p :
  Z.of_nat N < 2 ^ 63 ->
  list_run dflt N (vec_supported dbg N) [] os xs l -> (S p < length l)%nat ->
  exists v v', vec_run dflt dbg (b_empty dflt N) os = Ok (xs, v) /\
    b_erase dflt v (Z.of_nat p) = Ok (Z.of_nat p + 1, v').
Proof.
  intros HB HR HL. destruct (bhistory N dbg os xs l HB HR) as (v & E & R).
  destruct (berase N v l p R) as (v' & E' & _); [lia|].
  exists v, v'. split; [assumption|]. rewrite E'.
  now replace (S p =? length l)%nat with false by (symmetry; apply Nat.eqb_neq; lia).
Qed.

Lemma erase_range_refuted N dbg os xs l f e :
  Z.of_nat N < 2 ^ 63 ->
  list_run dflt N (vec_supported dbg N) [] os xs l -> (f < e <= length l)%nat ->
  exists v, vec_run dflt dbg (b_empty dflt N) os = Ok (xs, v) /\
    (forall it v', b_erase_range dflt dbg v (Z.of_nat f) (Z.of_nat e) = Ok (it, v') -> it <> Z.of_nat f) /\
    (e = N -> (e + (e - f) <> length l)%nat -> b_erase_range dflt false v (Z.of_nat f) (Z.of_nat e) = UB) /\
    (f = O -> e = length l -> b_erase_range dflt true v (Z.of_nat f) (Z.of_nat e) = Throw).
Proof.
  intros HB HR HL. destruct (bhistory N dbg os xs l HB HR) as (v & E & R).
  assert (RL : (length l <= N)%nat) by (destruct R as (_ & _ & _ & rest & _ & RL); lia).
  exists v. split; [assumption|]. split; [|split].
  - intros it v' HE.
    assert (D : (dbg = true /\ length l <= e - f)%nat \/ (dbg = true -> e - f < length l)%nat).
    { destruct dbg; [|right; discriminate].
      destruct (Nat.le_gt_cases (length l) (e - f)); [left; auto | right; auto]. }
    destruct D as [[-> D] | D].
    + replace f with O in HE by lia. replace e with (length l) in HE by lia.
      change (Z.of_nat 0) with 0 in HE. rewrite (berase_all N v l R) in HE. discriminate.
    + destruct (berase_range N v l f e dbg R) as (w & _ & E'); [lia | assumption |].
      rewrite E' in HE. destruct (e + (e - f) =? length l)%nat; [injection HE as <- <-; lia|].
      destruct (e =? N)%nat; [discriminate|]. injection HE as <- <-; lia.
  - intros H1 H2.
    destruct (berase_range N v l f e false R) as (w & _ & E'); [lia | discriminate |].
    rewrite E'. replace (e + (e - f) =? length l)%nat with false by (symmetry; now apply Nat.eqb_neq).
    subst e. now rewrite Nat.eqb_refl.
  - intros -> ->. exact (berase_all N v l R).
Qed.

Lemma swap_partial N dbg os os' xs xs' l l' :
  Z.of_nat N < 2 ^ 63 ->
  list_run dflt N (vec_supported dbg N) [] os xs l ->
  list_run dflt N (vec_supported dbg N) [] os' xs' l' ->
  (length l <= length l')%nat ->
  exists v w v' w',
    vec_run dflt dbg (b_empty dflt N) os = Ok (xs, v) /\
    vec_run dflt dbg (b_empty dflt N) os' = Ok (xs', w) /\
    b_swap v w = Ok (v', w') /\ vec_shows N v' l' /\ vec_shows N w' l.
Proof.
  intros HB H1 H2 HL. destruct (bhistory N dbg os xs l HB H1) as (v & E1 & R1).
  destruct (bhistory N dbg os' xs' l' HB H2) as (w & E2 & R2).
  destruct (b_swap_ok N v w l l' R1 R2 HL) as (v' & w' & E & Q1 & Q2).
  exists v, w, v', w'. apply bshows in Q1, Q2. auto.
Qed.

Lemma swap_long N dbg os os' xs xs' l l' :
  Z.of_nat N < 2 ^ 63 ->
  list_run dflt N (vec_supported dbg N) [] os xs l ->
  list_run dflt N (vec_supported dbg N) [] os' xs' l' ->
  (length l' < length l)%nat ->
  exists v w v' w' unused,
    vec_run dflt dbg (b_empty dflt N) os = Ok (xs, v) /\
    vec_run dflt dbg (b_empty dflt N) os' = Ok (xs', w) /\
    bstack w = l' ++ unused /\
    b_swap v w = Ok (v', w') /\ vec_shows N v' l' /\
    vec_shows N w' (firstn (length l') l ++ firstn (length l - length l') unused).
Proof.
  intros HB H1 H2 HL. destruct (bhistory N dbg os xs l HB H1) as (v & E1 & R1).
  destruct (bhistory N dbg os' xs' l' HB H2) as (w & E2 & R2).
  destruct (b_swap_long N v w l l' R1 R2 HL) as (v' & w' & un & E & Q1 & Q2 & Q3).
  exists v, w, v', w', un. apply bshows in Q1, Q3. auto 7.
Qed.

End Elem.
