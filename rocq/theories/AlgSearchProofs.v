From Verif Require Import Common CommonProofs SpecAlg AlgSearch.
From Coq Require Import ZifyNat.
Ltac Zify.zify_post_hook ::= Z.div_mod_to_equations.

(** * Halving *)
Section Halving.
  Context {A V : Type}.

  Lemma lower_bound_loop_ok (cmp : A -> V -> bool) value l :
    forall fuel first last, first <= last -> last <= length l -> last - first < fuel ->
    exists p, lower_bound_loop fuel cmp first last value l = Ok p /\ first <= p <= last.
  Proof.
    induction fuel as [|fuel IH]; intros first last H1 H2 H3; [lia|].
    cbn [lower_bound_loop]. destruct (Nat.eqb_spec first last) as [->|Hne].
    - exists last. split; auto.
    - destruct (rd_ok l (first + (last - first) / 2)) as (x & R & E); [lia|].
      rewrite R. cbn [bind]. destruct (cmp x value).
      + destruct (IH (S (first + (last - first) / 2)) last) as (p & Ep & Hp); try lia.
        exists p. split; auto. lia.
      + destruct (IH first (first + (last - first) / 2)) as (p & Ep & Hp); try lia.
        exists p. split; auto. lia.
  Qed.

  Lemma lower_bound_loop_spec (cmp : A -> V -> bool) value l :
    partitioned (fun x => cmp x value) l ->
    forall fuel first last, first <= last -> last <= length l -> last - first < fuel ->
    (forall k x, k < first -> nth_error l k = Some x -> cmp x value = true) ->
    (forall k x, last <= k -> nth_error l k = Some x -> cmp x value = false) ->
    exists p, lower_bound_loop fuel cmp first last value l = Ok p /\ p <= length l /\
      (forall k x, k < p -> nth_error l k = Some x -> cmp x value = true) /\
      (forall k x, p <= k -> nth_error l k = Some x -> cmp x value = false).
  Proof.
    intros HP. induction fuel as [|fuel IH]; intros first last H1 H2 H3 Hlo Hhi; [lia|].
    cbn [lower_bound_loop]. destruct (Nat.eqb_spec first last) as [->|Hne].
    - exists last. auto.
    - set (mid := first + (last - first) / 2).
      assert (Hm : first <= mid < last) by (unfold mid; lia). clearbody mid.
      destruct (rd_ok l mid) as (x & R & E); [lia|].
      rewrite R. cbn [bind]. destruct (cmp x value) eqn:C.
      + apply IH; auto; try lia. intros k y Hk Hy.
        destruct (Nat.eq_dec k mid) as [->|Hkm]; [congruence|].
        apply (HP k mid y x); auto. lia.
      + apply IH; auto; try lia. intros k y Hk Hy.
        destruct (Nat.eq_dec k mid) as [->|Hkm]; [congruence|].
        destruct (cmp y value) eqn:C2; auto.
        rewrite (HP mid k x y) in C; auto; lia.
  Qed.

  Lemma lower_bound_spec (cmp : A -> V -> bool) value l :
    partitioned (fun x => cmp x value) l ->
    exists p, lower_bound cmp value l = Ok p /\ is_first (fun x => negb (cmp x value)) l p.
  Proof.
    intros HP.
    destruct (lower_bound_loop_spec cmp value l HP (S (length l)) 0 (length l))
      as (p & E & H1 & H2 & H3); try lia.
    { intros k x Hk Hx. apply nth_error_some_lt in Hx. lia. }
    exists p. split; auto. split; auto. split.
    - intros k x Hk Hx. rewrite (H2 k x); auto.
    - intros x Hx. rewrite (H3 p x); auto.
  Qed.

  Lemma lower_bound_safe (cmp : A -> V -> bool) value l :
    exists p, lower_bound cmp value l = Ok p /\ p <= length l.
  Proof.
    destruct (lower_bound_loop_ok cmp value l (S (length l)) 0 (length l)) as (p & E & H); try lia.
    exists p. split; auto. lia.
  Qed.

  Lemma upper_bound_loop_spec (comp : V -> A -> bool) value l :
    partitioned (fun x => negb (comp value x)) l ->
    forall fuel first count, first + count <= length l -> count < fuel ->
    (forall k x, k < first -> nth_error l k = Some x -> comp value x = false) ->
    (forall k x, first + count <= k -> nth_error l k = Some x -> comp value x = true) ->
    exists p, upper_bound_loop fuel comp first count value l = Ok p /\ p <= length l /\
      (forall k x, k < p -> nth_error l k = Some x -> comp value x = false) /\
      (forall k x, p <= k -> nth_error l k = Some x -> comp value x = true).
  Proof.
    intros HP. induction fuel as [|fuel IH]; intros first count H1 H2 Hlo Hhi; [lia|].
    cbn [upper_bound_loop]. destruct (Nat.ltb_spec 0 count).
    - cbv zeta. set (step := count / 2).
      assert (Hm : step < count) by (unfold step; lia). clearbody step.
      destruct (rd_ok l (first + step)) as (x & R & E); [lia|].
      rewrite R. cbn [bind]. destruct (comp value x) eqn:C; cbn [negb].
      + apply IH; auto; try lia. intros k y Hk Hy.
        destruct (Nat.eq_dec k (first + step)) as [->|Hkm]; [congruence|].
        destruct (comp value y) eqn:C2; auto.
        assert (X := HP (first + step) k x y). cbn beta in X.
        rewrite C, C2 in X. discriminate X; auto. lia.
      + apply IH; auto; try lia.
        * intros k y Hk Hy.
          destruct (Nat.eq_dec k (first + step)) as [->|Hkm]; [congruence|].
          assert (X := HP k (first + step) y x). cbn beta in X.
          rewrite C in X. destruct (comp value y); auto.
          discriminate X; auto. lia.
        * intros k y Hk Hy. apply (Hhi k y); auto. lia.
    - exists first. split; auto. split; [lia|]. split; auto.
      intros k x Hk Hx. apply (Hhi k x); auto. lia.
  Qed.

  Lemma upper_bound_spec (comp : V -> A -> bool) value l :
    partitioned (fun x => negb (comp value x)) l ->
    exists p, upper_bound comp value l = Ok p /\ is_first (comp value) l p.
  Proof.
    intros HP.
    destruct (upper_bound_loop_spec comp value l HP (S (length l)) 0 (length l))
      as (p & E & H1 & H2 & H3); try lia.
    { intros k x Hk Hx. apply nth_error_some_lt in Hx. lia. }
    exists p. split; auto. split; auto. split; [exact H2|].
    intros x Hx. apply (H3 p x); auto.
  Qed.

  Lemma binary_search_loop_spec (less1 : A -> V -> bool) (less2 : V -> A -> bool) value l last :
    partitioned (fun x => less1 x value) l ->
    partitioned (fun x => negb (less2 value x)) l ->
    forall fuel first it_last, it_last <= length l -> it_last - first < fuel ->
    (forall k x, k < first -> nth_error l k = Some x -> less1 x value = true) ->
    (forall k x, it_last <= k -> nth_error l k = Some x -> less2 value x = true) ->
    exists p, binary_search_loop fuel less1 less2 first it_last last value l = Ok p /\
      ((exists x, nth_error l p = Some x /\ less1 x value = false /\ less2 value x = false) \/
       (p = last /\ forall x, In x l -> less1 x value = true \/ less2 value x = true)).
  Proof.
    intros HP1 HP2. induction fuel as [|fuel IH]; intros first it_last H1 H2 Hlo Hhi; [lia|].
    cbn [binary_search_loop]. destruct (Nat.ltb_spec first it_last) as [Hlt|Hge].
    - destruct (Nat.leb_spec first it_last); [|lia]. cbn [negb]. cbv zeta.
      set (mid := first + (it_last - first) / 2).
      assert (Hm : first <= mid < it_last) by (unfold mid; lia). clearbody mid.
      destruct (rd_ok l mid) as (x & R & E); [lia|].
      rewrite R. cbn [bind]. destruct (less1 x value) eqn:C1; [|destruct (less2 value x) eqn:C2].
      + apply IH; auto; try lia. intros k y Hk Hy.
        destruct (Nat.eq_dec k mid) as [->|Hkm]; [congruence|].
        apply (HP1 k mid y x); auto. lia.
      + apply IH; auto; try lia. intros k y Hk Hy.
        destruct (Nat.eq_dec k mid) as [->|Hkm]; [congruence|].
        assert (X := HP2 mid k x y). cbn beta in X. rewrite C2 in X.
        destruct (less2 value y); auto. discriminate X; auto. lia.
      + exists mid. split; auto. left. exists x. auto.
    - exists last. split; auto. right. split; auto. intros x Hx.
      apply In_nth_error in Hx as [k Hk].
      destruct (le_lt_dec it_last k); [right; eapply Hhi; eauto|left].
      apply (Hlo k); auto. lia.
  Qed.

  Lemma binary_search_spec (less1 : A -> V -> bool) (less2 : V -> A -> bool) value l :
    l <> [] ->
    partitioned (fun x => less1 x value) l ->
    partitioned (fun x => negb (less2 value x)) l ->
    exists p, binary_search less1 less2 value l = Ok p /\
      ((exists x, nth_error l p = Some x /\ less1 x value = false /\ less2 value x = false) \/
       (p = length l /\ forall x, In x l -> less1 x value = true \/ less2 value x = true)).
  Proof.
    intros Hne HP1 HP2. unfold binary_search.
    destruct (Nat.ltb_spec 0 (length l)).
    - apply binary_search_loop_spec; auto; try lia.
      intros k x Hk Hx. apply nth_error_some_lt in Hx. lia.
    - destruct l; [congruence|cbn in *; lia].
  Qed.
End Halving.

(** A range sorted by a strict weak ordering is partitioned the two ways. *)
Lemma sorted_partitioned_lt {A} (comp : A -> A -> bool) : strict_weak comp ->
  forall l v, sorted_by comp l -> partitioned (fun x => comp x v) l.
Proof.
  intros SW l v Hs i j x y Hij Hx Hy C.
  assert (C2 : comp y x = false).
  { rewrite sorted_by_nth in Hs. apply (Hs i j x y); auto. }
  eapply (swo_le_lt comp SW); eauto.
Qed.

Lemma sorted_partitioned_le {A} (comp : A -> A -> bool) : strict_weak comp ->
  forall l v, sorted_by comp l -> partitioned (fun x => negb (comp v x)) l.
Proof.
  intros SW l v Hs i j x y Hij Hx Hy C.
  assert (C2 : comp y x = false).
  { rewrite sorted_by_nth in Hs. apply (Hs i j x y); auto. }
  apply negb_true_iff in C. apply negb_true_iff.
  eapply (swo_neg_trans comp SW); eauto.
Qed.

Lemma upper_bound_sorted {A} (comp : A -> A -> bool) : strict_weak comp ->
  forall l v, sorted_by comp l ->
  exists p, upper_bound comp v l = Ok p /\ is_first (comp v) l p.
Proof. intros SW l v Hs. apply upper_bound_spec. apply sorted_partitioned_le; auto. Qed.

Lemma lower_bound_sorted {A} (comp : A -> A -> bool) : strict_weak comp ->
  forall l v, sorted_by comp l ->
  exists p, lower_bound comp v l = Ok p /\ is_first (fun x => negb (comp x v)) l p.
Proof. intros SW l v Hs. apply lower_bound_spec. apply sorted_partitioned_lt; auto. Qed.

Lemma binary_search_sorted {A} (comp : A -> A -> bool) : strict_weak comp ->
  forall l v, sorted_by comp l -> l <> [] ->
  exists p, binary_search comp comp v l = Ok p /\
    ((exists x, nth_error l p = Some x /\ equivalent comp x v) \/
     (p = length l /\ forall x, In x l -> ~ equivalent comp x v)).
Proof.
  intros SW l v Hs Hne.
  destruct (binary_search_spec comp comp v l Hne) as (p & E & H).
  - apply sorted_partitioned_lt; auto.
  - apply sorted_partitioned_le; auto.
  - exists p. split; auto. destruct H as [(x & H1 & H2 & H3)|(H1 & H2)].
    + left. exists x. unfold equivalent. auto.
    + right. split; auto. intros x Hx [E1 E2]. destruct (H2 x Hx); congruence.
Qed.

(** * Clamped motion *)
Open Scope Z_scope.

Lemma to_ptrdiff_id z : - 2 ^ 63 <= z < 2 ^ 63 -> to_ptrdiff z = z.
Proof.
  intros H. unfold to_ptrdiff.
  destruct (Z_lt_le_dec z 0).
  - replace (z mod 2 ^ 64) with (z + 2 ^ 64).
    + destruct (Z.ltb_spec (z + 2 ^ 64) (2 ^ 63)); lia.
    + symmetry. replace z with (z + 2 ^ 64 + (-1) * 2 ^ 64) at 1 by lia.
      rewrite Z.mod_add by lia. apply Z.mod_small. lia.
  - rewrite Z.mod_small by lia. destruct (Z.ltb_spec z (2 ^ 63)); lia.
Qed.

Lemma to_ptrdiff_range z : - 2 ^ 63 <= to_ptrdiff z < 2 ^ 63.
Proof.
  unfold to_ptrdiff. pose proof (Z.mod_pos_bound z (2 ^ 64) ltac:(lia)).
  destruct (Z.ltb_spec (z mod 2 ^ 64) (2 ^ 63)); lia.
Qed.

Lemma step_forward_spec : forall fuel it last dist,
  it <= last -> last - it < Z.of_nat fuel ->
  step_forward fuel it last dist =
    Ok (it + Z.min (last - it) (Z.max 0 dist), dist - Z.min (last - it) (Z.max 0 dist)).
Proof.
  induction fuel as [|fuel IH]; intros it last dist H1 H2; [lia|].
  cbn [step_forward]. destruct (Z.eqb_spec it last); cbn [negb andb].
  - do 2 f_equal; lia.
  - destruct (Z.ltb_spec 0 dist).
    + rewrite IH by lia. do 2 f_equal; lia.
    + do 2 f_equal; lia.
Qed.

Lemma step_back_spec : forall fuel first it dist,
  first <= it -> it - first < Z.of_nat fuel ->
  step_back fuel first it dist = Ok (it - Z.min (it - first) (Z.max 0 (- dist))).
Proof.
  induction fuel as [|fuel IH]; intros first it dist H1 H2; [lia|].
  cbn [step_back]. destruct (Z.eqb_spec it first); cbn [negb andb].
  - f_equal; lia.
  - destruct (Z.ltb_spec dist 0).
    + rewrite IH by lia. f_equal; lia.
    + f_equal; lia.
Qed.

Lemma safe_advance_impl_spec ra fuel first it last dist :
  first <= it <= last -> last - first < Z.of_nat fuel ->
  - 2 ^ 63 < dist < 2 ^ 63 ->
  safe_advance_impl ra fuel first it last dist = Ok (clampZ first last (it + dist)).
Proof.
  intros H1 H2 H3. destruct ra; cbn [safe_advance_impl].
  - unfold safe_advance_ra, clampZ. cbv zeta.
    destruct (Z.ltb_spec dist 0).
    + destruct (Z.ltb_spec (it - first) 0); [lia|].
      destruct (Z.eqb_spec dist (- 2 ^ 63)); [lia|]. f_equal. lia.
    + destruct (Z.ltb_spec (last - it) 0); [lia|]. f_equal. lia.
  - unfold safe_advance_steps. rewrite step_forward_spec by lia. cbn [bind].
    rewrite step_back_spec by lia. f_equal. unfold clampZ. lia.
Qed.

Lemma safe_advance_spec ra fuel n it d :
  0 <= it <= n -> n < Z.of_nat fuel -> - 2 ^ 63 < d < 2 ^ 63 ->
  safe_advance ra fuel n it d = Ok (clampZ 0 n (it + d)).
Proof.
  intros. unfold safe_advance. rewrite to_ptrdiff_id by lia.
  apply safe_advance_impl_spec; lia.
Qed.

Lemma safe_next_spec ra fuel it last n :
  0 <= it <= last -> last < Z.of_nat fuel -> 0 <= n < 2 ^ 63 ->
  safe_next ra fuel it last n = Ok (Z.min last (it + n)).
Proof.
  intros. unfold safe_next. rewrite to_ptrdiff_id by lia.
  rewrite safe_advance_impl_spec by lia. f_equal. unfold clampZ. lia.
Qed.

Lemma safe_prev_spec ra fuel it first n :
  0 <= first <= it -> it < Z.of_nat fuel -> 0 <= n < 2 ^ 63 ->
  safe_prev ra fuel it first n = Ok (Z.max first (it - n)).
Proof.
  intros. unfold safe_prev. rewrite to_ptrdiff_id by lia.
  destruct (Z.eqb_spec n (- 2 ^ 63)); [lia|].
  rewrite safe_advance_impl_spec by lia. f_equal. unfold clampZ. lia.
Qed.

Lemma begin_at_spec ra fuel n k :
  0 <= n < Z.of_nat fuel -> 0 <= k < 2 ^ 63 ->
  begin_at ra fuel n k = Ok (Z.min n k).
Proof.
  intros. unfold begin_at. rewrite to_ptrdiff_id by lia.
  rewrite safe_advance_spec by lia. f_equal. unfold clampZ. lia.
Qed.
Close Scope Z_scope.

(** * Linear scans *)
Section Scan.
  Context {A : Type}.

  Lemma is_first_cons_hit (P : A -> bool) x t : P x = true -> is_first P (x :: t) 0.
  Proof.
    intros H. split; [cbn; lia|]. split; [intros; lia|]. intros y Hy. cbn in Hy. congruence.
  Qed.

  Lemma is_first_cons_miss (P : A -> bool) x t p :
    P x = false -> is_first P t p -> is_first P (x :: t) (S p).
  Proof.
    intros H (H1 & H2 & H3). split; [cbn; lia|]. split.
    - intros [|k] y Hk Hy; cbn in Hy; [congruence|]. apply (H2 k); auto. lia.
    - intros y Hy. cbn in Hy. apply H3; auto.
  Qed.

  Lemma is_first_nil (P : A -> bool) : is_first P [] 0.
  Proof.
    split; auto. split; [intros; lia|]. intros x Hx. discriminate.
  Qed.

  Lemma is_first_unique (P : A -> bool) l p q : is_first P l p -> is_first P l q -> p = q.
  Proof.
    intros (P1 & P2 & P3) (Q1 & Q2 & Q3).
    destruct (lt_eq_lt_dec p q) as [[H|H]|H]; auto.
    - destruct (nth_error_ex l p) as (x & E); [lia|].
      specialize (P3 x E). rewrite (Q2 p x) in P3; auto. discriminate.
    - destruct (nth_error_ex l q) as (x & E); [lia|].
      specialize (Q3 x E). rewrite (P2 q x) in Q3; auto. discriminate.
  Qed.

  Lemma find_if_spec (P : A -> bool) l : is_first P l (find_if P l).
  Proof.
    induction l as [|x t IH]; cbn [find_if]; [apply is_first_nil|].
    destruct (P x) eqn:E; [apply is_first_cons_hit|apply is_first_cons_miss]; auto.
  Qed.

  Lemma find_spec {V} (eqb : A -> V -> bool) v l : is_first (fun x => eqb x v) l (find eqb v l).
  Proof.
    induction l as [|x t IH]; cbn [find]; [apply is_first_nil|].
    destruct (eqb x v) eqn:E; [apply is_first_cons_hit|apply is_first_cons_miss]; auto.
  Qed.

  Lemma find_if_not_spec (P : A -> bool) l : is_first (fun x => negb (P x)) l (find_if_not P l).
  Proof.
    induction l as [|x t IH]; cbn [find_if_not]; [apply is_first_nil|].
    destruct (negb (P x)) eqn:E; [apply is_first_cons_hit|apply is_first_cons_miss]; auto.
  Qed.

  Lemma find_first_of_set_spec {V} (eqb : A -> V -> bool) s l :
    is_first (fun x => existsb (eqb x) s) l (find_first_of_set eqb s l).
  Proof.
    induction l as [|x t IH]; cbn [find_first_of_set]; [apply is_first_nil|].
    match goal with |- context [if ?f s then _ else _] =>
      assert (E : f s = existsb (eqb x) s) end.
    { clear. induction s as [|y s IHs]; [reflexivity|]. cbn.
      destruct (eqb x y); auto. }
    rewrite E. clear E.
    destruct (existsb (eqb x) s) eqn:E; [apply is_first_cons_hit|apply is_first_cons_miss]; auto.
  Qed.

  Lemma find_index_if_loop_spec (P : A -> bool) l : forall idx,
    find_index_if_loop P idx l =
      (if find_if P l =? length l then None else Some (idx + find_if P l)).
  Proof.
    induction l as [|x t IH]; intros idx; cbn [find_index_if_loop find_if length]; auto.
    destruct (P x); cbn [Nat.eqb].
    - f_equal. lia.
    - rewrite IH. destruct (find_if P t =? length t); auto. f_equal. lia.
  Qed.

  Lemma find_index_if_spec (P : A -> bool) l :
    match find_index_if P l with
    | Some p => p < length l /\ is_first P l p
    | None => forall x, In x l -> P x = false
    end.
  Proof.
    unfold find_index_if. rewrite find_index_if_loop_spec.
    pose proof (find_if_spec P l) as H. cbn [plus].
    destruct (Nat.eqb_spec (find_if P l) (length l)) as [E|E].
    - rewrite E in H. intros x Hx. apply In_nth_error in Hx as [k Hk].
      destruct H as (_ & H & _). eapply H; eauto. eapply nth_error_some_lt; eauto.
    - split; auto. destruct H as (H & _). lia.
  Qed.

  Lemma find_index_of_spec {V} (neqb : A -> V -> bool) v l :
    is_first (fun x => negb (neqb x v)) l (find_index_of neqb v l).
  Proof.
    induction l as [|x t IH]; cbn [find_index_of]; [apply is_first_nil|].
    destruct (neqb x v) eqn:E; [apply is_first_cons_miss|apply is_first_cons_hit]; auto;
      rewrite E; auto.
  Qed.

  Lemma find_index_of_if_spec (P : A -> bool) l : is_first P l (find_index_of_if P l).
  Proof.
    induction l as [|x t IH]; cbn [find_index_of_if]; [apply is_first_nil|].
    destruct (P x) eqn:E; [apply is_first_cons_hit|apply is_first_cons_miss]; auto.
  Qed.

  Lemma contains_if_spec (P : A -> bool) l :
    contains_if P l = true <-> exists x, In x l /\ P x = true.
  Proof.
    induction l as [|x t IH]; cbn [contains_if].
    - split; [discriminate|]. intros (x & [] & _).
    - destruct (P x) eqn:E.
      + split; auto. intros _. exists x. split; auto. left; auto.
      + rewrite IH. split.
        * intros (y & H1 & H2). exists y. split; auto. right; auto.
        * intros (y & [->|H1] & H2); [congruence|]. exists y. auto.
  Qed.

  Lemma contains_spec {V} (cmp : A -> V -> bool) v l :
    contains cmp v l = true <-> exists x, In x l /\ cmp x v = true.
  Proof.
    rewrite <- (contains_if_spec (fun x => cmp x v) l).
    induction l as [|x t IH]; cbn [contains contains_if]; [tauto|].
    destruct (cmp x v); tauto.
  Qed.

  (** adjacent_find: position of the first adjacent pair in relation. *)
  Lemma adjacent_find_loop_spec (p : A -> A -> bool) : forall l x,
    let r := adjacent_find_loop p x l in
    r <= S (length l) /\
    (forall k a b, k < r -> nth_error (x :: l) k = Some a -> nth_error (x :: l) (S k) = Some b ->
       p a b = false) /\
    (r < S (length l) ->
       exists a b, nth_error (x :: l) r = Some a /\ nth_error (x :: l) (S r) = Some b /\
                   p a b = true).
  Proof.
    induction l as [|y t IH]; intros x; cbn [adjacent_find_loop length]; cbv zeta.
    - split; auto. split; [|lia]. intros [|k] a b Hk Ha Hb; cbn in Hb; [discriminate|].
      destruct k; discriminate.
    - destruct (p x y) eqn:E.
      + split; [lia|]. split; [intros; lia|]. intros _. exists x, y. auto.
      + destruct (IH y) as (H1 & H2 & H3). split; [lia|]. split.
        * intros [|k] a b Hk Ha Hb.
          -- cbn in Ha, Hb. congruence.
          -- apply (H2 k a b); auto. lia.
        * intros Hr. destruct H3 as (a & b & Ha & Hb & Hp); [lia|]. exists a, b. auto.
  Qed.

  Lemma adjacent_find_spec (p : A -> A -> bool) l :
    let r := adjacent_find p l in
    r <= length l /\
    (forall k a b, k < r -> nth_error l k = Some a -> nth_error l (S k) = Some b -> p a b = false) /\
    (r < length l -> exists a b, nth_error l r = Some a /\ nth_error l (S r) = Some b /\ p a b = true).
  Proof.
    destruct l as [|x t]; cbn [adjacent_find].
    - split; auto. split; [intros; lia|]. cbn. lia.
    - apply (adjacent_find_loop_spec p t x).
  Qed.

  (** find_last_of: last position of the leading run of matches. *)
  Lemma find_last_of_loop_spec (P : A -> bool) : forall l prev cur,
    find_last_of_loop P prev cur l =
      (if find_if_not P l =? 0 then prev else cur + find_if_not P l - 1).
  Proof.
    induction l as [|x t IH]; intros prev cur; cbn [find_last_of_loop find_if_not]; auto.
    destruct (negb (P x)); cbn [Nat.eqb]; auto.
    rewrite IH. destruct (Nat.eqb_spec (find_if_not P t) 0) as [E|E]; [rewrite E|]; lia.
  Qed.

  Lemma find_first_range_of_spec (P : A -> bool) l :
    let '(a, b) := find_first_range_of P l in
    is_first P l a /\ a <= b <= length l /\
    (forall k x, a <= k < b -> nth_error l k = Some x -> P x = true) /\
    (forall x, nth_error l b = Some x -> P x = false).
  Proof.
    unfold find_first_range_of. set (a := find_if P l).
    pose proof (find_if_spec P l) as Ha. fold a in Ha.
    unfold find_last_of. rewrite find_last_of_loop_spec.
    set (n := find_if_not P (skipn a l)).
    pose proof (find_if_not_spec P (skipn a l)) as Hn. fold n in Hn.
    clearbody n. split; auto.
    destruct Ha as (Ha1 & Ha2 & Ha3). destruct Hn as (Hn1 & Hn2 & Hn3).
    rewrite skipn_length in *.
    assert (Hhead : a < length l -> 0 < n).
    { intros Hlt. destruct n; [|lia]. destruct (nth_error_ex l a) as (x & Ex); auto.
      specialize (Hn3 x). rewrite nth_error_skipn, Nat.add_0_r in Hn3.
      rewrite (Ha3 x Ex) in Hn3. specialize (Hn3 Ex). discriminate. }
    assert (Hb : (if (if n =? 0 then length l - a else 0 + n - 1) =? length l - a
                  then if n =? 0 then length l - a else 0 + n - 1
                  else S (if n =? 0 then length l - a else 0 + n - 1)) = n).
    { destruct (Nat.eqb_spec n 0) as [->|Hn0].
      - rewrite Nat.eqb_refl. destruct (le_lt_dec (length l) a); [lia|].
        specialize (Hhead l0). lia.
      - destruct (Nat.eqb_spec (0 + n - 1) (length l - a)); lia. }
    rewrite Hb. clear Hb. split; [lia|]. split.
    - intros k x Hk Hx. specialize (Hn2 (k - a) x ltac:(lia)).
      rewrite nth_error_skipn in Hn2. replace (a + (k - a)) with k in Hn2 by lia.
      specialize (Hn2 Hx). apply negb_false_iff in Hn2. auto.
    - intros x Hx. specialize (Hn3 x). rewrite nth_error_skipn in Hn3.
      specialize (Hn3 Hx). apply negb_true_iff in Hn3. auto.
  Qed.
End Scan.

Section Scan2.
  Context {A : Type}.

  Lemma find_one_of_spec (preds : list (A -> bool)) l :
    let '(p, i) := find_one_of preds l in
    is_first (fun x => existsb (fun f => f x) preds) l p /\
    match i with
    | Some idx => exists x, nth_error l p = Some x /\ is_first (fun f => f x) preds idx /\
                            idx < length preds
    | None => p = length l
    end.
  Proof.
    induction l as [|x t IH]; cbn [find_one_of].
    - split; [apply is_first_nil|reflexivity].
    - pose proof (find_index_if_spec (fun f : A -> bool => f x) preds) as H.
      destruct (find_index_if (fun p => p x) preds) as [idx|] eqn:E.
      + destruct H as [H1 H2]. split.
        * apply is_first_cons_hit. apply existsb_exists.
          destruct (nth_error_ex preds idx H1) as (f & Ef). exists f. split.
          -- eapply nth_error_In; eauto.
          -- destruct H2 as (_ & _ & H2). apply (H2 f); auto.
        * exists x. cbn. auto.
      + destruct (find_one_of preds t) as [p i]. destruct IH as [IH1 IH2]. split.
        * apply is_first_cons_miss; auto.
          destruct (existsb (fun f : A -> bool => f x) preds) eqn:Ex; auto.
          apply existsb_exists in Ex as (f & Hf & Hfx). rewrite (H f Hf) in Hfx. discriminate.
        * destruct i as [idx|].
          -- destruct IH2 as (y & Hy & Hf). exists y. auto.
          -- cbn. congruence.
  Qed.

  Lemma is_first_end (P : A -> bool) l p : is_first P l p ->
    (p = length l <-> forall x, In x l -> P x = false).
  Proof.
    intros (H1 & H2 & H3). split.
    - intros -> x Hx. apply In_nth_error in Hx as [k Hk].
      eapply H2; eauto. eapply nth_error_some_lt; eauto.
    - intros H. destruct (Nat.eq_dec p (length l)); auto.
      destruct (nth_error_ex l p) as (x & E); [lia|].
      specialize (H3 x E). rewrite (H x) in H3; [discriminate|eapply nth_error_In; eauto].
  Qed.

  Lemma all_of_spec (P : A -> bool) l : all_of P l = true <-> forall x, In x l -> P x = true.
  Proof.
    unfold all_of. rewrite Nat.eqb_eq.
    rewrite (is_first_end _ _ _ (find_if_not_spec P l)).
    split; intros H x Hx; specialize (H x Hx); [apply negb_false_iff in H|rewrite H]; auto.
  Qed.

  Lemma none_of_spec (P : A -> bool) l :
    none_of P l = true <-> ~ exists x, In x l /\ P x = true.
  Proof.
    unfold none_of. rewrite Nat.eqb_eq.
    rewrite (is_first_end _ _ _ (find_if_spec P l)).
    split.
    - intros H (x & H1 & H2). rewrite (H x H1) in H2. discriminate.
    - intros H x Hx. destruct (P x) eqn:E; auto. exfalso. apply H. exists x. auto.
  Qed.

  Lemma any_of_spec (P : A -> bool) l :
    any_of P l = true <-> exists x, In x l /\ P x = true.
  Proof.
    unfold any_of. rewrite negb_true_iff, Nat.eqb_neq.
    rewrite (is_first_end _ _ _ (find_if_spec P l)).
    split.
    - intros H. destruct (existsb P l) eqn:E; [apply existsb_exists; auto|].
      exfalso. apply H. intros x Hx. destruct (P x) eqn:Px; auto.
      assert (existsb P l = true) by (apply existsb_exists; eauto). congruence.
    - intros (x & H1 & H2) H. rewrite (H x H1) in H2. discriminate.
  Qed.

  Lemma satisfies_one_spec (v : A) fs : forall f,
    satisfies_one v f fs = true <-> exists g, In g (f :: fs) /\ g v = true.
  Proof.
    induction fs as [|h fs IH]; intros f; cbn [satisfies_one].
    - split; [intros H; exists f; split; [left|]; auto|].
      intros (g & [->|[]] & H). auto.
    - rewrite orb_true_iff, IH. split.
      + intros [H|(g & H1 & H2)]; [exists f; split; [left|]; auto|exists g; split; [right|]; auto].
      + intros (g & [->|H1] & H2); auto. right. exists g. auto.
  Qed.

  Lemma satisfies_all_spec (v : A) fs : forall f,
    satisfies_all v f fs = true <-> forall g, In g (f :: fs) -> g v = true.
  Proof.
    induction fs as [|h fs IH]; intros f; cbn [satisfies_all].
    - split; [intros H g [->|[]]; auto|]. intros H. apply H. left; auto.
    - rewrite andb_true_iff, IH. split.
      + intros [H1 H2] g [->|Hg]; auto.
      + intros H. split; [apply H; left; auto|]. intros g Hg. apply H. right; auto.
  Qed.

  Lemma satisfies_one_range_spec (l : list A) f fs :
    satisfies_one_range l f fs = true <->
    exists x g, In x l /\ In g (f :: fs) /\ g x = true.
  Proof.
    induction l as [|x t IH]; cbn [satisfies_one_range].
    - split; [discriminate|]. intros (x & g & [] & _).
    - destruct (satisfies_one x f fs) eqn:E.
      + apply satisfies_one_spec in E as (g & H1 & H2).
        split; auto. intros _. exists x, g. split; [left|]; auto.
      + rewrite IH. split.
        * intros (y & g & H1 & H2). exists y, g. split; [right|]; auto.
        * intros (y & g & [->|H1] & H2 & H3).
          -- assert (satisfies_one y f fs = true) by (apply satisfies_one_spec; eauto). congruence.
          -- exists y, g. auto.
  Qed.

  Lemma satisfies_all_range_spec (l : list A) f fs :
    satisfies_all_range l f fs = true <->
    forall x g, In x l -> In g (f :: fs) -> g x = true.
  Proof.
    induction l as [|x t IH]; cbn [satisfies_all_range].
    - split; [intros _ x g []|reflexivity].
    - destruct (satisfies_all x f fs) eqn:E; cbn [negb].
      + rewrite satisfies_all_spec in E. rewrite IH. split.
        * intros H y g [->|Hy] Hg; auto.
        * intros H y g Hy Hg. apply H; auto. right; auto.
      + split; [discriminate|]. intros H. exfalso.
        assert (satisfies_all x f fs = true).
        { apply satisfies_all_spec. intros g Hg. apply H; auto. left; auto. }
        congruence.
  Qed.

  Lemma all_equal_head (comp : A -> A -> bool) x t :
    all_equal comp (x :: t) = true <-> forall y, In y t -> comp x y = true.
  Proof.
    cbn [all_equal]. induction t as [|y t IH].
    - split; [intros _ y []|reflexivity].
    - destruct (comp x y) eqn:E; cbn [negb].
      + rewrite IH. split.
        * intros H z [->|Hz]; auto.
        * intros H z Hz. apply H. right; auto.
      + split; [discriminate|]. intros H. rewrite (H y) in E; [discriminate|left; auto].
  Qed.

  Lemma all_equal_spec (comp : A -> A -> bool) l :
    (forall x, comp x x = true) -> (forall x y, comp x y = true -> comp y x = true) ->
    (forall x y z, comp x y = true -> comp y z = true -> comp x z = true) ->
    (all_equal comp l = true <-> forall x y, In x l -> In y l -> comp x y = true).
  Proof.
    intros R S T. destruct l as [|h t].
    - cbn. split; [intros _ x y []|reflexivity].
    - rewrite all_equal_head. split.
      + intros H x y [<-|Hx] [<-|Hy]; auto. apply (T x h y); auto.
      + intros H y Hy. apply H; [left|right]; auto.
  Qed.

  Lemma count_if_loop_spec (P : A -> bool) l : forall r,
    count_if_loop P r l = r + length (filter P l).
  Proof.
    induction l as [|x t IH]; intros r; cbn [count_if_loop filter].
    - cbn. lia.
    - rewrite IH. destruct (P x); cbn [length]; lia.
  Qed.

  Lemma count_if_spec (P : A -> bool) l : count_if P l = length (filter P l).
  Proof. apply count_if_loop_spec. Qed.

  Context {B : Type}.

  Lemma search_inner_spec (comp : A -> B -> bool) : forall s l,
    match search_inner comp l s with
    | Matched => occurs_at comp l s 0
    | AtEnd => length l < length s
    | Mismatch => l <> [] /\ ~ occurs_at comp l s 0
    end.
  Proof.
    induction s as [|y s IH]; intros l; destruct l as [|x l]; cbn [search_inner].
    - split; [cbn; lia|]. intros k a b Ha Hb. destruct k; discriminate.
    - split; [cbn; lia|]. intros k a b Ha Hb. destruct k; discriminate.
    - cbn. lia.
    - destruct (comp x y) eqn:C; cbn [negb].
      + specialize (IH l). destruct (search_inner comp l s).
        * destruct IH as [H1 H2]. split; [cbn in *; lia|].
          intros [|k] a b Ha Hb; cbn in Ha, Hb; [congruence|]. apply (H2 k); auto.
        * cbn. lia.
        * destruct IH as [H0 H]. split; [discriminate|].
          intros [H1 H2]. apply H. split; [cbn in *; lia|].
          intros k a b Ha Hb. apply (H2 (S k)); auto.
      + split; [discriminate|]. intros [H1 H2].
        rewrite (H2 0 x y) in C; auto. discriminate.
  Qed.

  Lemma occurs_at_cons (comp : A -> B -> bool) x l s p :
    occurs_at comp (x :: l) s (S p) <-> occurs_at comp l s p.
  Proof.
    unfold occurs_at. cbn [length plus nth_error]. split; intros [H1 H2]; split; auto; lia.
  Qed.

  Lemma search_spec (comp : A -> B -> bool) : forall l s,
    exists p, search comp l s = Ok p /\
      ((occurs_at comp l s p /\ forall q, q < p -> ~ occurs_at comp l s q) \/
       (p = length l /\ forall q, ~ occurs_at comp l s q)).
  Proof.
    induction l as [|x l IH]; intros s.
    - cbn [search]. pose proof (search_inner_spec comp s []) as H.
      destruct (search_inner comp [] s).
      + exists 0. split; auto. left. split; auto. intros q Hq. lia.
      + exists 0. split; auto. right. split; auto. intros q [H1 _]. lia.
      + destruct H as [H _]. congruence.
    - cbn [search]. pose proof (search_inner_spec comp s (x :: l)) as H.
      destruct (search_inner comp (x :: l) s).
      + exists 0. split; auto. left. split; auto. intros q Hq. lia.
      + exists (length (x :: l)). split; auto. right. split; auto. intros q [H1 _]. lia.
      + destruct H as [_ H]. destruct (IH s) as (p & E & Hp). rewrite E. cbn [bind].
        exists (S p). split; auto. destruct Hp as [[H1 H2]|[H1 H2]].
        * left. split; [apply occurs_at_cons; auto|]. intros [|q] Hq; auto.
          rewrite occurs_at_cons. apply H2. lia.
        * right. split; [cbn; congruence|]. intros [|q]; auto.
          rewrite occurs_at_cons. apply H2.
  Qed.
End Scan2.
