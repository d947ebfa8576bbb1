(** Proofs about perfect_hash_table.  Statements are in HashTablesProps.v. *)
From Verif Require Import Common CommonProofs Ints Math MathProofs BitsProofs SortIntro SortIntroProofs Pipelines Iterators IteratorsProofs
  HashTables SpecHashTables HashTablesProofs.
From Coq Require Import ZifyBool.
Open Scope nat_scope.
Local Arguments Z.mul : simpl never.
Local Arguments Z.add : simpl never.
Local Arguments Z.sub : simpl never.
Local Arguments Z.pow : simpl never.
Local Arguments Z.of_nat : simpl never.

(** * next_pow2 *)
Lemma np2_loop : forall fuel s ret,
  (0 < s)%Z -> (s < 2 ^ Z.of_nat fuel)%Z -> (0 < ret)%Z -> (ret * 2 ^ (Z.log2 s + 1) < 2 ^ 64)%Z ->
  next_pow2_loop fuel s ret = (ret * 2 ^ (Z.log2 s + 1))%Z.
Proof.
  induction fuel as [|fuel IH]; intros s ret Hs Hf Hr Hb; cbn [next_pow2_loop].
  - change (2 ^ Z.of_nat 0)%Z with 1%Z in Hf. lia.
  - rewrite (proj2 (Z.ltb_lt 0 s)) by exact Hs.
    pose proof (Z.log2_nonneg s) as L0.
    assert (P1 : (2 ^ (Z.log2 s + 1) = 2 * 2 ^ Z.log2 s)%Z) by (rewrite Z.pow_add_r by lia; lia).
    assert (P2 : (1 <= 2 ^ Z.log2 s)%Z) by (pose proof (Z.pow_pos_nonneg 2 (Z.log2 s)); lia).
    assert (E : sz (ret * 2) = (ret * 2)%Z) by (unfold sz, wrap; apply Z.mod_small; nia). rewrite E.
    destruct (Z.eq_dec s 1) as [->|N1].
    + change (1 / 2)%Z with 0%Z. change (Z.log2 1) with 0%Z. destruct fuel; cbn [next_pow2_loop]; reflexivity.
    + assert (L : Z.log2 s = (Z.log2 (s / 2) + 1)%Z).
      { rewrite <- Z.div2_div, Z.div2_spec, Z.log2_shiftr by lia.
        assert (1 <= Z.log2 s)%Z by (apply Z.log2_le_pow2; lia). lia. }
      assert (0 < s / 2)%Z by (apply Z.div_str_pos; lia).
      rewrite IH; [rewrite L; rewrite (Z.pow_add_r 2 (Z.log2 (s / 2) + 1) 1) by (pose proof (Z.log2_nonneg (s / 2)); lia); lia|lia| |lia|].
      * apply Z.div_lt_upper_bound; [lia|]. replace (Z.of_nat (S fuel)) with (Z.of_nat fuel + 1)%Z in Hf by lia.
        rewrite Z.pow_add_r in Hf by lia. lia.
      * rewrite <- L. rewrite P1 in Hb. lia.
Qed.
Lemma np2 n : (0 < n < 2 ^ 62)%Z -> next_pow2 n = (2 ^ (Z.log2 n + 1))%Z.
Proof.
  intros H. assert (L : (Z.log2 n < 62)%Z) by (apply Z.log2_lt_pow2; lia).
  unfold next_pow2. rewrite np2_loop; [lia|lia| |lia|].
  - change (Z.of_nat 64) with 64%Z. lia.
  - rewrite Z.mul_1_l. apply Z.pow_lt_mono_r; lia.
Qed.
Lemma np2_sizes n : (0 < n < 2 ^ 62)%Z -> (0 < bucket_count n)%Z /\ (n < next_pow2 n)%Z.
Proof.
  intros H. unfold bucket_count. rewrite np2 by exact H. pose proof (Z.log2_nonneg n). pose proof (Z.log2_spec n ltac:(lia)) as S'.
  replace (Z.succ (Z.log2 n)) with (Z.log2 n + 1)%Z in S' by lia. split; [|lia].
  rewrite Z.pow_add_r by lia. rewrite Z.div_mul by lia. lia.
Qed.

Section Perfect.
Context {K V : Type}.
Variable eqb : K -> K -> bool.
Hypothesis D : decides eqb.
Variable h : K -> Z.
Variable dk : K.
Variable dv : V.
Implicit Types (items : list (K * V)) (t : @table K V) (c : list bool) (b : @bucket K V).

(** * The buckets. *)
Lemma upd_map_seq {A} (g : nat -> A) NB i x :
  i < NB -> upd (map g (seq 0 NB)) i x = map (fun j => if j =? i then x else g j) (seq 0 NB).
Proof.
  intros H. apply list_ext. intros j. destruct (Nat.eq_dec j i) as [->|N].
  - rewrite nth_error_upd_eq by (rewrite map_length, seq_length; exact H).
    symmetry. rewrite nth_error_map. rewrite (nth_error_nth' (seq 0 NB) 0) by (rewrite seq_length; exact H).
    rewrite seq_nth by exact H. cbn. rewrite Nat.eqb_refl. reflexivity.
  - rewrite nth_error_upd_ne by exact N. rewrite !nth_error_map.
    destruct (nth_error (seq 0 NB) j) as [q|] eqn:E; [|reflexivity]. cbn. f_equal.
    assert (j < NB) by (apply nth_error_some_lt in E; rewrite seq_length in E; exact E).
    rewrite (nth_error_nth' (seq 0 NB) 0) in E by (rewrite seq_length; lia). rewrite seq_nth in E by lia.
    injection E as <-. cbn. rewrite (proj2 (Nat.eqb_neq j i)) by exact N. reflexivity.
Qed.
Lemma distribute_ok nb items : forall g,
  (0 < nb)%Z ->
  distribute h nb items (map (fun i => (i, g i)) (seq 0 (Z.to_nat nb))) =
  Ok (map (fun i => (i, g i ++ in_bucket h nb items i)) (seq 0 (Z.to_nat nb))).
Proof.
  induction items as [|[k v] items IH]; intros g H; cbn [distribute].
  - f_equal. apply map_ext. intros i. cbn. rewrite app_nil_r. reflexivity.
  - set (i := Z.to_nat (h k mod nb)).
    assert (Li : i < Z.to_nat nb) by (unfold i; pose proof (Z.mod_pos_bound (h k) nb H); lia).
    rewrite (rd_some _ i (i, g i)).
    2:{ rewrite nth_error_map, (nth_error_nth' (seq 0 (Z.to_nat nb)) 0) by (rewrite seq_length; exact Li).
        rewrite seq_nth by exact Li. reflexivity. }
    cbn [bind fst snd]. rewrite wr_ok by (rewrite map_length, seq_length; exact Li). cbn [bind].
    rewrite upd_map_seq by exact Li.
    assert (ME : map (fun j => if j =? i then (i, g i ++ [(k, v)]) else (j, g j)) (seq 0 (Z.to_nat nb)) =
      map (fun j => (j, (if j =? i then g j ++ [(k, v)] else g j))) (seq 0 (Z.to_nat nb))).
    { apply map_ext. intros j. destruct (Nat.eqb_spec j i) as [->|N]; reflexivity. }
    etransitivity; [exact (f_equal (distribute h nb items) ME)|].
    etransitivity; [apply (IH (fun j => if j =? i then g j ++ [(k, v)] else g j)); exact H|]. f_equal. apply map_ext. intros j. unfold in_bucket. cbn [filter fst]. fold i.
    rewrite (Nat.eqb_sym i j). destruct (Nat.eqb_spec j i) as [EJ|N]; [|reflexivity].
    rewrite <- app_assoc. reflexivity.
Qed.
Lemma larger_swo : strict_weak (@larger K V).
Proof. constructor; unfold larger; intros; lia. Qed.

(** * What placing a bucket does. *)
Variable ds : Z.
Hypothesis Hds : (0 < ds)%Z.
Definition slot (salt : Z) (k : K) : nat := Z.to_nat (hash_combine (conv u64 salt) (h k) mod ds).
Definition ctrue c : nat := length (filter (fun x => x) c).

Lemma ctrue_le c : ctrue c <= length c.
Proof. unfold ctrue. induction c as [|[] c IH]; cbn; lia. Qed.
Lemma ctrue_upd c p : nth_error c p = Some false -> ctrue (upd c p true) = S (ctrue c).
Proof.
  unfold ctrue. revert p. induction c as [|x c IH]; intros [|p] E; cbn in E; try discriminate.
  - injection E as ->. reflexivity.
  - cbn. destruct x; cbn; rewrite IH by exact E; reflexivity.
Qed.
Lemma slots_for_ok salt c items : forall this ps,
  slots_for h ds salt c items this = Ok (Some ps) -> NoDup this ->
  NoDup ps /\ ps = this ++ map (fun p => slot salt (fst p)) items /\
  forall p, In p items -> nth_error c (slot salt (fst p)) = Some false.
Proof.
  induction items as [|[k v] items IH]; intros this ps; cbn [slots_for].
  - intros E N. injection E as <-. split; [exact N|]. split; [rewrite app_nil_r; reflexivity|intros p []].
  - change (Z.to_nat (hash_combine (conv u64 salt) (h k) mod ds)) with (slot salt k).
    destruct (rd c (slot salt k)) as [x| | |] eqn:R; cbn [bind]; try discriminate.
    destruct x; cbn [orb]; [discriminate|].
    destruct (existsb (Nat.eqb (slot salt k)) this) eqn:X; [discriminate|].
    intros E N. apply IH in E.
    + destruct E as (A & B & C). split; [exact A|]. split; [rewrite B, <- app_assoc; reflexivity|].
      intros p [<-|I']; [apply rd_inv; exact R|apply C; exact I'].
    + apply (Permutation_NoDup (l := slot salt k :: this)); [apply Permutation_cons_append|]. constructor; [|exact N]. intros I'.
      assert (T : existsb (Nat.eqb (slot salt k)) this = true)
        by (apply existsb_exists; exists (slot salt k); split; [exact I'|apply Nat.eqb_refl]). congruence.
Qed.

(** The tables fit and hold nothing but the items. *)
Record wf (nb : nat) (all : list (K * V)) t c : Prop := {
  wf_salts : length (m_salts t) = nb;
  wf_keys : length (m_keys t) = length c;
  wf_values : length (m_values t) = length c;
  wf_claimed : length c = Z.to_nat ds;
  wf_content : forall p k, nth_error (m_keys t) p = Some k -> k = dk \/ In k (map fst all)
}.
Definition salts_ok t : Prop := forall i s, nth_error (m_salts t) i = Some s -> (0 <= s)%Z.
(** A bucket that is in the table. *)
Definition placed t c b : Prop :=
  exists salt, nth_error (m_salts t) (fst b) = Some salt /\ (0 <= salt)%Z /\
    NoDup (map (fun p => slot salt (fst p)) (snd b)) /\
    forall k v, In (k, v) (snd b) ->
      nth_error c (slot salt k) = Some true /\
      nth_error (m_keys t) (slot salt k) = Some k /\ nth_error (m_values t) (slot salt k) = Some v.

Lemma store_ok f : forall items t c t' c',
  store items (map (fun p => f (fst p)) items) t c = Ok (t', c') ->
  length (m_keys t) = length c -> length (m_values t) = length c ->
  NoDup (map (fun p : K * V => f (fst p)) items) ->
  (forall p, In p items -> nth_error c (f (fst p)) = Some false) ->
  m_salts t' = m_salts t /\ length (m_keys t') = length (m_keys t) /\ length (m_values t') = length (m_values t) /\
  length c' = length c /\ ctrue c' = ctrue c + length items /\
  (forall k v, In (k, v) items ->
     nth_error c' (f k) = Some true /\ nth_error (m_keys t') (f k) = Some k /\ nth_error (m_values t') (f k) = Some v) /\
  (forall p, ~ In p (map (fun p : K * V => f (fst p)) items) ->
     nth_error c' p = nth_error c p /\ nth_error (m_keys t') p = nth_error (m_keys t) p /\
     nth_error (m_values t') p = nth_error (m_values t) p) /\
  (forall p k, nth_error (m_keys t') p = Some k -> nth_error (m_keys t) p = Some k \/ In k (map fst items)).
Proof.
  induction items as [|[k v] items IH]; intros t c t' c'; cbn [store map fst].
  - intros E Lk Lv _ _. injection E as <- <-. repeat match goal with |- _ /\ _ => split end; auto; try lia; intros k v [].
  - intros E Lk Lv N F. pose proof (F (k, v) (or_introl eq_refl)) as F0. cbn [fst] in F0.
    assert (Lp : f k < length c) by (apply nth_error_some_lt in F0; exact F0).
    rewrite !wr_ok in E by lia. cbn [bind] in E. inversion N as [|? ? N1 N2]; subst.
    apply IH in E; cbn [m_salts m_keys m_values]; rewrite ?upd_length; auto.
    2:{ intros p I'. rewrite nth_error_upd_ne; [apply F; right; exact I'|]. intros X. apply N1. rewrite <- X.
        apply (in_map (fun p : K * V => f (fst p))). exact I'. }
    cbn [m_salts m_keys m_values] in E. rewrite !upd_length in E. destruct E as (A1 & A2 & A3 & A4 & A5 & A6 & A7 & A8).
    split; [exact A1|]. split; [exact A2|]. split; [exact A3|]. split; [exact A4|].
    split; [rewrite A5, ctrue_upd by exact F0; cbn [length]; lia|].
    split; [|split].
    + intros k' v' [X|X]; [|apply A6; exact X]. injection X as <- <-.
      destruct (A7 (f k) N1) as (B1 & B2 & B3). rewrite B1, B2, B3, !nth_error_upd_eq by lia. auto.
    + intros p NP. destruct (A7 p) as (B1 & B2 & B3); [intros X; apply NP; right; exact X|].
      rewrite B1, B2, B3, !nth_error_upd_ne by (intros X; apply NP; left; symmetry; exact X). auto.
    + intros p k' X. apply A8 in X. destruct X as [X|X]; [|right; right; exact X].
      destruct (Nat.eq_dec p (f k)) as [->|NP].
      * rewrite nth_error_upd_eq in X by lia. injection X as <-. right. left. reflexivity.
      * rewrite nth_error_upd_ne in X by exact NP. left. exact X.
Qed.

Lemma salt_loop_ok nb all b : forall fuel salt t c t' c',
  (0 <= salt)%Z -> wf nb all t c -> (forall p, In p (snd b) -> In p all) ->
  salt_loop h fuel ds salt b t c = Ok (t', c') ->
  exists s, (0 <= s)%Z /\ wf nb all t' c' /\ m_salts t' = upd (m_salts t) (fst b) s /\ placed t' c' b /\
    ctrue c' = ctrue c + length (snd b) /\
    (forall p, nth_error c p = Some true ->
      nth_error c' p = Some true /\ nth_error (m_keys t') p = nth_error (m_keys t) p /\
      nth_error (m_values t') p = nth_error (m_values t) p) /\
    forall p, ~ In p (map (fun q => slot s (fst q)) (snd b)) -> nth_error c' p = nth_error c p.
Proof.
  induction fuel as [|fuel IH]; intros salt t c t' c' H0 W IA; cbn [salt_loop]; [discriminate|].
  destruct (slots_for h ds salt c (snd b) []) as [[ps|]| | |] eqn:SF; cbn [bind]; try discriminate.
  - destruct (wr (m_salts t) (fst b) salt) as [salts| | |] eqn:WS; cbn [bind]; try discriminate.
    intros E. apply slots_for_ok in SF; [|constructor]. destruct SF as (N & PS & F). cbn [app] in PS. subst ps.
    unfold wr in WS. destruct (Nat.ltb_spec (fst b) (length (m_salts t))) as [Lb|]; [|discriminate]. injection WS as <-.
    destruct W as [W1 W2 W3 W4 W5].
    apply (store_ok (slot salt)) in E; cbn [m_salts m_keys m_values] in *; auto.
    destruct E as (A1 & A2 & A3 & A4 & A5 & A6 & A7 & A8).
    exists salt. split; [exact H0|]. split; [|split; [exact A1|split; [|split; [exact A5|split; [|intros p NP; apply (A7 p NP)]]]]].
    + constructor; [rewrite A1, upd_length; exact W1|lia|lia|lia|].
      intros p k X. apply A8 in X. destruct X as [X|X]; [exact (W5 _ _ X)|]. right.
      apply in_map_iff in X. destruct X as (q & <- & X). apply in_map. apply IA. exact X.
    + exists salt. rewrite A1, nth_error_upd_eq by exact Lb. auto.
    + intros p CP. assert (NP : ~ In p (map (fun p : K * V => slot salt (fst p)) (snd b))).
      { intros X. apply in_map_iff in X. destruct X as (q & <- & X). rewrite (F q X) in CP. discriminate. }
      destruct (A7 p NP) as (B1 & B2 & B3). rewrite B1. auto.
  - destruct (calc i64 (salt + 1)) as [s| | |] eqn:C; cbn [bind]; try discriminate.
    assert (s = salt + 1)%Z as -> by (unfold calc in C; cbn [signed i64] in C; destruct (_ : bool) in C; congruence).
    apply IH; [lia|exact W|exact IA].
Qed.
Lemma first_free_spec c : first_free c < length c -> nth_error c (first_free c) = Some false.
Proof. induction c as [|[] c IH]; cbn; [lia| |reflexivity]. intros H. apply IH. lia. Qed.
Lemma first_free_le c : first_free c <= length c.
Proof. induction c as [|[] c IH]; cbn; lia. Qed.
Definition cost b : nat := length (snd b) + if length (snd b) =? 1 then 1 else 0.
Lemma find_salt_ok nb all b fuel t c t' c' :
  wf nb all t c -> salts_ok t -> (forall p, In p (snd b) -> In p all) ->
  find_salt h fuel ds b t c = Ok (t', c') ->
  wf nb all t' c' /\ salts_ok t' /\ placed t' c' b /\ ctrue c' = ctrue c + cost b /\
  forall b', fst b' <> fst b -> placed t c b' -> placed t' c' b'.
Proof.
  intros W SO IA. unfold find_salt.
  assert (GEN : forall t0 c0, wf nb all t0 c0 -> (forall i, i <> fst b -> nth_error (m_salts t0) i = nth_error (m_salts t) i) ->
     length (m_salts t0) = length (m_salts t) ->
     (forall p, nth_error c p = Some true -> nth_error c0 p = Some true /\
        nth_error (m_keys t0) p = nth_error (m_keys t) p /\ nth_error (m_values t0) p = nth_error (m_values t) p) ->
     salt_loop h fuel ds 1 b t0 c0 = Ok (t', c') ->
     wf nb all t' c' /\ salts_ok t' /\ placed t' c' b /\ ctrue c' = ctrue c0 + length (snd b) /\
     forall b', fst b' <> fst b -> placed t c b' -> placed t' c' b').
  { intros t0 c0 W0 S0 L0 F0 E. apply (salt_loop_ok nb all) in E; auto; [|lia].
    destruct E as (s & Hs & W' & ES & PL & CT & FR & _). split; [exact W'|]. split; [|split; [exact PL|split; [exact CT|]]].
    - intros i x X. rewrite ES in X. destruct (Nat.eq_dec i (fst b)) as [EI|NI].
      + rewrite EI in X. rewrite nth_error_upd in X. rewrite Nat.eqb_refl in X. cbn [andb] in X.
        destruct (Nat.ltb_spec (fst b) (length (m_salts t0))) as [Lb|Lb]; [injection X as <-; exact Hs|].
        apply nth_error_some_lt in X. lia.
      + rewrite nth_error_upd_ne in X by exact NI. rewrite S0 in X by exact NI. exact (SO _ _ X).
    - intros b' NB (s' & P1 & P2 & P3 & P4). exists s'.
      rewrite ES, nth_error_upd_ne, S0 by exact NB. split; [exact P1|]. split; [exact P2|]. split; [exact P3|].
      intros k v I'. destruct (P4 k v I') as (Q1 & Q2 & Q3). destruct (F0 _ Q1) as (G1 & G2 & G3).
      destruct (FR _ G1) as (H1 & H2 & H3). rewrite H1, H2, H3, G2, G3. auto. }
  assert (PLAIN : length (snd b) <> 1 -> salt_loop h fuel ds 1 b t c = Ok (t', c') ->
     wf nb all t' c' /\ salts_ok t' /\ placed t' c' b /\ ctrue c' = ctrue c + cost b /\
     forall b', fst b' <> fst b -> placed t c b' -> placed t' c' b').
  { intros N E. unfold cost. rewrite (proj2 (Nat.eqb_neq _ _)) by exact N. rewrite Nat.add_0_r. apply GEN in E; auto. }
  destruct (snd b) as [|[k v] [|q qs]] eqn:SB.
  - apply PLAIN. rewrite ?SB. cbn. lia.
  - destruct (Nat.eqb_spec (first_free c) (length c)) as [|NF]; [discriminate|].
    pose proof (first_free_le c) as LE. assert (FF : nth_error c (first_free c) = Some false) by (apply first_free_spec; lia).
    destruct W as [W1 W2 W3 W4 W5].
    rewrite wr_ok by lia. cbn [bind].
    destruct (wr (m_salts t) (fst b) (- (Z.of_nat (first_free c) + 1))) as [salts| | |] eqn:WS; cbn [bind]; try discriminate.
    unfold wr in WS. destruct (Nat.ltb_spec (fst b) (length (m_salts t))) as [Lb|]; [|discriminate]. injection WS as <-.
    rewrite !wr_ok by lia. cbn [bind]. intros E. apply GEN in E; cbn [m_salts m_keys m_values].
    + destruct E as (A & B & C & CT & FR). split; [exact A|]. split; [exact B|]. split; [exact C|]. split; [|exact FR].
      rewrite CT, ctrue_upd by exact FF. unfold cost. rewrite SB. cbn. lia.
    + constructor; cbn [m_salts m_keys m_values]; rewrite ?upd_length; auto.
      intros p k' X. destruct (Nat.eq_dec p (first_free c)) as [->|NP].
      * rewrite nth_error_upd_eq in X by lia. injection X as <-. right. apply (in_map fst _ (k, v)). apply IA. left. reflexivity.
      * rewrite nth_error_upd_ne in X by exact NP. exact (W5 _ _ X).
    + intros i NI. apply nth_error_upd_ne. exact NI.
    + apply upd_length.
    + intros p CP. assert (NP : p <> first_free c) by (intros ->; congruence).
      rewrite !nth_error_upd_ne by exact NP. auto.
  - apply PLAIN. rewrite ?SB. cbn. lia.
Qed.

Lemma place_ok nb all : forall fuel bs t c t',
  wf nb all t c -> salts_ok t -> (forall b p, In b bs -> In p (snd b) -> In p all) ->
  NoDup (map fst bs) -> sorted_by (@larger K V) bs ->
  place h fuel ds bs t c = Ok t' ->
  exists c', wf nb all t' c' /\ salts_ok t' /\
    (forall b, In b bs -> snd b <> [] -> placed t' c' b) /\
    forall b, ~ In (fst b) (map fst bs) -> placed t c b -> placed t' c' b.
Proof.
  intros fuel. induction bs as [|b bs IH]; intros t c t' W SO IA N S'; cbn [place].
  - intros E. injection E as <-. exists c. split; [exact W|]. split; [exact SO|].
    split; [intros b []|auto].
  - inversion N as [|? ? N1 N2]; subst. inversion S' as [|? ? S1 S2]; subst. destruct (snd b) as [|q qs] eqn:SB.
    + intros E. injection E as <-. exists c.
      assert (AE : forall b', In b' (b :: bs) -> snd b' = []).
      { intros b' [<-|I']; [exact SB|]. rewrite Forall_forall in S2. specialize (S2 b' I'). unfold larger in S2.
        rewrite SB in S2. cbn [length] in S2. apply Nat.ltb_ge in S2. destruct (snd b'); [reflexivity|cbn in S2; lia]. }
      split; [exact W|]. split; [exact SO|]. split; [|auto].
      intros b' I' NE. destruct NE. apply AE. exact I'.
    + clear SB. destruct (find_salt h fuel ds b t c) as [[t1 c1]| | |] eqn:FS; cbn [bind]; try discriminate.
      apply (find_salt_ok nb all) in FS; auto; [|intros p I'; apply (IA b); [left; reflexivity|exact I']].
      destruct FS as (W1 & SO1 & PL & CT & FR). intros E. apply IH in E; auto.
      2:{ intros b' p I' I2. apply (IA b'); [right; exact I'|exact I2]. }
      destruct E as (c' & W2 & SO2 & PL2 & FR2). exists c'.
      split; [exact W2|]. split; [exact SO2|]. split.
      * intros b' [<-|I'] NE; [apply FR2; assumption|apply PL2; assumption].
      * intros b' NI P. cbn [map In] in NI. apply FR2; [tauto|]. apply FR; [|exact P]. intros X. apply NI. left. symmetry. exact X.
Qed.
End Perfect.

(** * The whole construction. *)
Section Build.
Context {K V : Type}.
Variable eqb : K -> K -> bool.
Hypothesis D : decides eqb.
Variable h : K -> Z.
Variable dk : K.
Variable dv : V.
Implicit Types (items : list (K * V)) (t : @table K V).

Definition buckets_of nb items : list (@bucket K V) := map (fun i => (i, in_bucket h nb items i)) (seq 0 (Z.to_nat nb)).
Lemma nodup_by_bucket {A} (hh : A -> Z) (bk : Z -> nat) l :
  (forall i, NoDup (map hh (filter (fun x => bk (hh x) =? i) l))) -> NoDup (map hh l).
Proof.
  induction l as [|a l IH]; intros H; [constructor|]. cbn [map]. constructor.
  - intros X. apply in_map_iff in X. destruct X as (x & E & X). specialize (H (bk (hh a))). cbn [filter] in H.
    rewrite Nat.eqb_refl in H. cbn [map] in H. inversion H as [|? ? N _]; subst. apply N. rewrite <- E. apply in_map.
    apply filter_In. split; [exact X|]. rewrite E. apply Nat.eqb_refl.
  - apply IH. intros i. specialize (H i). cbn [filter] in H. destruct (bk (hh a) =? i); [|exact H].
    inversion H; assumption.
Qed.
Lemma nodup_comp {A B C} (f : A -> B) (g : B -> C) l : NoDup (map (fun x => g (f x)) l) -> NoDup (map f l).
Proof. intros N. apply (NoDup_map_inv g). rewrite map_map. exact N. Qed.

Lemma build_spec limit fuel items t :
  (0 < zlen items < 2 ^ 62)%Z -> build h dk dv limit fuel items = Ok t ->
  exists c, wf dk (next_pow2 (zlen items)) (Z.to_nat (bucket_count (zlen items))) items t c /\ salts_ok t /\
    forall i, i < Z.to_nat (bucket_count (zlen items)) -> in_bucket h (bucket_count (zlen items)) items i <> [] ->
      placed h (next_pow2 (zlen items)) t c (i, in_bucket h (bucket_count (zlen items)) items i).
Proof.
  intros Hn. destruct (np2_sizes _ Hn) as [Hb Hd]. unfold build. set (n := zlen items) in *. set (nb := bucket_count n) in *.
  set (ds := next_pow2 n) in *.
  pose proof (distribute_ok h nb items (fun _ => []) Hb) as DI. cbn [app] in DI.
  match goal with |- context [distribute ?a ?b ?c ?d] =>
    replace (distribute a b c d) with (Ok (buckets_of nb items)) by (symmetry; exact DI) end.
  cbn [bind].
  destruct (sort_sorts larger larger_swo limit [] (buckets_of nb items) []) as (bs & E & P & S').
  cbn [length app Nat.add] in E. rewrite !app_nil_r in E. rewrite E. cbn [bind]. intros PL.
  assert (FS : map fst (buckets_of nb items) = seq 0 (Z.to_nat nb)).
  { unfold buckets_of. rewrite map_map. cbn [fst]. apply map_id. }
  apply (place_ok h dk ds ltac:(lia) (Z.to_nat nb) items) in PL.
  - destruct PL as (c & W & SO & PB & _). exists c. split; [exact W|]. split; [exact SO|].
    intros i Li NE. apply PB; [|exact NE]. apply (Permutation_in _ P). unfold buckets_of.
      apply (in_map (fun i => (i, in_bucket h nb items i))). apply in_seq. lia.
  - constructor; cbn [m_salts m_keys m_values]; rewrite ?repeat_length; auto.
    intros p k X. apply nth_error_In, repeat_spec in X. auto.
  - intros i s X. cbn [m_salts] in X. apply nth_error_In, repeat_spec in X. lia.
  - intros b p I' Ip. apply (Permutation_in _ (Permutation_sym P)) in I'. unfold buckets_of in I'.
    apply in_map_iff in I'. destruct I' as (i & <- & _). cbn [snd] in Ip. unfold in_bucket in Ip. apply filter_In in Ip. apply Ip.
  - eapply Permutation_NoDup; [apply Permutation_map; exact P|]. rewrite FS. apply seq_NoDup.
  - exact S'.
Qed.

(** Where a lookup looks. *)
Lemma data_index_ok limit fuel items t k :
  (0 < zlen items < 2 ^ 62)%Z -> build h dk dv limit fuel items = Ok t ->
  exists p, data_index h t k = Ok p /\ p < length (m_keys t) /\ p < length (m_values t) /\
    (forall v, In (k, v) items -> nth_error (m_keys t) p = Some k /\ nth_error (m_values t) p = Some v) /\
    (forall k', nth_error (m_keys t) p = Some k' -> k' = dk \/ In k' (map fst items)).
Proof.
  intros Hn B. destruct (np2_sizes _ Hn) as [Hb Hd].
  destruct (build_spec limit fuel items t Hn B) as (c & W & SO & PB).
  set (n := zlen items) in *. set (nb := bucket_count n) in *. set (ds := next_pow2 n) in *.
  destruct W as [W1 W2 W3 W4 W5]. unfold data_index.
  assert (ES : zlen (m_salts t) = nb) by (unfold zlen; rewrite W1; lia).
  assert (EK : zlen (m_keys t) = ds) by (unfold zlen; rewrite W2, W4; lia). rewrite ES, EK.
  set (i := Z.to_nat (h k mod nb)). assert (Li : i < Z.to_nat nb) by (unfold i; pose proof (Z.mod_pos_bound (h k) nb Hb); lia).
  destruct (nth_error_ex (m_salts t) i) as [s Es]; [lia|]. rewrite (rd_some _ _ _ Es). cbn [bind].
  pose proof (SO _ _ Es) as Hs. rewrite (proj2 (Z.ltb_ge s 0)) by exact Hs.
  exists (slot h ds s k). split; [reflexivity|].
  assert (LS : slot h ds s k < Z.to_nat ds)
    by (unfold slot; pose proof (Z.mod_pos_bound (hash_combine (conv u64 s) (h k)) ds ltac:(lia)); lia).
  split; [lia|]. split; [lia|]. split; [|intros k' X; exact (W5 _ _ X)].
  intros v I'. assert (IB : In (k, v) (in_bucket h nb items i)).
  { unfold in_bucket. apply filter_In. split; [exact I'|]. cbn [fst]. fold i. apply Nat.eqb_refl. }
  destruct (PB i Li) as (s' & P1 & P2 & P3 & P4); [intros X; rewrite X in IB; destruct IB|]. cbn [fst snd] in *.
  rewrite Es in P1. injection P1 as <-. apply P4. exact IB.
Qed.
Lemma build_finds limit fuel items t :
  (0 < zlen items < 2 ^ 62)%Z -> build h dk dv limit fuel items = Ok t ->
  (forall k v, In (k, v) items -> ph_find eqb h t k = Ok (Some v) /\ ph_contains eqb h t k = Ok true /\ ph_at h t k = Ok v) /\
  (forall k, ~ In k (map fst items) -> k <> dk -> ph_find eqb h t k = Ok None /\ ph_contains eqb h t k = Ok false) /\
  (forall k, exists v, ph_at h t k = Ok v).
Proof.
  intros Hn B. split; [|split].
  - intros k v I'. destruct (data_index_ok limit fuel items t k Hn B) as (p & E & Lk & Lv & IT & _).
    destruct (IT v I') as [A C]. unfold ph_find, ph_contains, ph_at. rewrite E. cbn [bind].
    rewrite (rd_some _ _ _ A), (rd_some _ _ _ C). cbn [bind]. rewrite (eqb_rfl eqb D). auto.
  - intros k NI ND. destruct (data_index_ok limit fuel items t k Hn B) as (p & E & Lk & Lv & _ & CN).
    unfold ph_find, ph_contains. rewrite E. cbn [bind]. destruct (nth_error_ex _ _ Lk) as [k' X].
    rewrite (rd_some _ _ _ X). cbn [bind]. destruct (CN k' X) as [->|I'].
    + rewrite (eqb_ne eqb D) by exact ND. auto.
    + rewrite (eqb_ne eqb D) by (intros ->; contradiction). auto.
  - intros k. destruct (data_index_ok limit fuel items t k Hn B) as (p & E & Lk & Lv & _ & _).
    unfold ph_at. rewrite E. cbn [bind]. destruct (nth_error_ex _ _ Lv) as [v X]. exists v. apply rd_some. exact X.
Qed.
End Build.

(** * When the construction ends. *)
(** ** Low bits. *)
Lemma mod_bits a b e : (0 <= e)%Z ->
  ((a mod 2 ^ e = b mod 2 ^ e)%Z <-> forall i, (0 <= i < e)%Z -> Z.testbit a i = Z.testbit b i).
Proof.
  intros H. split.
  - intros E i Hi. rewrite <- (Z.mod_pow2_bits_low a e i) by lia. rewrite E. apply Z.mod_pow2_bits_low. lia.
  - intros E. apply Z.bits_inj'. intros i Hi. destruct (Z.lt_ge_cases i e) as [L|L].
    + rewrite !Z.mod_pow2_bits_low by lia. apply E. lia.
    + rewrite !Z.mod_pow2_bits_high by lia. reflexivity.
Qed.
Lemma lxor_mod s x y e : (0 <= e)%Z ->
  ((Z.lxor s x mod 2 ^ e = Z.lxor s y mod 2 ^ e)%Z <-> (x mod 2 ^ e = y mod 2 ^ e)%Z).
Proof.
  intros H. rewrite !mod_bits by exact H. split; intros E i Hi; specialize (E i Hi); rewrite ?Z.lxor_spec in *.
  - destruct (Z.testbit s i), (Z.testbit x i), (Z.testbit y i); cbn in E; congruence.
  - rewrite E. reflexivity.
Qed.
Lemma lxor_mod_l s t x e : (0 <= e)%Z -> (s mod 2 ^ e = t mod 2 ^ e)%Z -> (Z.lxor s x mod 2 ^ e = Z.lxor t x mod 2 ^ e)%Z.
Proof. intros H E. rewrite (Z.lxor_comm s), (Z.lxor_comm t). apply lxor_mod; assumption. Qed.
Lemma bit_flip b e : (0 <= e)%Z -> Z.testbit (b + 2 ^ e) e = negb (Z.testbit b e).
Proof.
  intros H. pose proof (Z.pow_pos_nonneg 2 e ltac:(lia) H) as P.
  pose proof (Z.testbit_spec' b e H) as A. pose proof (Z.testbit_spec' (b + 2 ^ e) e H) as B.
  replace ((b + 2 ^ e) / 2 ^ e)%Z with (b / 2 ^ e + 1)%Z in B
    by (replace (b + 2 ^ e)%Z with (b + 1 * 2 ^ e)%Z by lia; rewrite Z.div_add by lia; reflexivity).
  destruct (Z.testbit b e), (Z.testbit (b + 2 ^ e) e); cbn [Z.b2z negb] in *; try reflexivity; exfalso;
    rewrite Z.add_mod, <- A in B by lia; cbn in B; discriminate.
Qed.
(** Every slot is reached by some salt. *)
Lemma reach H y : forall e : nat, exists q, (0 <= q < 2 ^ Z.of_nat e)%Z /\
  (Z.lxor (4 * q + 2) (H + 257 * q) mod 2 ^ Z.of_nat e = y mod 2 ^ Z.of_nat e)%Z.
Proof.
  induction e as [|e (q & Hq & E)].
  - exists 0%Z. change (2 ^ Z.of_nat 0)%Z with 1%Z. rewrite !Z.mod_1_r. lia.
  - replace (Z.of_nat (S e)) with (Z.of_nat e + 1)%Z by lia. set (z := Z.of_nat e) in *.
    assert (Hz : (0 <= z)%Z) by lia. assert (P2 : (2 ^ (z + 1) = 2 * 2 ^ z)%Z) by (rewrite Z.pow_add_r by lia; lia).
    pose proof (Z.pow_pos_nonneg 2 z ltac:(lia) Hz) as P.
    destruct (bool_dec (Z.testbit (Z.lxor (4 * q + 2) (H + 257 * q)) z) (Z.testbit y z)) as [B|B].
    + exists q. split; [lia|]. apply mod_bits; [lia|]. rewrite mod_bits in E by lia. intros i Hi.
      destruct (Z.eq_dec i z) as [->|N]; [exact B|apply E; lia].
    + exists (q + 2 ^ z)%Z. split; [lia|].
      transitivity (Z.lxor (4 * q + 2) (H + 257 * q + 2 ^ z) mod 2 ^ (z + 1))%Z.
      { rewrite (lxor_mod_l _ (4 * q + 2)).
        - apply lxor_mod; [lia|]. rewrite P2.
          replace (H + 257 * (q + 2 ^ z))%Z with (H + 257 * q + 2 ^ z + 128 * (2 * 2 ^ z))%Z by lia.
          apply Z.mod_add. lia.
        - lia.
        - rewrite P2. replace (4 * (q + 2 ^ z) + 2)%Z with (4 * q + 2 + 2 * (2 * 2 ^ z))%Z by lia. apply Z.mod_add. lia. }
      apply mod_bits; [lia|]. rewrite mod_bits in E by lia. intros i Hi. rewrite Z.lxor_spec.
      destruct (Z.eq_dec i z) as [->|N].
      * rewrite bit_flip by lia. rewrite Z.lxor_spec in B.
        destruct (Z.testbit (4 * q + 2) z), (Z.testbit (H + 257 * q) z), (Z.testbit y z); cbn in *; congruence.
      * rewrite <- E by lia. rewrite Z.lxor_spec. f_equal.
        assert (M : ((H + 257 * q + 2 ^ z) mod 2 ^ z = (H + 257 * q) mod 2 ^ z)%Z).
        { replace (H + 257 * q + 2 ^ z)%Z with (H + 257 * q + 1 * 2 ^ z)%Z by lia. apply Z.mod_add. lia. }
        rewrite mod_bits in M by lia. apply M. lia.
Qed.
Lemma sz_mod x e : (0 <= e <= 64)%Z -> (sz x mod 2 ^ e = x mod 2 ^ e)%Z.
Proof.
  intros H. unfold sz, wrap. symmetry. apply Znumtheory.Zmod_div_mod; try (apply Z.pow_pos_nonneg; lia).
  exists (2 ^ (64 - e))%Z. rewrite <- Z.pow_add_r by lia. f_equal. lia.
Qed.
Lemma combine_mod seed hash e : (0 <= seed < 2 ^ 64 - 1)%Z -> (0 <= e <= 64)%Z ->
  (hash_combine seed hash mod 2 ^ e =
   Z.lxor (seed + 1) (hash + 2654435769 + 64 * (seed + 1) + (seed + 1) / 4) mod 2 ^ e)%Z.
Proof.
  intros H He. unfold hash_combine. assert (E : sz (seed + 1) = (seed + 1)%Z) by (unfold sz, wrap; apply Z.mod_small; lia).
  rewrite E. apply lxor_mod; [lia|]. rewrite sz_mod by exact He.
  assert (X : forall a b, ((sz a + b) mod 2 ^ e = (a + b) mod 2 ^ e)%Z).
  { intros a b. rewrite Zplus_mod, sz_mod, <- Zplus_mod by exact He. reflexivity. }
  rewrite X, <- Z.add_assoc, X.
  replace (hash + 2654435769 + (sz ((seed + 1) * 64) + (seed + 1) / 4))%Z
    with (sz ((seed + 1) * 64) + (hash + 2654435769 + (seed + 1) / 4))%Z by lia.
  rewrite X. f_equal. lia.
Qed.

Section Ends.
Context {K V : Type}.
Variable h : K -> Z.
Variable dk : K.
Variable dv : V.
Variable e : Z.
Hypothesis He : (0 <= e < 60)%Z.
Notation ds := (2 ^ (e + 1))%Z.
Notation nb := (2 ^ e)%Z.
Implicit Types (items : list (K * V)) (t : @table K V) (c : list bool) (b : @bucket K V).

Lemma ds_nb : (ds = 2 * nb)%Z /\ (0 < nb)%Z /\ (nb < 2 ^ 60)%Z.
Proof.
  split; [rewrite Z.pow_add_r by lia; lia|]. split; [apply Z.pow_pos_nonneg; lia|]. apply Z.pow_lt_mono_r; lia.
Qed.
Lemma slot_lt s k : slot h ds s k < Z.to_nat ds.
Proof. pose proof ds_nb. unfold slot. pose proof (Z.mod_pos_bound (hash_combine (conv u64 s) (h k)) ds ltac:(lia)). lia. Qed.
Lemma conv_salt s : (0 <= s < 2 ^ 63)%Z -> conv u64 s = s.
Proof. intros H. unfold conv, u64, wrap. cbn [signed width]. apply Z.mod_small. lia. Qed.
Lemma slot_eq s k k' : (0 <= s < 2 ^ 63)%Z -> (slot h ds s k = slot h ds s k' <-> (h k mod ds = h k' mod ds)%Z).
Proof.
  intros Hs. pose proof ds_nb. unfold slot. rewrite conv_salt by exact Hs. rewrite !combine_mod by lia.
  set (u := (s + 1)%Z).
  assert (B : forall z, (0 <= z mod ds < ds)%Z) by (intros z; apply Z.mod_pos_bound; lia).
  transitivity (Z.lxor u (h k + 2654435769 + 64 * u + u / 4) mod ds = Z.lxor u (h k' + 2654435769 + 64 * u + u / 4) mod ds)%Z.
  - split; [intros E; apply Z2Nat.inj in E; [exact E|apply B|apply B]|intros ->; reflexivity].
  - rewrite lxor_mod by lia. split; intros E.
    + replace (h k) with (h k + 2654435769 + 64 * u + u / 4 - (2654435769 + 64 * u + u / 4))%Z by lia.
      rewrite Zminus_mod, E, <- Zminus_mod. f_equal. lia.
    + rewrite <- !Z.add_assoc. rewrite Zplus_mod, E, <- Zplus_mod. reflexivity.
Qed.
Lemma slot_class s k k' : (0 <= s < 2 ^ 63)%Z -> (h k mod nb = h k' mod nb)%Z ->
  (Z.of_nat (slot h ds s k) mod nb = Z.of_nat (slot h ds s k') mod nb)%Z.
Proof.
  intros Hs E. pose proof ds_nb as (D1 & D2 & D3). unfold slot. rewrite conv_salt by exact Hs.
  rewrite !Z2Nat.id by (apply Z.mod_pos_bound; lia).
  rewrite <- !(Znumtheory.Zmod_div_mod nb ds) by (try lia; exists 2%Z; lia).
  rewrite !combine_mod by lia. apply lxor_mod; [lia|]. rewrite <- !Z.add_assoc. rewrite Zplus_mod, E, <- Zplus_mod. reflexivity.
Qed.
Lemma slot_reach k p : p < Z.to_nat ds -> exists s, (1 <= s < 4 * ds + 2)%Z /\ slot h ds s k = p.
Proof.
  intros Hp. pose proof ds_nb as (D1 & D2 & D3).
  destruct (reach (h k + 2654435769 + 128) (Z.of_nat p) (Z.to_nat (e + 1))) as (q & Hq & E).
  rewrite Z2Nat.id in * by lia. exists (4 * q + 1)%Z. split; [lia|]. unfold slot.
  rewrite conv_salt by lia. rewrite combine_mod by lia.
  replace (4 * q + 1 + 1)%Z with (4 * q + 2)%Z by lia.
  replace ((4 * q + 2) / 4)%Z with q by (replace (4 * q + 2)%Z with (2 + q * 4)%Z by lia; rewrite Z.div_add by lia; reflexivity).
  replace (h k + 2654435769 + 64 * (4 * q + 2) + q)%Z with (h k + 2654435769 + 128 + 257 * q)%Z by lia.
  rewrite E, Z.mod_small by lia. lia.
Qed.

(** ** Progress of the loops. *)
Lemma slots_for_total s c items : forall this, length c = Z.to_nat ds ->
  exists r, slots_for h ds s c items this = Ok r.
Proof.
  induction items as [|[k v] items IH]; intros this L; cbn [slots_for]; [eauto|].
  fold (slot h ds s k). destruct (nth_error_ex c (slot h ds s k)) as [x E]; [rewrite L; apply slot_lt|].
  rewrite (rd_some _ _ _ E). cbn [bind]. destruct (x || _); [eauto|apply IH; exact L].
Qed.
Lemma slots_for_yes s c items : forall this,
  (forall p, In p items -> nth_error c (slot h ds s (fst p)) = Some false) ->
  NoDup (this ++ map (fun p => slot h ds s (fst p)) items) ->
  exists ps, slots_for h ds s c items this = Ok (Some ps).
Proof.
  induction items as [|[k v] items IH]; intros this F N; cbn [slots_for]; [eauto|].
  pose proof (F (k, v) (or_introl eq_refl)) as F0. cbn [fst] in F0. unfold slot in F0. rewrite (rd_some _ _ _ F0). cbn [bind orb].
  cbn [map fst] in N. fold (slot h ds s k).
  destruct (existsb (Nat.eqb (slot h ds s k)) this) eqn:X.
  - exfalso. apply existsb_exists in X. destruct X as (y & Y & EY). apply Nat.eqb_eq in EY. subst y.
    apply NoDup_remove_2 in N. apply N. apply in_or_app. left. exact Y.
  - apply IH; [intros p I'; apply F; right; exact I'|]. rewrite <- app_assoc. exact N.
Qed.
Lemma store_total items : forall ps t c, (forall p, In p ps -> p < length c) ->
  length (m_keys t) = length c -> length (m_values t) = length c -> exists r, store items ps t c = Ok r.
Proof.
  induction items as [|[k v] items IH]; intros [|p ps] t c L Lk Lv; cbn [store]; eauto.
  pose proof (L p (or_introl eq_refl)) as Lp. rewrite !wr_ok by lia. cbn [bind].
  apply IH; cbn [m_keys m_values]; rewrite ?upd_length; auto. intros q I'. apply L. right. exact I'.
Qed.
Lemma salt_loop_total b t c s : forall fuel salt,
  (0 <= salt <= s)%Z -> (s < salt + Z.of_nat fuel)%Z -> (s < 4 * ds + 2)%Z ->
  length c = Z.to_nat ds -> length (m_keys t) = length c -> length (m_values t) = length c -> fst b < length (m_salts t) ->
  (exists ps, slots_for h ds s c (snd b) [] = Ok (Some ps)) ->
  exists r, salt_loop h fuel ds salt b t c = Ok r.
Proof.
  pose proof ds_nb as (D1 & D2 & D3).
  induction fuel as [|fuel IH]; intros salt Hs Hf Hb Lc Lk Lv Ls (ps & Y); [lia|]. cbn [salt_loop].
  destruct (slots_for_total salt c (snd b) [] Lc) as [r R]. rewrite R. cbn [bind]. destruct r as [qs|].
  - rewrite wr_ok by exact Ls. cbn [bind]. apply store_total; auto. intros p I'.
    apply slots_for_ok in R; [|constructor]. destruct R as (_ & -> & _). cbn [app] in I'. apply in_map_iff in I'.
    destruct I' as (q & <- & _). rewrite Lc. apply slot_lt.
  - assert (NE : salt <> s) by (intros ->; congruence).
    assert (C : calc i64 (salt + 1) = Ok (salt + 1)%Z) 
      by (unfold calc, i64, lowest, highest; cbn [signed width];
          rewrite (proj2 (Z.leb_le _ _)), (proj2 (Z.leb_le _ _)) by lia; reflexivity).
    rewrite C. cbn [bind].
    apply IH; auto; [lia|lia|eauto].
Qed.
Lemma free_ex c : ctrue c < length c -> exists p, nth_error c p = Some false.
Proof.
  unfold ctrue. induction c as [|[] c IH]; cbn; [lia| |]; intros H.
  - destruct IH as [p E]; [lia|]. exists (S p). exact E.
  - exists 0. reflexivity.
Qed.
Lemma bool_nth c p : p < length c -> nth_error c p <> Some true -> nth_error c p = Some false.
Proof. intros L N. destruct (nth_error_ex c p L) as [[] E]; congruence. Qed.

(** Slots that differ by half of the size are claimed together. *)
Definition sym c : Prop := forall p q, p < length c -> q < length c ->
  (Z.of_nat p mod nb = Z.of_nat q mod nb)%Z -> nth_error c p = nth_error c q.
(** A bucket that can be placed. *)
Definition fine b : Prop :=
  length (snd b) <= 2 /\ NoDup (map (fun p => (h (fst p) mod ds)%Z) (snd b)) /\
  forall p q, In p (snd b) -> In q (snd b) -> (h (fst p) mod nb = h (fst q) mod nb)%Z.

Lemma two_in_class x y z : (0 <= x < ds)%Z -> (0 <= y < ds)%Z -> (0 <= z < ds)%Z ->
  (x mod nb = y mod nb)%Z -> (z mod nb = x mod nb)%Z -> x <> y -> z = x \/ z = y.
Proof.
  pose proof ds_nb as (D1 & D2 & D3). intros Hx Hy Hz E1 E2 N.
  pose proof (Z.div_mod x nb ltac:(lia)) as A. pose proof (Z.div_mod y nb ltac:(lia)) as B. pose proof (Z.div_mod z nb ltac:(lia)) as C.
  assert (forall w, (0 <= w < ds)%Z -> (0 <= w / nb < 2)%Z) as Q
    by (intros w Hw; split; [apply Z.div_pos; lia|apply Z.div_lt_upper_bound; lia]).
  pose proof (Q x Hx). pose proof (Q y Hy). pose proof (Q z Hz).
  assert (CX : (x / nb = 0 \/ x / nb = 1)%Z) by lia. assert (CY : (y / nb = 0 \/ y / nb = 1)%Z) by lia.
  assert (CZ : (z / nb = 0 \/ z / nb = 1)%Z) by lia.
  destruct CX as [X|X], CY as [Y|Y], CZ as [W|W]; rewrite X in A; rewrite Y in B; rewrite W in C; lia.
Qed.

Lemma pair_step NB all b fuel t c :
  wf dk ds NB all t c -> salts_ok t -> (forall p, In p (snd b) -> In p all) -> fst b < NB ->
  fine b -> length (snd b) = 2 -> sym c -> ctrue c < Z.to_nat ds -> (4 * ds + 2 <= Z.of_nat fuel)%Z ->
  exists t' c', find_salt h fuel ds b t c = Ok (t', c') /\ wf dk ds NB all t' c' /\ salts_ok t' /\
    ctrue c' = ctrue c + 2 /\ sym c'.
Proof.
  pose proof ds_nb as (D1 & D2 & D3).
  intros W SO IA Lb (F1 & F2 & F3) L2 SY CT HF. pose proof W as [W1 W2 W3 W4 W5].
  destruct (snd b) as [|[k1 v1] [|[k2 v2] [|]]] eqn:SB; try discriminate L2.
  cbn [map fst] in F2. apply NoDup_cons_iff in F2. destruct F2 as [N1 N2]. cbn [In] in N1.
  pose proof (F3 (k1, v1) (k2, v2) ltac:(left; reflexivity) ltac:(right; left; reflexivity)) as CL. cbn [fst] in CL.
  assert (FS : find_salt h fuel ds b t c = salt_loop h fuel ds 1 b t c) by (unfold find_salt; rewrite SB; reflexivity).
  destruct (free_ex c) as [p Ep]; [lia|]. assert (Lp : p < length c) by (apply nth_error_some_lt in Ep; exact Ep).
  destruct (slot_reach k1 p) as (s & Hs & Sp); [lia|].
  assert (Q : nth_error c (slot h ds s k2) = Some false).
  { rewrite <- Ep. symmetry. apply SY; [exact Lp|rewrite W4; apply slot_lt|]. rewrite <- Sp. apply slot_class; [lia|exact CL]. }
  assert (ND : slot h ds s k1 <> slot h ds s k2) by (intros X; apply slot_eq in X; [|lia]; apply N1; left; symmetry; exact X).
  destruct (salt_loop_total b t c s fuel 1) as [[t' c'] R]; auto; try lia.
  { apply slots_for_yes; rewrite SB.
    - intros q [<-|[<-|[]]]; cbn [fst]; [rewrite Sp; exact Ep|exact Q].
    - cbn. constructor; [intros [X|[]]; congruence|]. constructor; [intros []|constructor]. }
  exists t', c'. rewrite FS. split; [exact R|].
  pose proof R as R2. rewrite <- FS in R2. apply (find_salt_ok h dk ds ltac:(lia) NB all) in R2; auto; [|rewrite SB; exact IA].
  destruct R2 as (W' & SO' & _ & CT' & _). split; [exact W'|]. split; [exact SO'|].
  apply (salt_loop_ok h dk ds ltac:(lia) NB all) in R; auto; [|lia|rewrite SB; exact IA].
  destruct R as (s' & Hs' & _ & ES & PL & CT2 & _ & FR). split; [rewrite CT2, SB; reflexivity|].
  pose proof W' as [_ _ _ W4' _].
  destruct PL as (s2 & PS & _ & PN & PC). rewrite ES in PS. rewrite nth_error_upd_eq in PS by lia. injection PS as <-.
  rewrite SB in *. cbn [map fst] in FR, PN.
  assert (T1 : nth_error c' (slot h ds s' k1) = Some true) by (apply (PC k1 v1); left; reflexivity).
  assert (T2 : nth_error c' (slot h ds s' k2) = Some true) by (apply (PC k2 v2); right; left; reflexivity).
  assert (NE : slot h ds s' k1 <> slot h ds s' k2) by (inversion PN as [|? ? X _]; intros Y; apply X; left; symmetry; exact Y).
  assert (HS : (0 <= s' < 2 ^ 63)%Z \/ (2 ^ 63 <= s')%Z) by lia.
  assert (CL' : (Z.of_nat (slot h ds s' k1) mod nb = Z.of_nat (slot h ds s' k2) mod nb)%Z).
  { unfold slot. rewrite !Z2Nat.id by (apply Z.mod_pos_bound; lia).
    rewrite <- !(Znumtheory.Zmod_div_mod nb ds) by (try lia; exists 2%Z; lia).
    unfold hash_combine. apply lxor_mod; [lia|]. rewrite !sz_mod by lia.
    assert (X : forall a z, ((sz a + z) mod nb = (a + z) mod nb)%Z)
      by (intros a z; rewrite Zplus_mod, sz_mod, <- Zplus_mod by lia; reflexivity).
    rewrite !X, <- !(Z.add_assoc (sz _)), !X, <- !Z.add_assoc. rewrite Zplus_mod, CL, <- Zplus_mod. reflexivity. }
  assert (LT1 := slot_lt s' k1). assert (LT2 := slot_lt s' k2).
  assert (CLS : forall q, q < length c' -> (Z.of_nat q mod nb = Z.of_nat (slot h ds s' k1) mod nb)%Z ->
     q = slot h ds s' k1 \/ q = slot h ds s' k2).
  { intros q Lq Eq. destruct (two_in_class (Z.of_nat (slot h ds s' k1)) (Z.of_nat (slot h ds s' k2)) (Z.of_nat q)); lia. }
  intros q r Lq Lr Eq.
  destruct (Z.eq_dec (Z.of_nat q mod nb) (Z.of_nat (slot h ds s' k1) mod nb)) as [Y|Y].
  - destruct (CLS q Lq Y) as [A1 | A1]; destruct (CLS r Lr ltac:(lia)) as [A2 | A2]; rewrite A1, A2; congruence.
  - assert (NQ : ~ In q [slot h ds s' k1; slot h ds s' k2]) by (intros [X|[X|[]]]; subst q; lia).
    assert (NR : ~ In r [slot h ds s' k1; slot h ds s' k2]) by (intros [X|[X|[]]]; subst r; lia).
    rewrite (FR q NQ), (FR r NR). apply SY; [lia|lia|exact Eq].
Qed.
Lemma single_step NB all b fuel t c :
  wf dk ds NB all t c -> salts_ok t -> (forall p, In p (snd b) -> In p all) -> fst b < NB ->
  length (snd b) = 1 -> ctrue c + 2 <= Z.to_nat ds -> (4 * ds + 2 <= Z.of_nat fuel)%Z ->
  exists t' c', find_salt h fuel ds b t c = Ok (t', c') /\ wf dk ds NB all t' c' /\ salts_ok t' /\ ctrue c' = ctrue c + 2.
Proof.
  pose proof ds_nb as (D1 & D2 & D3).
  intros W SO IA Lb L1 CT HF. pose proof W as [W1 W2 W3 W4 W5].
  assert (X : exists r, find_salt h fuel ds b t c = Ok r).
  { unfold find_salt. destruct (snd b) as [|[k v] [|]] eqn:SB; try discriminate L1.
    assert (FL : first_free c < length c).
    { destruct (free_ex c) as [p Ep]; [lia|]. clear - Ep. revert p Ep.
      induction c as [|[] c IH]; intros [|p] E; cbn in *; try discriminate; try lia. specialize (IH _ E). lia. }
    rewrite (proj2 (Nat.eqb_neq (first_free c) (length c))) by lia. rewrite !wr_ok by lia. cbn [bind].
    destruct (free_ex (upd c (first_free c) true)) as [p Ep].
    { rewrite upd_length, ctrue_upd by (apply first_free_spec; exact FL). lia. }
    assert (Lp : p < Z.to_nat ds) by (apply nth_error_some_lt in Ep; rewrite upd_length in Ep; lia).
    destruct (slot_reach k p Lp) as (s & Hs & Sp).
    apply (salt_loop_total b _ _ s); cbn [m_salts m_keys m_values]; rewrite ?upd_length; try lia.
    apply slots_for_yes; rewrite SB.
    - intros q [<-|[]]. cbn [fst]. rewrite Sp. exact Ep.
    - cbn. constructor; [intros []|constructor]. }
  destruct X as [[t' c'] R]. exists t', c'. split; [exact R|].
  apply (find_salt_ok h dk ds ltac:(lia) NB all) in R; auto. destruct R as (W' & SO' & _ & CT' & _).
  split; [exact W'|]. split; [exact SO'|]. rewrite CT'. unfold cost. rewrite L1. cbn. lia.
Qed.
Lemma place_total NB all fuel : (4 * ds + 2 <= Z.of_nat fuel)%Z -> forall bs t c,
  wf dk ds NB all t c -> salts_ok t -> (forall b p, In b bs -> In p (snd b) -> In p all) ->
  (forall b, In b bs -> fst b < NB /\ fine b) -> sorted_by (@larger K V) bs ->
  ctrue c + 2 * length bs <= Z.to_nat ds ->
  ((exists b, In b bs /\ length (snd b) = 2) -> sym c) ->
  exists t', place h fuel ds bs t c = Ok t'.
Proof.
  intros HF. induction bs as [|b bs IH]; intros t c W SO IA FI S' CT SY; cbn [place]; [eauto|].
  inversion S' as [|? ? S1 S2]; subst. destruct (FI b (or_introl eq_refl)) as [Lb Fb].
  assert (IA2 : forall b' p, In b' bs -> In p (snd b') -> In p all) by (intros b' p I'; apply IA; right; exact I').
  assert (FI2 : forall b', In b' bs -> fst b' < NB /\ fine b') by (intros b' I'; apply FI; right; exact I').
  cbn [length] in CT.
  destruct (snd b) as [|q qs] eqn:SB; [eauto|]. pose proof Fb as [F1 _]. rewrite SB in F1. cbn [length] in F1.
  destruct qs as [|q2 qs].
  - destruct (single_step NB all b fuel t c) as (t' & c' & R & W' & SO' & CT'); auto; try lia.
    { intros p. apply IA. left. reflexivity. }
    { rewrite SB. reflexivity. }
    rewrite R. cbn [bind]. apply IH; auto; [lia|]. intros (b' & I' & L2). exfalso.
    rewrite Forall_forall in S2. specialize (S2 b' I'). unfold larger in S2. rewrite SB in S2. cbn [length] in S2.
    apply Nat.ltb_ge in S2. lia.
  - destruct (pair_step NB all b fuel t c) as (t' & c' & R & W' & SO' & CT' & SY'); auto; try lia.
    { intros p. apply IA. left. reflexivity. }
    { rewrite SB. cbn [length] in *. lia. }
    { apply SY. exists b. split; [left; reflexivity|]. rewrite SB. cbn [length] in *. lia. }
    rewrite R. cbn [bind]. apply IH; auto. lia.
Qed.
End Ends.

Section Built.
Context {K V : Type}.
Variable h : K -> Z.
Variable dk : K.
Variable dv : V.
Implicit Types (items : list (K * V)) (t : @table K V).

Lemma nodup_filter {A B} (f : A -> B) (p : A -> bool) l : NoDup (map f l) -> NoDup (map f (filter p l)).
Proof.
  induction l as [|a l IH]; cbn [map filter]; intros N; [constructor|]. inversion N as [|? ? N1 N2]; subst.
  destruct (p a); [|apply IH; exact N2]. cbn [map]. constructor; [|apply IH; exact N2].
  intros X. apply N1. apply in_map_iff in X. destruct X as (x & <- & X). apply in_map. apply filter_In in X. apply X.
Qed.
Lemma build_ends limit items :
  (0 < zlen items < 2 ^ 60)%Z ->
  NoDup (map (fun p => (h (fst p) mod table_size (zlen items))%Z) items) ->
  forall fuel, (4 * table_size (zlen items) + 2 <= Z.of_nat fuel)%Z -> exists t, build h dk dv limit fuel items = Ok t.
Proof.
  intros Hn ND fuel HF. unfold table_size in *. set (n := zlen items) in *. set (e := Z.log2 n) in *.
  assert (He : (0 <= e < 60)%Z) by (split; [apply Z.log2_nonneg|apply Z.log2_lt_pow2; lia]).
  pose proof (ds_nb e He) as (D1 & D2 & D3).
  assert (EN : next_pow2 n = (2 ^ (e + 1))%Z) by (apply np2; lia).
  assert (EB : bucket_count n = (2 ^ e)%Z).
  { unfold bucket_count. rewrite EN, D1. rewrite Z.mul_comm. apply Z.div_mul. lia. }
  unfold build. fold n. rewrite EN, EB.
  pose proof (distribute_ok h (2 ^ e) items (fun _ => []) D2) as DI. cbn [app] in DI.
  match goal with |- context [distribute ?a ?b ?c ?d] =>
    replace (distribute a b c d) with (Ok (buckets_of h (2 ^ e) items)) by (symmetry; exact DI) end.
  cbn [bind].
  destruct (sort_sorts larger larger_swo limit [] (buckets_of h (2 ^ e) items) []) as (bs & E & P & S').
  cbn [length app Nat.add] in E. rewrite !app_nil_r in E. rewrite E. cbn [bind].
  assert (IN : forall b, In b bs -> exists i, i < Z.to_nat (2 ^ e) /\ b = (i, in_bucket h (2 ^ e) items i)).
  { intros b I'. apply (Permutation_in _ (Permutation_sym P)) in I'. unfold buckets_of in I'.
    apply in_map_iff in I'. destruct I' as (i & <- & X). apply in_seq in X. exists i. split; [lia|reflexivity]. }
  assert (LB : length bs = Z.to_nat (2 ^ e)).
  { rewrite <- (Permutation_length P). unfold buckets_of. rewrite map_length, seq_length. reflexivity. }
  apply (place_total h dk e He (Z.to_nat (2 ^ e)) items fuel HF).
  - constructor; cbn [m_salts m_keys m_values]; rewrite ?repeat_length; auto.
    intros p k X. apply nth_error_In, repeat_spec in X. auto.
  - intros i s X. cbn [m_salts] in X. apply nth_error_In, repeat_spec in X. lia.
  - intros b p I' Ip. destruct (IN b I') as (i & _ & ->). cbn [snd] in Ip. unfold in_bucket in Ip. apply filter_In in Ip. apply Ip.
  - intros b I'. destruct (IN b I') as (i & Li & ->). split; [exact Li|]. cbn [snd].
    assert (CL : forall p, In p (in_bucket h (2 ^ e) items i) -> (h (fst p) mod 2 ^ e = Z.of_nat i)%Z).
    { intros p X. unfold in_bucket in X. apply filter_In in X. destruct X as [_ X]. apply Nat.eqb_eq in X.
      pose proof (Z.mod_pos_bound (h (fst p)) (2 ^ e) D2). lia. }
    assert (N2 : NoDup (map (fun p => (h (fst p) mod 2 ^ (e + 1))%Z) (in_bucket h (2 ^ e) items i)))
      by (apply nodup_filter; exact ND).
    split; [|split; [exact N2|]].
    + cbn [snd]. rewrite <- (map_length (fun p => (h (fst p) mod 2 ^ (e + 1))%Z)).
      change 2 with (length [Z.of_nat i; (Z.of_nat i + 2 ^ e)%Z]). apply NoDup_incl_length; [exact N2|].
      intros x X. apply in_map_iff in X. destruct X as (p & <- & X). apply CL in X.
      set (y := (h (fst p) mod 2 ^ (e + 1))%Z). assert (Hy : (0 <= y < 2 ^ (e + 1))%Z) by (apply Z.mod_pos_bound; lia).
      assert (YM : (y mod 2 ^ e = Z.of_nat i)%Z).
      { unfold y. rewrite <- (Znumtheory.Zmod_div_mod (2 ^ e) (2 ^ (e + 1))) by (try lia; exists 2%Z; lia). exact X. }
      pose proof (Z.div_mod y (2 ^ e) ltac:(lia)) as DM. rewrite YM in DM.
      assert (Q : (0 <= y / 2 ^ e < 2)%Z) by (split; [apply Z.div_pos; lia|apply Z.div_lt_upper_bound; lia]).
      assert (CQ : (y / 2 ^ e = 0 \/ y / 2 ^ e = 1)%Z) by lia.
      destruct CQ as [W|W]; rewrite W in DM; [left|right; left]; lia.
    + cbn [snd]. intros p q X Y. rewrite (CL p X), (CL q Y). reflexivity.
  - exact S'.
  - assert (Z0 : forall q, ctrue (repeat false q) = 0) by (induction q; auto). rewrite Z0, LB. lia.
  - intros _ p q Lp Lq _. rewrite repeat_length in Lp, Lq. rewrite !nth_error_repeat by assumption. reflexivity.
Qed.
Lemma build_needs limit fuel items t :
  (0 < zlen items < 2 ^ 60)%Z -> build h dk dv limit fuel items = Ok t ->
  NoDup (map (fun p => (h (fst p) mod table_size (zlen items))%Z) items).
Proof.
  intros Hn B. destruct (np2_sizes (zlen items) ltac:(lia)) as [Hb Hd].
  destruct (build_spec h dk dv limit fuel items t ltac:(lia) B) as (c & W & _ & PB). unfold table_size.
  set (n := zlen items) in *. set (e := Z.log2 n) in *.
  assert (He : (0 <= e < 60)%Z) by (split; [apply Z.log2_nonneg|apply Z.log2_lt_pow2; lia]).
  pose proof (ds_nb e He) as (D1 & D2 & D3).
  assert (EN : next_pow2 n = (2 ^ (e + 1))%Z) by (apply np2; lia).
  assert (EB : bucket_count n = (2 ^ e)%Z).
  { unfold bucket_count. rewrite EN, D1. rewrite Z.mul_comm. apply Z.div_mul. lia. }
  rewrite EN, EB in *.
  apply (nodup_by_bucket (fun p : K * V => (h (fst p) mod 2 ^ (e + 1))%Z) (fun z => Z.to_nat (z mod 2 ^ e))). intros i.
  assert (EF : filter (fun x : K * V => Z.to_nat ((h (fst x) mod 2 ^ (e + 1)) mod 2 ^ e) =? i) items = in_bucket h (2 ^ e) items i).
  { unfold in_bucket. apply filter_ext. intros p.
    rewrite <- (Znumtheory.Zmod_div_mod (2 ^ e) (2 ^ (e + 1))) by (try lia; exists 2%Z; lia). reflexivity. }
  rewrite EF. destruct (in_bucket h (2 ^ e) items i) as [|q qs] eqn:E; [constructor|]. rewrite <- E.
  assert (Li : i < Z.to_nat (2 ^ e)).
  { assert (X : In q (in_bucket h (2 ^ e) items i)) by (rewrite E; left; reflexivity). unfold in_bucket in X. apply filter_In in X.
    destruct X as [_ X]. apply Nat.eqb_eq in X. pose proof (Z.mod_pos_bound (h (fst q)) (2 ^ e) D2). lia. }
  destruct (PB i Li) as (s & _ & _ & N & _); [rewrite E; discriminate|]. cbn [snd] in N.
  assert (SL : forall k, slot h (2 ^ (e + 1)) s k =
     Z.to_nat (hash_combine (conv u64 s) (h k mod 2 ^ (e + 1)) mod 2 ^ (e + 1))).
  { intros k. unfold slot. f_equal. unfold hash_combine. apply lxor_mod; [lia|]. rewrite !sz_mod by lia.
    assert (X : forall a z, ((sz a + z) mod 2 ^ (e + 1) = (a + z) mod 2 ^ (e + 1))%Z)
      by (intros a z; rewrite Zplus_mod, sz_mod, <- Zplus_mod by lia; reflexivity).
    rewrite !X, <- !(Z.add_assoc (sz _)), !X, <- !Z.add_assoc. symmetry. apply Zplus_mod_idemp_l. }
  apply (nodup_comp _ (fun z => Z.to_nat (hash_combine (conv u64 s) z mod 2 ^ (e + 1)))).
  rewrite (map_ext _ (fun p : K * V => slot h (2 ^ (e + 1)) s (fst p))); [exact N|]. intros p. symmetry. apply SL.
Qed.
End Built.

Lemma default_key_found :
  exists t, build (fun k : Z => k) 0%Z 0%Z 30 40 [(2, 20); (6, 60); (3, 30); (7, 70)]%Z = Ok t /\
    ph_contains Z.eqb (fun k => k) t 0%Z = Ok true.
Proof. eexists. split; [vm_compute; reflexivity|]. vm_compute. reflexivity. Qed.
