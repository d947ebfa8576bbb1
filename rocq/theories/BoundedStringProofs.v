(** Proofs about the bounded string (BoundedString.v). *)
From Coq Require Import List ZArith Lia Bool Permutation.
From Verif Require Import Common CommonProofs Ints BitsModel StringView SpecString SeqContainers SpecSeq SeqProofs.
From Verif Require Import StringViewProofs StringSearchProofs StringLastProofs StringOtherProofs StringPopProofs StringView1 SpecStringView1 StringView1Proofs BoundedString SpecBoundedString.
Import ListNotations.
Open Scope Z_scope.

Lemma rep_brep cap v l : bs_rep cap v l <-> brep (S cap) v l.
Proof. reflexivity. Qed.

Lemma rep_len cap v l : bs_rep cap v l -> (length l <= S cap)%nat.
Proof. intros (_ & _ & _ & rest & _ & L). lia. Qed.

Lemma rep_size cap v l : bs_rep cap v l -> bs_size v = Z.of_nat (length l).
Proof. intros H. exact (bsize _ _ _ H). Qed.

Lemma rep_cap cap v l : bs_rep cap v l -> bs_capacity v = Z.of_nat cap.
Proof. intros H. unfold bs_capacity. rewrite (bcap _ _ _ H). lia. Qed.

Lemma rep_mem cap v l : bs_rep cap v l -> exists rest, bs_mem v = l ++ rest /\ (length l + length rest)%nat = S cap.
Proof. intros (F & _ & _ & rest & St & L). exists rest. unfold bs_mem. rewrite F, St. auto. Qed.

Lemma rep_mem_stack cap v l : bs_rep cap v l -> bs_mem v = bstack v.
Proof. intros (F & _). unfold bs_mem. now rewrite F. Qed.

Lemma rep_view cap v l : bs_rep cap v l -> exists x, bs_view v = Ok x /\ sh x l.
Proof.
  intros H. destruct (rep_mem _ _ _ H) as (rest & E & L).
  unfold bs_view. rewrite E, (rep_size _ _ _ H).
  destruct H as (_ & _ & B & _).
  apply (range1_ok (Some (l ++ rest)) [] l rest); [reflexivity|].
  cbn [app]. rewrite app_length. lia.
Qed.

Lemma rep_shows cap v l : bs_rep cap v l -> bs_shows cap v l.
Proof.
  intros H. pose proof (bshows _ _ _ H) as (R & RR & Sz & Cp & _ & Em & _ & Fr & Ba & Ix & At).
  pose proof (rep_cap _ _ _ H) as C.
  refine (conj R (conj RR (conj _ (conj Sz (conj C (conj _ (conj _ (conj Fr (conj Ba (conj Ix (conj At _))))))))))).
  - unfold bs_to_string. destruct (rep_view _ _ _ H) as (x & -> & X). cbn [bind]. now apply to_string1_ok.
  - unfold bs_is_empty. rewrite Em. destruct l; cbn; split; intros; first [reflexivity | discriminate].
  - unfold bs_full. rewrite C, (rep_size _ _ _ H : b_size v = _). rewrite Z.eqb_eq. lia.
  - destruct (rep_mem _ _ _ H) as (rest & E & _). exists rest. exact E.
Qed.

Lemma term_ok cap v l : bs_rep cap v l -> (length l <= cap)%nat ->
  bs_makes cap (bs_terminate v) l.
Proof.
  intros (F & Ix & B & rest & St & L) HL. unfold bs_makes, bs_terminate.
  destruct rest as [|o rest]; [cbn in L; lia|].
  rewrite St, (put_mid l o 0 rest _ Ix). cbn [bind].
  eexists; split; [reflexivity|]. split.
  - split; [|assumption]. split; [exact F|]. split; [exact Ix|]. split; [exact B|].
    exists (0 :: rest). split; [reflexivity | exact L].
  - exists rest. unfold bs_mem. cbn [bfirst bstack]. now rewrite F.
Qed.

Lemma term_over cap v l : bs_rep cap v l -> length l = S cap -> bs_terminate v = UB.
Proof.
  intros (F & Ix & B & rest & St & L) HL. unfold bs_terminate.
  rewrite put_out; [reflexivity|]. rewrite St, Ix, app_length. lia.
Qed.

Lemma insert_ok cap xs : forall v l, bs_rep cap v l -> (length l + length xs <= S cap)%nat ->
  exists v', bs_insert v xs = Ok v' /\ bs_rep cap v' (l ++ xs).
Proof.
  induction xs as [|x xs IH]; intros v l H HL; cbn [length] in HL.
  - exists v. rewrite app_nil_r. auto.
  - destruct (bpush (S cap) v l x H) as (v1 & E1 & R1); [lia|].
    cbn [bs_insert]. rewrite E1. cbn [bind].
    destruct (IH v1 (l ++ [x]) R1) as (v2 & E2 & R2).
    { rewrite app_length. cbn [length]. lia. }
    exists v2. rewrite <- app_assoc in R2. auto.
Qed.

Lemma full_val cap v l : bs_rep cap v l -> bs_full v = (length l =? cap)%nat.
Proof.
  intros H. unfold bs_full. rewrite (rep_cap _ _ _ H), (bsize _ _ _ H).
  destruct (Nat.eqb_spec (length l) cap); [apply Z.eqb_eq | apply Z.eqb_neq]; lia.
Qed.

Lemma mfull_val cap v l : bs_rep cap v l -> b_is_full v = (length l =? S cap)%nat.
Proof.
  intros H. pose proof (bshows _ _ _ H) as S. apply S.
Qed.

Lemma push_ok cap v l c : bs_holds cap v l -> (length l < cap)%nat ->
  bs_makes cap (bs_push_back v c) (l ++ [c]).
Proof.
  intros (H & HL) HC. unfold bs_push_back. rewrite (full_val _ _ _ H).
  replace (length l =? cap)%nat with false by (symmetry; apply Nat.eqb_neq; lia).
  destruct (bpush (S cap) v l c H) as (v1 & E1 & R1); [lia|].
  rewrite E1. cbn [bind]. apply term_ok; [exact R1|]. rewrite app_length; cbn [length]; lia.
Qed.

Lemma push_full cap v l c : bs_rep cap v l -> length l = cap -> bs_push_back v c = Throw.
Proof. intros H HL. unfold bs_push_back. rewrite (full_val _ _ _ H), HL, Nat.eqb_refl. reflexivity. Qed.

Lemma push_over cap v l c : bs_rep cap v l -> length l = S cap -> bs_push_back v c = UB.
Proof.
  intros H HL. unfold bs_push_back. rewrite (full_val _ _ _ H).
  replace (length l =? cap)%nat with false by (symmetry; apply Nat.eqb_neq; lia).
  rewrite (bpush_over (S cap) v l c H HL). reflexivity.
Qed.

Lemma append_char_ok cap v l c : bs_rep cap v l -> (length l <= cap)%nat -> bs_append_char v c = bs_push_back v c.
Proof.
  intros H HL. unfold bs_append_char. rewrite (mfull_val _ _ _ H).
  now replace (length l =? S cap)%nat with false by (symmetry; apply Nat.eqb_neq; lia).
Qed.

Lemma append_char_over cap v l c : bs_rep cap v l -> length l = S cap -> bs_append_char v c = Throw.
Proof. intros H HL. unfold bs_append_char. now rewrite (mfull_val _ _ _ H), HL, Nat.eqb_refl. Qed.

Lemma add_bound n m : Z.of_nat (S n) < 2 ^ 63 -> Z.of_nat m < 2 ^ 63 -> forall k, (k <= S n)%nat ->
  sz (Z.of_nat k + Z.of_nat m) = Z.of_nat (k + m).
Proof. intros A B k K. rewrite sz_id by lia. lia. Qed.

Lemma append_ok cap v l xs : bs_holds cap v l -> (length l + length xs <= cap)%nat ->
  bs_makes cap (bs_append v xs) (l ++ xs).
Proof.
  intros (H & HL) HC. pose proof H as (_ & _ & B & _).
  unfold bs_append. rewrite (rep_cap _ _ _ H), (rep_size _ _ _ H : b_size v = _).
  rewrite (add_bound cap) by lia.
  replace (Z.of_nat (length l + length xs) <=? Z.of_nat cap) with true by (symmetry; apply Z.leb_le; lia).
  destruct (insert_ok cap xs v l H) as (v1 & E1 & R1); [lia|].
  rewrite E1. cbn [bind]. apply term_ok; [exact R1|]. rewrite app_length. lia.
Qed.

Lemma append_throws cap v l xs : bs_rep cap v l -> (cap < length l + length xs)%nat -> Z.of_nat (length xs) < 2 ^ 63 ->
  bs_append v xs = Throw.
Proof.
  intros H HC HX. pose proof H as (_ & _ & B & _). pose proof (rep_len _ _ _ H) as HL.
  unfold bs_append. rewrite (rep_cap _ _ _ H), (rep_size _ _ _ H : b_size v = _).
  rewrite (add_bound cap) by lia.
  now replace (Z.of_nat (length l + length xs) <=? Z.of_nat cap) with false by (symmetry; apply Z.leb_gt; lia).
Qed.

Lemma append_sub_eq v t pos count : Z.of_nat (length t) < 2 ^ 63 -> 0 <= pos -> 0 <= count ->
  bs_append_sub v t pos count =
    if pos <=? Z.of_nat (length t) then bs_append v (firstn (Z.to_nat count) (skipn (Z.to_nat pos) t)) else Throw.
Proof.
  intros HT HP HC. unfold bs_append_sub.
  destruct (range1_ok (Some t) [] t []) as (w & E & W).
  { cbn [app]. now rewrite app_nil_r. }
  { cbn [app]. now rewrite app_nil_r. }
  change (Z.of_nat (length [])) with 0 in E. rewrite E. cbn [bind].
  destruct (Z.leb_spec pos (Z.of_nat (length t))).
  - destruct (substr1_ok w t pos count W) as (u & E2 & U); [lia | lia |].
    rewrite E2. cbn [bind]. rewrite (to_string1_ok _ _ U). reflexivity.
  - rewrite (substr1_throws w t pos count W) by lia. reflexivity.
Qed.

Lemma resize_down cap v l n : bs_rep cap v l -> (n <= length l)%nat ->
  exists v', b_resize 0 v (Z.of_nat n) = Ok v' /\ bs_rep cap v' (firstn n l).
Proof.
  intros H HN. pose proof (rep_len _ _ _ H) as HL.
  destruct (bresize 0 (S cap) v l n H) as (v' & E & R); [lia|].
  exists v'. split; [exact E|]. replace (n - length l)%nat with O in R by lia.
  cbn [repeat] in R. rewrite app_nil_r in R. exact R.
Qed.

Lemma remove_suffix_ok cap v l n : bs_holds cap v l -> 0 <= n <= Z.of_nat (length l) ->
  bs_makes cap (bs_remove_suffix v n) (firstn (length l - Z.to_nat n) l).
Proof.
  intros (H & HL) HN. pose proof H as (_ & _ & B & _). unfold bs_remove_suffix.
  rewrite (rep_size _ _ _ H : b_size v = _), sz_id by lia.
  replace (Z.of_nat (length l) - n) with (Z.of_nat (length l - Z.to_nat n)) by lia.
  destruct (resize_down cap v l (length l - Z.to_nat n) H) as (v1 & E1 & R1); [lia|].
  rewrite E1. cbn [bind]. apply term_ok; [exact R1|]. rewrite firstn_length. lia.
Qed.

Lemma sz_neg a n : 0 <= a < n -> n < 2 ^ 64 -> sz (a - n) = 2 ^ 64 + a - n.
Proof.
  intros H1 H2. unfold sz, wrap. symmetry. apply Z.mod_unique with (q := -1); lia.
Qed.

Lemma remove_suffix_throws cap v l n : bs_rep cap v l -> Z.of_nat (length l) < n -> n < 2 ^ 64 + Z.of_nat (length l) - Z.of_nat (S cap) ->
  bs_remove_suffix v n = Throw.
Proof.
  intros H H1 H2. pose proof (rep_len _ _ _ H) as HL. unfold bs_remove_suffix.
  rewrite (rep_size _ _ _ H : b_size v = _), sz_neg by lia.
  rewrite (bresize_throw 0 (S cap) v l); [reflexivity | exact H | lia].
Qed.

(** A count close to 2^64 makes the string longer. *)
Lemma remove_suffix_grows cap v l k : bs_holds cap v l -> (length l + S k <= cap)%nat ->
  bs_makes cap (bs_remove_suffix v (2 ^ 64 - Z.of_nat (S k))) (l ++ repeat 0 (S k)).
Proof.
  intros (H & HL) HK. pose proof H as (_ & _ & B & _). unfold bs_remove_suffix.
  rewrite (rep_size _ _ _ H : b_size v = _), sz_neg by lia.
  replace (2 ^ 64 + Z.of_nat (length l) - (2 ^ 64 - Z.of_nat (S k))) with (Z.of_nat (length l + S k)) by lia.
  destruct (bresize 0 (S cap) v l (length l + S k) H) as (v' & E & R); [lia|].
  rewrite E. cbn [bind]. rewrite firstn_all2 in R by lia.
  replace (length l + S k - length l)%nat with (S k) in R by lia.
  apply term_ok; [exact R|]. rewrite app_length, repeat_length. lia.
Qed.

Lemma remove_suffix_full cap v l : bs_rep cap v l -> length l = cap ->
  bs_remove_suffix v npos = UB.
Proof.
  intros H HL. pose proof H as (_ & _ & B & _). unfold bs_remove_suffix.
  rewrite npos_val, (rep_size _ _ _ H : b_size v = _), sz_neg by lia.
  replace (2 ^ 64 + Z.of_nat (length l) - (2 ^ 64 - 1)) with (Z.of_nat (length l + 1)) by lia.
  destruct (bresize 0 (S cap) v l (length l + 1) H) as (v' & E & R); [lia|].
  rewrite E. cbn [bind]. rewrite firstn_all2 in R by lia.
  replace (length l + 1 - length l)%nat with 1%nat in R by lia.
  apply (term_over cap v' _ R). rewrite app_length, repeat_length. lia.
Qed.

Lemma clear_ok cap v l : bs_rep cap v l -> bs_makes cap (bs_clear v) [].
Proof. intros H. unfold bs_clear. apply term_ok; [exact (bclear (S cap) v l H) | cbn; lia]. Qed.

Lemma pop_ok cap v l c : bs_rep cap v (l ++ [c]) ->
  exists v', bs_pop_back v = Ok (c, v') /\ bs_holds cap v' l /\ bs_cterm v' l.
Proof.
  intros H. pose proof (rep_len _ _ _ H) as HL. rewrite app_length in HL. cbn [length] in HL.
  destruct (bpop_back (S cap) v l c H) as (v1 & E1 & R1).
  unfold bs_pop_back. rewrite E1. cbn [bind].
  destruct (term_ok cap v1 l R1) as (v2 & E2 & R2); [lia|].
  rewrite E2. cbn [bind]. exists v2. auto.
Qed.

Lemma pop_empty cap v : bs_rep cap v [] -> bs_pop_back v = UB.
Proof.
  intros (F & Ix & B & rest & St & L). unfold bs_pop_back, b_pop_back.
  rewrite Ix. cbn [length]. change (Z.of_nat 0 - 1) with (-1).
  replace (sz (-1)) with (2 ^ 64 - 1) by reflexivity.
  rewrite get_out; [reflexivity|]. rewrite St. cbn [app length] in *. lia.
Qed.

(** * Erasing *)

Lemma erase_at_ok cap v l p : bs_rep cap v l -> (p < length l)%nat ->
  exists v', bs_erase_at v (Z.of_nat p) =
    Ok (if (S p =? length l)%nat then Z.of_nat p else Z.of_nat p + 1, v') /\
    bs_rep cap v' (firstn p l ++ skipn (S p) l).
Proof. intros H HP. exact (berase 0 (S cap) v l p H HP). Qed.

Lemma range_len (l : list Z) f e : (f <= e <= length l)%nat ->
  length (firstn f l ++ skipn e l) = (length l - (e - f))%nat.
Proof. intros H. rewrite app_length, firstn_length, skipn_length. lia. Qed.

Lemma erase_range_ok cap dbg v l f e : bs_holds cap v l -> range_ok dbg l f e ->
  exists v', bs_erase_range dbg v (Z.of_nat f) (Z.of_nat e) =
    Ok (if (e + (e - f) =? length l)%nat then Z.of_nat e else Z.of_nat e + 1, v') /\
    bs_holds cap v' (firstn f l ++ skipn e l).
Proof.
  intros (H & HL) (HR & HD).
  destruct (berase_range 0 (S cap) v l f e dbg H HR HD) as (v' & R & E).
  exists v'. split.
  - unfold bs_erase_range. rewrite E.
    destruct (e + (e - f) =? length l)%nat; [reflexivity|].
    now replace (e =? S cap)%nat with false by (symmetry; apply Nat.eqb_neq; lia).
  - split; [exact R|]. rewrite range_len by lia. lia.
Qed.

Lemma erase_index_ok cap dbg v l index count : bs_holds cap v l -> 0 <= index -> 0 <= count ->
  range_ok dbg l (Z.to_nat index) (if (count =? npos)%Z then length l else Z.to_nat index + Z.to_nat count)%nat ->
  exists v', bs_erase dbg v index count = Ok v' /\
    bs_holds cap v' (firstn (Z.to_nat index) l ++ (if count =? npos then [] else skipn (Z.to_nat index + Z.to_nat count) l)).
Proof.
  intros HH HI HC HR. pose proof HH as (H & HL). pose proof H as (F & Ix & B & _).
  pose proof HR as (HR1 & _).
  unfold bs_erase. rewrite F, Z.add_0_l.
  set (e := (if (count =? npos)%Z then length l else Z.to_nat index + Z.to_nat count)%nat) in *.
  assert (E1 : swrap 64 index = Z.of_nat (Z.to_nat index)) by (rewrite StringViewProofs.swrap_id; lia).
  assert (E2 : (if count =? npos then bindex v else swrap 64 index + swrap 64 count) = Z.of_nat e).
  { unfold e in *. rewrite Ix, E1. destruct (count =? npos); [reflexivity|].
    rewrite StringViewProofs.swrap_id by lia. lia. }
  rewrite E2, E1.
  destruct (erase_range_ok cap dbg v l (Z.to_nat index) e HH HR) as (v' & E & R).
  unfold bs_erase_range in E. rewrite E. cbn [bind]. exists v'. split; [reflexivity|].
  replace (if count =? npos then [] else skipn (Z.to_nat index + Z.to_nat count) l) with (skipn e l); [exact R|].
  unfold e. destruct (count =? npos); [|reflexivity]. now rewrite skipn_all.
Qed.

(** * Histories *)

Definition step_res cap v l o (x : bs_out) (v' : bstr) (l' : list Z) : Prop :=
  bs_holds cap v' l' /\ (erases o = false -> bs_cterm v' l' \/ (v' = v /\ l' = l /\ x = Threw)).

Lemma keep_makes cap v l o r l' : bs_makes cap r l' ->
  exists v', bs_keep v r = Ok (Returned [], v') /\ step_res cap v l o (Returned []) v' l'.
Proof. intros (v' & -> & H & T). exists v'. split; [reflexivity|]. split; auto. Qed.

Lemma keep_throws cap v l o : bs_holds cap v l ->
  exists v', bs_keep v Throw = Ok (Threw, v') /\ step_res cap v l o Threw v' l.
Proof. intros H. exists v. split; [reflexivity|]. split; auto. Qed.

Lemma add_char_eq cap (l : list Z) (c : Z) :
  add_chars cap l [c] = if (length l <? cap)%nat then (Returned [], l ++ [c]) else (Threw, l).
Proof.
  unfold add_chars. cbn [length].
  destruct (Nat.ltb_spec (length l) cap); [rewrite (proj2 (Nat.leb_le _ _)) by lia | rewrite (proj2 (Nat.leb_gt _ _)) by lia]; reflexivity.
Qed.

Lemma step_push cap v l c o : bs_holds cap v l ->
  exists v', bs_keep v (bs_push_back v c) = Ok (fst (add_chars cap l [c]), v') /\
    step_res cap v l o (fst (add_chars cap l [c])) v' (snd (add_chars cap l [c])).
Proof.
  intros H. rewrite add_char_eq. destruct (Nat.ltb_spec (length l) cap); cbn [fst snd].
  - apply keep_makes. now apply push_ok.
  - destruct H as (H & HL). rewrite (push_full cap v l c H) by lia. apply keep_throws. now split.
Qed.

Lemma step_append cap v l xs o : bs_holds cap v l -> Z.of_nat (length xs) < 2 ^ 63 ->
  exists v', bs_keep v (bs_append v xs) = Ok (fst (add_chars cap l xs), v') /\
    step_res cap v l o (fst (add_chars cap l xs)) v' (snd (add_chars cap l xs)).
Proof.
  intros H HX. unfold add_chars. destruct (Nat.leb_spec (length l + length xs) cap); cbn [fst snd].
  - apply keep_makes. now apply append_ok.
  - rewrite (append_throws cap v l xs (proj1 H)) by lia. now apply keep_throws.
Qed.

Lemma step_ok dbg cap v l o : bs_holds cap v l -> allowed dbg cap l o ->
  exists v', bs_step dbg v o = Ok (fst (text_step cap l o), v') /\
    step_res cap v l o (fst (text_step cap l o)) v' (snd (text_step cap l o)).
Proof.
  intros HH HA. pose proof HH as (H & HL). pose proof H as (F & _ & B & _).
  destruct o as [c | c | xs | t pos count | n | | | p | f e | index count]; cbn [bs_step text_step allowed] in *.
  - now apply step_push.
  - rewrite (append_char_ok cap v l c H HL). now apply step_push.
  - now apply step_append.
  - destruct HA as (HT & HP & HC). rewrite append_sub_eq by lia.
    destruct (Z.leb_spec pos (Z.of_nat (length t))).
    + apply step_append; [exact HH|]. rewrite firstn_length, skipn_length. lia.
    + cbn [fst snd]. now apply keep_throws.
  - destruct (Z.leb_spec n (Z.of_nat (length l))); cbn [fst snd].
    + apply keep_makes. apply remove_suffix_ok; [exact HH | lia].
    + rewrite (remove_suffix_throws cap v l n H) by lia. now apply keep_throws.
  - cbn [fst snd]. apply keep_makes. exact (clear_ok cap v l H).
  - destruct (rev l) as [|c r] eqn:RL.
    + exfalso. apply HA. apply (f_equal (@rev Z)) in RL. now rewrite rev_involutive in RL.
    + apply (f_equal (@rev Z)) in RL. rewrite rev_involutive in RL. cbn [rev] in RL.
      rewrite RL in H. destruct (pop_ok cap v (rev r) c H) as (v' & E & R & T).
      rewrite E. cbn [bind fst snd]. exists v'. split; [reflexivity|]. split; auto.
  - rewrite F, Z.add_0_l. destruct (erase_at_ok cap v l p H HA) as (v' & E & R).
    rewrite E. cbn [bind fst snd]. exists v'. split; [reflexivity|]. split; [|discriminate].
    split; [exact R|]. rewrite range_len by lia. lia.
  - rewrite F, !Z.add_0_l. destruct (erase_range_ok cap dbg v l f e HH HA) as (v' & E & R).
    rewrite E. cbn [bind fst snd]. exists v'. split; [reflexivity|]. split; [exact R | discriminate].
  - destruct HA as (HI & HC & HR). destruct (erase_index_ok cap dbg v l index count HH HI HC HR) as (v' & E & R).
    rewrite E. cbn [bind fst snd]. exists v'. split; [reflexivity|]. split; [exact R | discriminate].
Qed.

Lemma run_ok dbg cap os : forall v l, bs_holds cap v l -> all_allowed dbg cap l os ->
  exists v', bs_run dbg v os = Ok (fst (text_run cap l os), v') /\ bs_holds cap v' (snd (text_run cap l os)) /\
    (forallb (fun o => negb (erases o)) os = true -> bs_cterm v l -> bs_cterm v' (snd (text_run cap l os))).
Proof.
  induction os as [|o os IH]; intros v l H HA.
  - exists v. cbn. auto.
  - inversion HA as [|l0 o0 os0 A1 A2]; subst. cbn [bs_run text_run].
    destruct (step_ok dbg cap v l o H A1) as (v1 & E1 & R1 & T1). rewrite E1. cbn [bind].
    destruct (text_step cap l o) as (x & l1). cbn [fst snd] in *.
    destruct (IH v1 l1 R1 A2) as (v2 & E2 & R2 & T2). rewrite E2. cbn [bind].
    destruct (text_run cap l1 os) as (xs & l2). cbn [fst snd] in *.
    exists v2. split; [reflexivity|]. split; [exact R2|].
    cbn [forallb]. intros HF HT. apply andb_true_iff in HF. destruct HF as (HF1 & HF2).
    apply T2; [exact HF2|]. destruct (T1 ltac:(now destruct (erases o))) as [G | (-> & -> & _)]; assumption.
Qed.

Lemma last_ok dbg cap v l o : bs_holds cap v l -> allowed dbg cap l o -> erases o = false ->
  fst (text_step cap l o) <> Threw ->
  exists x v', bs_step dbg v o = Ok (x, v') /\ bs_cterm v' (snd (text_step cap l o)).
Proof.
  intros H HA HE HT. destruct (step_ok dbg cap v l o H HA) as (v1 & E1 & R1 & T1).
  exists (fst (text_step cap l o)), v1. split; [exact E1|].
  destruct (T1 HE) as [G | (_ & _ & G)]; [exact G | contradiction].
Qed.

(** * What erase leaves behind *)

Lemma shift_one (tail : list Z) : forall pre c post i,
  i = Z.of_nat (length pre) ->
  b_shift (pre ++ c :: tail ++ post) i (i + 1) (length tail) = Ok (pre ++ tail ++ c :: post).
Proof.
  induction tail as [|t tail IH]; intros pre c post i Ei; [reflexivity|].
  cbn [length b_shift app].
  rewrite (get_mid pre c (t :: tail ++ post) i Ei). cbn [bind].
  assert (E1 : pre ++ c :: t :: tail ++ post = (pre ++ [c]) ++ t :: tail ++ post) by (now rewrite <- app_assoc).
  rewrite E1 at 1. rewrite (get_mid (pre ++ [c]) t (tail ++ post)) by (rewrite app_length; cbn [length]; lia).
  cbn [bind]. rewrite (put_mid pre c t (t :: tail ++ post) i Ei). cbn [bind].
  assert (E2 : pre ++ t :: t :: tail ++ post = (pre ++ [t]) ++ t :: tail ++ post) by (now rewrite <- app_assoc).
  rewrite E2 at 1. rewrite (put_mid (pre ++ [t]) t c (tail ++ post)) by (rewrite app_length; cbn [length]; lia).
  cbn [bind]. rewrite (IH (pre ++ [t]) c post (i + 1)) by (rewrite app_length; cbn [length]; lia).
  now rewrite <- !app_assoc.
Qed.

Lemma resize_keeps v n v' : b_resize 0 v n = Ok v' -> n <= b_size v -> bstack v' = bstack v /\ bfirst v' = bfirst v.
Proof.
  unfold b_resize. intros E HN. destruct (b_capacity v <? n); [discriminate|].
  replace (b_size v <? n) with false in E by (symmetry; apply Z.ltb_ge; lia).
  cbn [bind] in E. assert (E1 : v' = {| bindex := n; bfirst := bfirst v; bstack := bstack v |}) by congruence.
  rewrite E1. auto.
Qed.

Lemma erase_leaves cap v pre c post : bs_rep cap v (pre ++ c :: post) ->
  exists r v' rest, bs_erase_at v (Z.of_nat (length pre)) = Ok (r, v') /\ bs_rep cap v' (pre ++ post) /\
    bs_mem v' = pre ++ post ++ c :: rest.
Proof.
  intros H.
  assert (HL : (length pre < length (pre ++ c :: post))%nat) by (rewrite app_length; cbn [length]; lia).
  destruct (erase_at_ok cap v _ _ H HL) as (v' & E & R).
  rewrite firstn_app, Nat.sub_diag, firstn_all, firstn_O, app_nil_r in R.
  replace (skipn (S (length pre)) (pre ++ c :: post)) with post in R.
  2:{ rewrite skipn_app, skipn_all2 by lia. replace (S (length pre) - length pre)%nat with 1%nat by lia. reflexivity. }
  pose proof H as (F & Ix & B & rest & St & L).
  exists (if (S (length pre) =? length (pre ++ c :: post))%nat then Z.of_nat (length pre) else Z.of_nat (length pre) + 1), v', rest.
  split; [exact E|]. split; [exact R|].
  pose proof R as (F' & _). unfold bs_mem. rewrite F'. cbn [Z.to_nat skipn].
  unfold bs_erase_at, b_erase in E. unfold b_next in E.
  rewrite (bcap _ _ _ H), Ix in E. rewrite app_length in E, L, Ix, HL. cbn [length] in E, L, Ix, HL.
  replace ((0 <=? Z.of_nat (length pre) + 1) && (Z.of_nat (length pre) + 1 <=? Z.of_nat (S cap))) with true in E.
  2:{ symmetry. apply andb_true_iff. split; apply Z.leb_le; lia. }
  cbn [bind] in E.
  replace (Z.of_nat (length pre + S (length post)) <? Z.of_nat (length pre) + 1) with false in E by (symmetry; apply Z.ltb_ge; lia).
  replace (Z.to_nat (Z.of_nat (length pre + S (length post)) - (Z.of_nat (length pre) + 1))) with (length post) in E by lia.
  rewrite St, <- app_assoc in E. cbn [app] in E.
  rewrite (shift_one post pre c rest _ eq_refl) in E. cbn [bind] in E.
  rewrite (bsize _ _ _ H) in E. rewrite app_length in E. cbn [length] in E.
  rewrite sz_id in E by lia.
  destruct (b_resize 0 _ _) as [w | | |] eqn:ER in E; cbn [bind] in E; try discriminate E.
  assert (v' = w).
  { match type of E with (if ?b then _ else _) = _ => destruct b end; [congruence|].
    match type of E with context [if ?b then Ok _ else UB] => destruct b end; cbn [bind] in E; congruence. }
  subst w. apply resize_keeps in ER.
  - destruct ER as (ER & _). cbn [bstack] in ER. rewrite ER. reflexivity.
  - unfold b_size. cbn [bindex bfirst]. rewrite F, Z.sub_0_r, sz_id by lia. lia.
Qed.

(** * Construction *)

Lemma ptr_ok cap mem count : Z.of_nat (S cap) < 2 ^ 63 -> 0 <= count -> Z.min count (Z.of_nat (S cap)) <= Z.of_nat (length mem) ->
  exists v, bs_ptr cap mem count = Ok v /\ bs_rep cap v (firstn (Z.to_nat (Z.min count (Z.of_nat (S cap)))) mem).
Proof. intros B HC HM. exact (bfrom_ptr 0 (S cap) mem count B HC HM). Qed.

Lemma ptr_stack cap s b : (length s <= S cap)%nat ->
  bs_ptr cap (s ++ b) (Z.of_nat (length s)) =
    Ok {| bindex := Z.of_nat (length s); bfirst := 0; bstack := s ++ repeat 0 (S cap - length s) |}.
Proof.
  intros HL. unfold bs_ptr, b_from_ptr. rewrite Z.min_l by lia.
  replace (Z.of_nat (length (s ++ b)) <? Z.of_nat (length s)) with false
    by (symmetry; apply Z.ltb_ge; rewrite app_length; lia).
  rewrite Nat2Z.id, firstn_app, firstn_all, Nat.sub_diag, firstn_O, app_nil_r.
  assert (E : repeat 0 (S cap) = [] ++ repeat 0 (length s) ++ repeat 0 (S cap - length s)).
  { cbn [app]. rewrite <- repeat_app. f_equal. lia. }
  rewrite E, (b_store_mid s [] (repeat 0 (length s)) _ 0 eq_refl) by (now rewrite repeat_length).
  reflexivity.
Qed.

Lemma ptr_fits cap s b : Z.of_nat (S cap) < 2 ^ 63 -> (length s <= cap)%nat ->
  bs_makes cap (bs_ptr cap (s ++ b) (Z.of_nat (length s))) s.
Proof.
  intros B HL. rewrite ptr_stack by lia. eexists; split; [reflexivity|]. split.
  - split; [|exact HL]. split; [reflexivity|]. split; [reflexivity|]. split; [exact B|].
    exists (repeat 0 (S cap - length s)). cbn [bstack]. split; [reflexivity|]. rewrite repeat_length. lia.
  - exists (repeat 0 (cap - length s)). unfold bs_mem. cbn [bfirst bstack Z.to_nat skipn].
    replace (S cap - length s)%nat with (S (cap - length s)) by lia. reflexivity.
Qed.

(** More than [cap] characters: [cap] + 1 are kept, and nothing follows them. *)
Lemma ptr_over cap mem count : Z.of_nat (S cap) < 2 ^ 63 -> Z.of_nat cap < count -> (cap < length mem)%nat ->
  exists v, bs_ptr cap mem count = Ok v /\ bs_rep cap v (firstn (S cap) mem) /\ bs_mem v = firstn (S cap) mem.
Proof.
  intros B HC HM. destruct (ptr_ok cap mem count B) as (v & E & R); [lia | lia |].
  rewrite Z.min_r, Nat2Z.id in R by lia. exists v. split; [exact E|]. split; [exact R|].
  destruct (rep_mem _ _ _ R) as (rest & EM & L). rewrite firstn_length in L.
  destruct rest; [|cbn [length] in L; lia]. now rewrite app_nil_r in EM.
Qed.

Lemma strlen_ok s b : Forall (fun c => c <> 0) s -> Z.of_nat (length (s ++ 0 :: b)) < 2 ^ 63 ->
  sv_strlen (Some (s ++ 0 :: b)) 0 = Ok (Z.of_nat (length s)).
Proof.
  intros HF HB. unfold sv_strlen.
  assert (HD : hold (Some (s ++ 0 :: b)) 0 (s ++ [0])).
  { unfold hold. exists [], b. split; [|reflexivity]. cbn [app]. now rewrite <- app_assoc. }
  rewrite (strlen_loop_ok _ _ s _ 0 HD HF) by (rewrite app_length; cbn [length]; lia).
  rewrite app_length in HB. cbn [length] in HB. f_equal. rewrite sz_id; lia.
Qed.

Lemma cstr_eq cap s b : Forall (fun c => c <> 0) s -> Z.of_nat (length (s ++ 0 :: b)) < 2 ^ 63 ->
  bs_cstr cap (s ++ 0 :: b) = bs_ptr cap (s ++ 0 :: b) (Z.of_nat (length s)).
Proof. intros HF HB. unfold bs_cstr. rewrite (strlen_ok s b HF HB). reflexivity. Qed.

Lemma other_ok cap n str l count : bs_rep n str l -> (length l <= n)%nat -> Z.of_nat (S cap) < 2 ^ 63 ->
  0 <= count <= Z.of_nat (length l) -> count <= Z.of_nat cap ->
  bs_makes cap (bs_other cap n str count) (firstn (Z.to_nat count) l).
Proof.
  intros H HL B HC HCap. destruct (rep_mem _ _ _ H) as (rest & E & _).
  unfold bs_other. rewrite E, Z.min_l by lia.
  replace (l ++ rest) with (firstn (Z.to_nat count) l ++ (skipn (Z.to_nat count) l ++ rest)).
  2:{ now rewrite app_assoc, firstn_skipn. }
  assert (EL : length (firstn (Z.to_nat count) l) = Z.to_nat count) by (rewrite firstn_length; lia).
  replace count with (Z.of_nat (length (firstn (Z.to_nat count) l))) at 3 by (rewrite EL; lia).
  apply ptr_fits; [exact B | rewrite EL; lia].
Qed.

(** A count beyond the characters copies what lies behind them. *)
Lemma other_stale cap n str l rest : bs_rep n str l -> (length l <= n)%nat -> bs_mem str = l ++ rest ->
  Z.of_nat (S cap) < 2 ^ 63 -> (n <= cap)%nat ->
  bs_makes cap (bs_other cap n str npos) (firstn n (l ++ rest)).
Proof.
  intros H HL E B HC. pose proof H as (_ & _ & Bn & _).
  destruct (rep_mem _ _ _ H) as (rest' & E' & L').
  assert (LR : length (l ++ rest) = S n) by (rewrite <- E, E', app_length; lia).
  unfold bs_other. rewrite E, npos_val, Z.min_r by lia.
  rewrite <- (firstn_skipn n (l ++ rest)) at 1.
  assert (EL : length (firstn n (l ++ rest)) = n) by (rewrite firstn_length; lia).
  pose proof (ptr_fits cap (firstn n (l ++ rest)) (skipn n (l ++ rest)) B) as P. rewrite EL in P. apply P. exact HC.
Qed.

Lemma convert_ok cap n str l : bs_rep n str l -> Z.of_nat (S cap) < 2 ^ 63 -> (length l <= cap)%nat ->
  bs_makes cap (bs_convert cap str) l.
Proof.
  intros H B HL. destruct (rep_mem _ _ _ H) as (rest & E & _).
  unfold bs_convert. rewrite E, (rep_size _ _ _ H : b_size str = _). now apply ptr_fits.
Qed.

Lemma convert_over cap n str l : bs_rep n str l -> Z.of_nat (S cap) < 2 ^ 63 -> (cap < length l)%nat ->
  exists v, bs_convert cap str = Ok v /\ bs_rep cap v (firstn (S cap) l) /\ bs_mem v = firstn (S cap) l.
Proof.
  intros H B HL. destruct (rep_mem _ _ _ H) as (rest & E & _).
  unfold bs_convert. rewrite E, (rep_size _ _ _ H : b_size str = _).
  destruct (ptr_over cap (l ++ rest) (Z.of_nat (length l)) B) as (v & Ev & R & M); [lia | rewrite app_length; lia |].
  assert (EF : firstn (S cap) (l ++ rest) = firstn (S cap) l).
  { rewrite firstn_app. replace (S cap - length l)%nat with O by lia. now rewrite firstn_O, app_nil_r. }
  rewrite EF in R, M. exists v. auto.
Qed.

(** * substr and copy *)

Lemma skip_app (l rest : list Z) p : (p <= length l)%nat -> skipn p (l ++ rest) = skipn p l ++ rest.
Proof. intros H. rewrite skipn_app. now replace (p - length l)%nat with O by lia. Qed.

Lemma substr_ok cap v l pos count : bs_holds cap v l -> 0 <= pos < Z.of_nat (length l) -> 0 <= count ->
  bs_makes cap (bs_substr v pos count) (firstn (Z.to_nat count) (skipn (Z.to_nat pos) l)).
Proof.
  intros (H & HL) HP HC. pose proof H as (_ & _ & B & _).
  destruct (rep_mem _ _ _ H) as (rest & E & _).
  unfold bs_substr. rewrite (rep_size _ _ _ H), (rep_cap _ _ _ H), Nat2Z.id.
  replace (pos <? Z.of_nat (length l)) with true by (symmetry; apply Z.ltb_lt; lia).
  rewrite sz_id by lia. rewrite E, skip_app by lia.
  set (t := firstn (Z.to_nat count) (skipn (Z.to_nat pos) l)).
  assert (LT : Z.of_nat (length t) = Z.min count (Z.of_nat (length l) - pos)).
  { unfold t. rewrite firstn_length, skipn_length. lia. }
  rewrite <- LT.
  replace (skipn (Z.to_nat pos) l ++ rest) with (t ++ (skipn (Z.to_nat count) (skipn (Z.to_nat pos) l) ++ rest)).
  2:{ unfold t. now rewrite app_assoc, firstn_skipn. }
  apply ptr_fits; [exact B | lia].
Qed.

Lemma substr_throws cap v l pos count : bs_rep cap v l -> Z.of_nat (length l) <= pos -> bs_substr v pos count = Throw.
Proof.
  intros H HP. unfold bs_substr. rewrite (rep_size _ _ _ H).
  now replace (pos <? Z.of_nat (length l)) with false by (symmetry; apply Z.ltb_ge; lia).
Qed.

Lemma copy_ok cap v l dest count pos : bs_rep cap v l -> 0 <= pos < Z.of_nat (length l) -> 0 <= count ->
  let t := firstn (Z.to_nat count) (skipn (Z.to_nat pos) l) in
  (length t <= length dest)%nat ->
  bs_copy v dest count pos = Ok (t ++ skipn (length t) dest, Z.of_nat (length t)).
Proof.
  intros H HP HC t HT. pose proof H as (_ & _ & B & _). pose proof (rep_len _ _ _ H) as HLen.
  destruct (rep_mem _ _ _ H) as (rest & E & _).
  unfold bs_copy. rewrite (rep_size _ _ _ H).
  replace (pos <? Z.of_nat (length l)) with true by (symmetry; apply Z.ltb_lt; lia).
  rewrite sz_id by lia. rewrite E.
  assert (LT : Z.of_nat (length t) = Z.min count (Z.of_nat (length l) - pos)).
  { unfold t. rewrite firstn_length, skipn_length. lia. }
  rewrite <- LT, Nat2Z.id.
  assert (HD : hold (Some (l ++ rest)) pos t).
  { unfold hold. exists (firstn (Z.to_nat pos) l), (skipn (Z.to_nat count) (skipn (Z.to_nat pos) l) ++ rest).
    split; [|rewrite firstn_length; lia].
    unfold t. rewrite (app_assoc (firstn (Z.to_nat count) _)), firstn_skipn, app_assoc, firstn_skipn. reflexivity. }
  pose proof (copy1_loop_ok (Some (l ++ rest)) t pos [] dest HD HT) as CL. cbn [app] in CL.
  change (length []) with O in CL. rewrite CL. reflexivity.
Qed.

Lemma copy_throws cap v l dest count pos : bs_rep cap v l -> Z.of_nat (length l) <= pos -> bs_copy v dest count pos = Throw.
Proof.
  intros H HP. unfold bs_copy. rewrite (rep_size _ _ _ H).
  now replace (pos <? Z.of_nat (length l)) with false by (symmetry; apply Z.ltb_ge; lia).
Qed.

(** * Comparison *)

Lemma compare_view_ok cap v l w t : bs_rep cap v l -> sh w t -> bs_compare_view v w = Ok (lexc l t).
Proof.
  intros H W. destruct (rep_view _ _ _ H) as (x & Ex & X).
  rewrite <- (compare1_ok x w l t X W).
  pose proof (sh_size _ _ X) as SX.
  unfold bs_view, range1 in Ex. destruct (padd _ _ _) as [p | | |] eqn:EP in Ex; cbn [bind] in Ex; try discriminate Ex.
  assert (Ex' : x = V1 (Some (bs_mem v)) 0 p) by congruence.
  unfold bs_compare_view, bs_compare_mem, compare1. rewrite SX, (rep_size _ _ _ H). rewrite Ex'. reflexivity.
Qed.

Lemma compare_ok cap n v w l t : bs_rep cap v l -> bs_rep n w t -> bs_compare v w = Ok (lexc l t).
Proof.
  intros H W. destruct (rep_view _ _ _ W) as (y & Ey & Y).
  rewrite <- (compare_view_ok cap v l y t H Y).
  pose proof (sh_size _ _ Y) as SY.
  unfold bs_view, range1 in Ey. destruct (padd _ _ _) as [p | | |] eqn:EP in Ey; cbn [bind] in Ey; try discriminate Ey.
  assert (Ey' : y = V1 (Some (bs_mem w)) 0 p) by congruence.
  unfold bs_compare, bs_compare_view. rewrite SY, (rep_size _ _ _ W). rewrite Ey'. reflexivity.
Qed.

Lemma compare_cstr_ok cap v l s b : bs_rep cap v l -> Forall (fun c => c <> 0) s -> Z.of_nat (length (s ++ 0 :: b)) < 2 ^ 63 ->
  bs_compare_cstr v (s ++ 0 :: b) = Ok (lexc l s).
Proof.
  intros H HF HB. destruct (cstr1_ok [] s b HF HB) as (w & E & W).
  unfold bs_compare_cstr. cbn [app length] in E. change (Z.of_nat 0) with 0 in E. rewrite E. cbn [bind].
  exact (compare_view_ok cap v l w s H W).
Qed.

(** * The statements of the properties *)

Lemma lexc_iff s t : (lexc s t < 0 <-> lex_lt s t) /\ (lexc s t = 0 <-> s = t) /\ (0 < lexc s t <-> lex_lt t s).
Proof.
  destruct (lexc_spec s t) as [(-> & A)|[(-> & A)|(-> & A)]].
  - split; [split; auto; lia|]. split; [split; [lia|intros ->; destruct (lex_irrefl _ A)]|].
    split; [lia|]. intros B. destruct (lex_irrefl s (lex_trans _ _ _ A B)).
  - subst. split; [split; [lia|intros B; destruct (lex_irrefl _ B)]|]. split; [tauto|].
    split; [lia|]. intros B. destruct (lex_irrefl _ B).
  - split; [split; [lia|]|].
    + intros B. destruct (lex_irrefl s (lex_trans _ _ _ B A)).
    + split; [split; [lia|intros ->; destruct (lex_irrefl _ A)]|]. split; auto; lia.
Qed.

(** The six relations as answers of three-way comparison. *)
Lemma six s t : let c := lexc s t in
  (c =? 0 = true <-> s = t) /\ (negb (c =? 0) = true <-> s <> t) /\ (c <? 0 = true <-> lex_lt s t) /\
  (c <=? 0 = true <-> lex_lt s t \/ s = t) /\ (0 <? c = true <-> lex_lt t s) /\ (0 <=? c = true <-> lex_lt t s \/ s = t).
Proof.
  cbv zeta. destruct (lexc_iff s t) as (A & B & C). rewrite negb_true_iff, Z.eqb_eq, Z.eqb_neq, !Z.ltb_lt, !Z.leb_le.
  rewrite <- A, <- B, <- C. lia.
Qed.

Lemma view_of_list xs : Z.of_nat (length xs) < 2 ^ 63 -> exists w, range1 (Some xs) 0 (Z.of_nat (length xs)) = Ok w /\ sh w xs.
Proof. exact (make_view1_ok xs). Qed.

Lemma bs_search_ok f cap n v w l t pos : bs_rep cap v l -> bs_rep n w t ->
  exists x y, sh x l /\ sh y t /\ bs_search f v w pos = f x y pos.
Proof.
  intros H W. destruct (rep_view _ _ _ H) as (x & Ex & X). destruct (rep_view _ _ _ W) as (y & Ey & Y).
  exists x, y. split; [exact X|]. split; [exact Y|]. unfold bs_search. now rewrite Ex, Ey.
Qed.

Lemma bs_search_ptr_ok f cap v l mem t b pos : bs_rep cap v l -> mem = t ++ b -> (length t <= S cap)%nat ->
  exists x y, sh x l /\ sh y t /\ bs_search_ptr f v mem pos (Z.of_nat (length t)) = f x y pos.
Proof.
  intros H -> HT. pose proof H as (_ & _ & B & _).
  unfold bs_search_ptr. rewrite (rep_cap _ _ _ H), Nat2Z.id, ptr_stack by exact HT. cbn [bind].
  apply (bs_search_ok f cap cap v _ l t pos H).
  split; [reflexivity|]. split; [reflexivity|]. split; [exact B|].
  exists (repeat 0 (S cap - length t)). cbn [bstack]. split; [reflexivity|]. rewrite repeat_length. lia.
Qed.

Lemma bs_search_ptr_over f cap v l mem count pos : bs_rep cap v l -> Z.of_nat cap < count -> (cap < length mem)%nat ->
  exists x y, sh x l /\ sh y (firstn (S cap) mem) /\ bs_search_ptr f v mem pos count = f x y pos.
Proof.
  intros H HC HM. pose proof H as (_ & _ & B & _).
  unfold bs_search_ptr. rewrite (rep_cap _ _ _ H), Nat2Z.id.
  destruct (ptr_over cap mem count B HC HM) as (w & E & R & _). rewrite E. cbn [bind].
  exact (bs_search_ok f cap cap v w l _ pos H R).
Qed.

Lemma c226_start :
  forall cap, Z.of_nat (S cap) < 2 ^ 63 -> bs_holds cap (bs_empty cap) [] /\ bs_cterm (bs_empty cap) [].
Proof.
  intros cap B. split; [split; [exact (bempty 0 (S cap) B) | cbn; lia]|]. exists (repeat 0 cap). reflexivity.
Qed.

Lemma c226_observations :
  forall cap v l, bs_rep cap v l -> bs_shows cap v l.
Proof.
  exact rep_shows.
Qed.

Lemma c226_history :
  forall dbg cap v l os, bs_holds cap v l -> all_allowed dbg cap l os ->
  exists v', bs_run dbg v os = Ok (fst (text_run cap l os), v') /\ bs_holds cap v' (snd (text_run cap l os)).
Proof.
  intros dbg cap v l os H A. destruct (run_ok dbg cap os v l H A) as (v' & E & R & _). exists v'. auto.
Qed.

Lemma c226_remove_suffix_refuted :
  (forall cap v l k, bs_holds cap v l -> (length l + S k <= cap)%nat ->
     bs_makes cap (bs_remove_suffix v (2 ^ 64 - Z.of_nat (S k))) (l ++ repeat 0 (S k))) /\
  (forall cap v l, bs_rep cap v l -> length l = cap -> bs_remove_suffix v npos = UB).
Proof.
  split; [exact remove_suffix_grows | exact remove_suffix_full].
Qed.

Lemma c226_pop_back_refuted :
  forall cap v, bs_rep cap v [] -> bs_pop_back v = UB.
Proof.
  exact pop_empty.
Qed.

Lemma c227_terminated :
  forall dbg cap v l os, bs_holds cap v l -> bs_cterm v l -> all_allowed dbg cap l os ->
  forallb (fun o => negb (erases o)) os = true ->
  exists xs v', bs_run dbg v os = Ok (xs, v') /\ bs_cterm v' (snd (text_run cap l os)).
Proof.
  intros dbg cap v l os H T A F. destruct (run_ok dbg cap os v l H A) as (v' & E & R & G).
  exists (fst (text_run cap l os)), v'. auto.
Qed.

Lemma c227_restored :
  forall dbg cap v l o, bs_holds cap v l -> allowed dbg cap l o -> erases o = false ->
  fst (text_step cap l o) <> Threw ->
  exists x v', bs_step dbg v o = Ok (x, v') /\ bs_cterm v' (snd (text_step cap l o)).
Proof.
  exact last_ok.
Qed.

Lemma c227_erase_refuted :
  forall cap v pre c post, bs_holds cap v (pre ++ c :: post) -> c <> 0 ->
  exists r v' rest, bs_erase_at v (Z.of_nat (length pre)) = Ok (r, v') /\ bs_holds cap v' (pre ++ post) /\
    bs_mem v' = (pre ++ post) ++ c :: rest /\ ~ bs_cterm v' (pre ++ post).
Proof.
  intros cap v pre c post (H & HL) HC. destruct (erase_leaves cap v pre c post H) as (r & v' & rest & E & R & M).
  exists r, v', rest. rewrite app_assoc in M. split; [exact E|]. split; [split; [exact R|]|].
  - rewrite app_length in *. cbn [length] in HL. lia.
  - split; [exact M|]. intros (rest' & M'). rewrite M in M'. apply app_inv_head in M'. congruence.
Qed.

Lemma c228_construction :
  forall cap s b, Z.of_nat (S cap) < 2 ^ 63 -> (length s <= cap)%nat ->
  bs_makes cap (bs_ptr cap (s ++ b) (Z.of_nat (length s))) s /\
  bs_makes cap (bs_array cap (s ++ [0])) s /\
  (Forall (fun c => c <> 0) s -> Z.of_nat (length (s ++ 0 :: b)) < 2 ^ 63 -> bs_makes cap (bs_cstr cap (s ++ 0 :: b)) s).
Proof.
  intros cap s b B HL. split; [now apply ptr_fits|]. split.
  - unfold bs_array. rewrite app_length. cbn [length].
    replace (Z.of_nat (length s + 1) - 1) with (Z.of_nat (length s)) by lia. now apply ptr_fits.
  - intros HF HB. rewrite (cstr_eq cap s b HF HB). now apply ptr_fits.
Qed.

Lemma c228_conversion :
  forall cap n str l, bs_holds n str l -> Z.of_nat (S cap) < 2 ^ 63 ->
  ((length l <= cap)%nat -> bs_makes cap (bs_convert cap str) l) /\
  (forall count, 0 <= count <= Z.of_nat (length l) -> count <= Z.of_nat cap ->
     bs_makes cap (bs_other cap n str count) (firstn (Z.to_nat count) l)).
Proof.
  intros cap n str l (H & HL) B. split; [intros; now apply (convert_ok cap n)|].
  intros count HC1 HC2. now apply other_ok.
Qed.

Lemma c228_overlong_refuted :
  forall cap mem count, Z.of_nat (S cap) < 2 ^ 63 -> Z.of_nat cap < count -> (cap < length mem)%nat ->
  exists v, bs_ptr cap mem count = Ok v /\ bs_shows cap v (firstn (S cap) mem) /\
    bs_capacity v < bs_size v /\ bs_mem v = firstn (S cap) mem /\
    (forall c, bs_push_back v c = UB) /\ bs_remove_suffix v 0 = UB /\
    (forall c, bs_append_char v c = Throw) /\
    (forall xs, Z.of_nat (length xs) < 2 ^ 63 -> bs_append v xs = Throw).
Proof.
  intros cap mem count B HC HM. destruct (ptr_over cap mem count B HC HM) as (v & E & R & M).
  assert (LF : length (firstn (S cap) mem) = S cap) by (rewrite firstn_length; lia).
  exists v. split; [exact E|]. split; [now apply rep_shows|].
  split; [rewrite (rep_cap _ _ _ R), (rep_size _ _ _ R); lia|]. split; [exact M|].
  split; [intros c; now apply (push_over cap v _ c R)|]. split.
  { unfold bs_remove_suffix. rewrite (rep_size _ _ _ R : b_size v = _), Z.sub_0_r, sz_id by lia.
    destruct (resize_down cap v _ (length (firstn (S cap) mem)) R) as (v1 & E1 & R1); [lia|].
    rewrite E1. cbn [bind]. apply (term_over cap v1 _ R1). rewrite firstn_length. lia. }
  split; [intros c; now apply (append_char_over cap v _ c R)|].
  intros xs HX. apply (append_throws cap v _ xs R); lia.
Qed.

Lemma c228_overlong_conversion_refuted :
  forall cap n str l, bs_holds n str l -> Z.of_nat (S cap) < 2 ^ 63 -> (cap < length l)%nat ->
  exists v, bs_convert cap str = Ok v /\ bs_shows cap v (firstn (S cap) l) /\ bs_capacity v < bs_size v /\
    bs_mem v = firstn (S cap) l.
Proof.
  intros cap n str l (H & _) B HL. destruct (convert_over cap n str l H B HL) as (v & E & R & M).
  exists v. split; [exact E|]. split; [now apply rep_shows|]. split; [|exact M].
  rewrite (rep_cap _ _ _ R), (rep_size _ _ _ R), firstn_length. lia.
Qed.

Lemma c228_count_refuted :
  forall cap n str l, bs_holds n str l -> Z.of_nat (S cap) < 2 ^ 63 -> (n <= cap)%nat ->
  exists rest, bs_mem str = l ++ rest /\ bs_makes cap (bs_other cap n str npos) (firstn n (l ++ rest)).
Proof.
  intros cap n str l (H & HL) B HN. destruct (rep_mem _ _ _ H) as (rest & E & _).
  exists rest. split; [exact E|]. now apply other_stale.
Qed.

Lemma c228_literal_refuted :
  forall cap s, Z.of_nat (S cap) < 2 ^ 63 -> (length s < cap)%nat ->
  bs_makes cap (bs_make_literal cap (s ++ [0])) (s ++ [0]).
Proof.
  intros cap s B HL. unfold bs_make_literal.
  pose proof (ptr_fits cap (s ++ [0]) [] B) as P. rewrite app_nil_r in P. apply P.
  rewrite app_length. cbn [length]. lia.
Qed.

Lemma c229_substr :
  forall cap v l pos count, bs_holds cap v l -> 0 <= pos < Z.of_nat (length l) -> 0 <= count ->
  bs_makes cap (bs_substr v pos count) (firstn (Z.to_nat count) (skipn (Z.to_nat pos) l)).
Proof.
  exact substr_ok.
Qed.

Lemma c229_copy :
  forall cap v l dest count pos, bs_holds cap v l -> 0 <= pos < Z.of_nat (length l) -> 0 <= count ->
  let t := firstn (Z.to_nat count) (skipn (Z.to_nat pos) l) in
  (length t <= length dest)%nat ->
  bs_copy v dest count pos = Ok (t ++ skipn (length t) dest, Z.of_nat (length t)).
Proof.
  intros cap v l dest count pos (H & _). exact (copy_ok cap v l dest count pos H).
Qed.

Lemma c229_beyond :
  forall cap v l dest count pos, bs_holds cap v l -> Z.of_nat (length l) < pos ->
  bs_substr v pos count = Throw /\ bs_copy v dest count pos = Throw.
Proof.
  intros cap v l dest count pos (H & _) HP. split; [apply (substr_throws cap v l); auto; lia | apply (copy_throws cap v l); auto; lia].
Qed.

Lemma c229_end_refuted :
  forall cap v l dest count, bs_holds cap v l ->
  bs_substr v (Z.of_nat (length l)) count = Throw /\ bs_copy v dest count (Z.of_nat (length l)) = Throw.
Proof.
  intros cap v l dest count (H & _). split; [apply (substr_throws cap v l); auto; lia | apply (copy_throws cap v l); auto; lia].
Qed.

Lemma c230_compare :
  forall cap n v w l t, bs_rep cap v l -> bs_rep n w t ->
  exists r, bs_compare v w = Ok r /\ (r < 0 <-> lex_lt l t) /\ (r = 0 <-> l = t) /\ (0 < r <-> lex_lt t l).
Proof.
  intros cap n v w l t H W. exists (lexc l t). split; [exact (compare_ok cap n v w l t H W) | exact (lexc_iff l t)].
Qed.

Lemma c230_compare_others :
  forall cap v l, bs_rep cap v l ->
  (forall w, valid1 w -> exists r, bs_compare_view v w = Ok r /\
     (r < 0 <-> lex_lt l (chars1 w)) /\ (r = 0 <-> l = chars1 w) /\ (0 < r <-> lex_lt (chars1 w) l)) /\
  (forall s b, Forall (fun c => c <> 0) s -> Z.of_nat (length (s ++ 0 :: b)) < 2 ^ 63 ->
     exists r, bs_compare_cstr v (s ++ 0 :: b) = Ok r /\
     (r < 0 <-> lex_lt l s) /\ (r = 0 <-> l = s) /\ (0 < r <-> lex_lt s l)).
Proof.
  intros cap v l H. split.
  - intros w W. exists (lexc l (chars1 w)). split; [exact (compare_view_ok cap v l w _ H (sh_of w W)) | exact (lexc_iff _ _)].
  - intros s b HF HB. exists (lexc l s). split; [exact (compare_cstr_ok cap v l s b H HF HB) | exact (lexc_iff _ _)].
Qed.

Lemma c230_compare_substrings :
  forall cap n v w l t p1 c1 p2 c2, bs_holds cap v l -> bs_holds n w t ->
  0 <= p1 < Z.of_nat (length l) -> 0 <= c1 -> 0 <= p2 < Z.of_nat (length t) -> 0 <= c2 ->
  let s1 := firstn (Z.to_nat c1) (skipn (Z.to_nat p1) l) in
  let s2 := firstn (Z.to_nat c2) (skipn (Z.to_nat p2) t) in
  (exists r, bs_compare_sub v p1 c1 w = Ok r /\ (r < 0 <-> lex_lt s1 t) /\ (r = 0 <-> s1 = t) /\ (0 < r <-> lex_lt t s1)) /\
  (exists r, bs_compare_subs v p1 c1 w p2 c2 = Ok r /\ (r < 0 <-> lex_lt s1 s2) /\ (r = 0 <-> s1 = s2) /\ (0 < r <-> lex_lt s2 s1)).
Proof.
  intros cap n v w l t p1 c1 p2 c2 H W P1 C1 P2 C2 s1 s2.
  destruct (substr_ok cap v l p1 c1 H P1 C1) as (x & Ex & (X & _) & _).
  destruct (substr_ok n w t p2 c2 W P2 C2) as (y & Ey & (Y & _) & _).
  unfold bs_compare_sub, bs_compare_subs. rewrite Ex, Ey. cbn [bind]. split.
  - exists (lexc s1 t). split; [exact (compare_ok cap n x w s1 t X (proj1 W)) | exact (lexc_iff _ _)].
  - exists (lexc s1 s2). split; [exact (compare_ok cap n x y s1 s2 X Y) | exact (lexc_iff _ _)].
Qed.

Lemma c230_operators :
  forall cap n v w l t, bs_rep cap v l -> bs_rep n w t ->
  exists e ne lt le gt ge, bs_eq v w = Ok e /\ bs_ne v w = Ok ne /\ bs_lt v w = Ok lt /\ bs_le v w = Ok le /\
    bs_gt v w = Ok gt /\ bs_ge v w = Ok ge /\
    (e = true <-> l = t) /\ (ne = true <-> l <> t) /\ (lt = true <-> lex_lt l t) /\
    (le = true <-> lex_lt l t \/ l = t) /\ (gt = true <-> lex_lt t l) /\ (ge = true <-> lex_lt t l \/ l = t).
Proof.
  intros cap n v w l t H W. unfold bs_eq, bs_ne, bs_lt, bs_le, bs_gt, bs_ge.
  rewrite (compare_ok cap n v w l t H W). cbn [bind]. do 6 eexists. do 6 (split; [reflexivity|]). exact (six l t).
Qed.

Lemma c230_view_operators :
  forall cap v l w, bs_rep cap v l -> valid1 w ->
  let t := chars1 w in
  (exists e ne lt le gt ge, bs_eq_view v w = Ok e /\ bs_ne_view v w = Ok ne /\ bs_lt_view v w = Ok lt /\ bs_le_view v w = Ok le /\
    bs_gt_view v w = Ok gt /\ bs_ge_view v w = Ok ge /\
    (e = true <-> l = t) /\ (ne = true <-> l <> t) /\ (lt = true <-> lex_lt l t) /\
    (le = true <-> lex_lt l t \/ l = t) /\ (gt = true <-> lex_lt t l) /\ (ge = true <-> lex_lt t l \/ l = t)) /\
  (exists e ne lt le gt ge, view_eq_bs w v = Ok e /\ view_ne_bs w v = Ok ne /\ view_lt_bs w v = Ok lt /\ view_le_bs w v = Ok le /\
    view_gt_bs w v = Ok gt /\ view_ge_bs w v = Ok ge /\
    (e = true <-> t = l) /\ (ne = true <-> t <> l) /\ (lt = true <-> lex_lt t l) /\
    (le = true <-> lex_lt t l \/ t = l) /\ (gt = true <-> lex_lt l t) /\ (ge = true <-> lex_lt l t \/ t = l)).
Proof.
  intros cap v l w H W t. pose proof (compare_view_ok cap v l w t H (sh_of w W)) as E.
  pose proof (six l t) as S6. cbv zeta in S6.
  unfold bs_eq_view, bs_ne_view, bs_lt_view, bs_le_view, bs_gt_view, bs_ge_view,
    view_eq_bs, view_ne_bs, view_lt_bs, view_le_bs, view_gt_bs, view_ge_bs.
  rewrite E. cbn [bind]. split; do 6 eexists; do 6 (split; [reflexivity|]); [exact S6|].
  assert (EQ : t = l <-> l = t) by (split; congruence). rewrite EQ. tauto.
Qed.

Lemma c230_c_strings :
  forall cap v l s b, bs_rep cap v l -> Forall (fun c => c <> 0) s -> Z.of_nat (length (s ++ 0 :: b)) < 2 ^ 63 ->
  (exists e, bs_eq_cstr v (s ++ 0 :: b) = Ok e /\ (e = true <-> l = s)) /\
  (exists e, cstr_eq_bs (s ++ 0 :: b) v = Ok e /\ (e = true <-> s = l)) /\
  (exists e, array_ne_bs (s ++ 0 :: b) v = Ok e /\ (e = true <-> s <> l)).
Proof.
  intros cap v l s b H HF HB. destruct (rep_view _ _ _ H) as (x & Ex & X).
  destruct (cstr1_ok [] s b HF HB) as (y & Ey & Y). cbn [app length] in Ey. change (Z.of_nat 0) with 0 in Ey.
  unfold bs_eq_cstr, cstr_eq_bs, array_ne_bs. rewrite Ex, Ey. cbn [bind].
  destruct (rel_ops1 x y l s X Y) as (e & _ & _ & _ & _ & _ & E1 & _ & _ & _ & _ & _ & I1 & _).
  destruct (rel_ops1 y x s l Y X) as (e2 & n2 & _ & _ & _ & _ & E2 & N2 & _ & _ & _ & _ & I2 & J2 & _).
  split; [exists e; auto|]. split; [exists e2; auto | exists n2; auto].
Qed.

Lemma c230_array_refuted :
  forall cap v s t, Forall (fun c => c <> 0) s -> bs_rep cap v (s ++ 0 :: t) -> Z.of_nat (length (s ++ 0 :: t)) < 2 ^ 62 ->
  array_eq_bs ((s ++ 0 :: t) ++ [0]) v = Ok true /\ array_ne_bs ((s ++ 0 :: t) ++ [0]) v = Ok true.
Proof.
  intros cap v s t HF H HB. destruct (rep_view _ _ _ H) as (x & Ex & X).
  assert (HB2 : Z.of_nat (length (s ++ 0 :: t ++ [0])) < 2 ^ 63).
  { rewrite app_length in *. cbn [length] in *. rewrite app_length. cbn [length]. lia. }
  destruct (cstr1_ok [] s (t ++ [0]) HF HB2) as (y & Ey & Y). cbn [app length] in Ey. change (Z.of_nat 0) with 0 in Ey.
  destruct (range1_ok (Some ((s ++ 0 :: t) ++ [0])) [] (s ++ 0 :: t) [0] eq_refl) as (z & Ez & ZZ).
  { cbn [app]. rewrite <- app_assoc. exact HB2. }
  change (Z.of_nat (length [])) with 0 in Ez.
  split.
  - unfold array_eq_bs. rewrite (app_length (s ++ 0 :: t)). cbn [length].
    replace (Z.of_nat (length (s ++ 0 :: t) + 1) - 1) with (Z.of_nat (length (s ++ 0 :: t))) by lia.
    rewrite Ez, Ex. cbn [bind].
    destruct (rel_ops1 z x _ _ ZZ X) as (e & _ & _ & _ & _ & _ & E1 & _ & _ & _ & _ & _ & I1 & _).
    rewrite E1. f_equal. now apply I1.
  - unfold array_ne_bs. rewrite <- app_assoc. cbn [app]. rewrite Ey, Ex. cbn [bind].
    destruct (rel_ops1 y x _ _ Y X) as (_ & n2 & _ & _ & _ & _ & _ & N2 & _ & _ & _ & _ & _ & J2 & _).
    rewrite N2. f_equal. apply J2. intros EQ. apply (f_equal (@length Z)) in EQ. rewrite app_length in EQ. cbn [length] in EQ. lia.
Qed.

Lemma c231_find_partial :
  forall cap n v w l t pos, bs_rep cap v l -> bs_rep n w t -> 0 <= pos <= Z.of_nat (length l) ->
  exists r, bs_find v w pos = Ok r /\ first_where (fun i => pos <= Z.of_nat i /\ occurs l t i) r.
Proof.
  intros cap n v w l t pos H W HP. destruct (bs_search_ok find1 cap n v w l t pos H W) as (x & y & X & Y & E).
  unfold bs_find. rewrite E. now apply find1_ok.
Qed.

Lemma c231_rfind :
  forall cap n v w l t pos, bs_rep cap v l -> bs_rep n w t -> 0 <= pos ->
  exists r, bs_rfind v w pos = Ok r /\ last_where (fun i => Z.of_nat i <= pos /\ occurs l t i) r.
Proof.
  intros cap n v w l t pos H W HP. destruct (bs_search_ok rfind1 cap n v w l t pos H W) as (x & y & X & Y & E).
  unfold bs_rfind. rewrite E. now apply rfind1_ok.
Qed.

Lemma c231_sets :
  forall cap n v w l t pos, bs_rep cap v l -> bs_rep n w t -> 0 <= pos ->
  (exists r, bs_find_first_of v w pos = Ok r /\ first_where (fun i => pos <= Z.of_nat i /\ char_is l (fun c => In c t) i) r) /\
  (exists r, bs_find_first_not_of v w pos = Ok r /\ first_where (fun i => pos <= Z.of_nat i /\ char_is l (fun c => ~ In c t) i) r) /\
  (exists r, bs_find_last_of v w pos = Ok r /\ last_where (fun i => Z.of_nat i <= pos /\ char_is l (fun c => In c t) i) r).
Proof.
  intros cap n v w l t pos H W HP. split; [|split].
  - destruct (bs_search_ok find_first_of1 cap n v w l t pos H W) as (x & y & X & Y & E).
    unfold bs_find_first_of. rewrite E. now apply find_first_of1_ok.
  - destruct (bs_search_ok find_first_not_of1 cap n v w l t pos H W) as (x & y & X & Y & E).
    unfold bs_find_first_not_of. rewrite E. now apply find_first_not_of1_ok.
  - destruct (bs_search_ok find_last_of1 cap n v w l t pos H W) as (x & y & X & Y & E).
    unfold bs_find_last_of. rewrite E. now apply find_last_of1_ok.
Qed.

Lemma c231_predicates :
  forall cap v l want pred pos, bs_rep cap v l -> 0 <= pos ->
  exists r, bs_find_if want v pred pos = Ok r /\ first_where (fun i => pos <= Z.of_nat i /\ char_is l (fun c => pred c = want) i) r.
Proof.
  intros cap v l want pred pos H HP. destruct (rep_view _ _ _ H) as (x & Ex & X).
  unfold bs_find_if. rewrite Ex. cbn [bind]. now apply find_first_if1_ok.
Qed.

Lemma c231_pointers :
  forall cap v l t b pos, bs_rep cap v l -> (length t <= S cap)%nat -> 0 <= pos ->
  let n := Z.of_nat (length t) in
  (pos <= Z.of_nat (length l) ->
     exists r, bs_find_ptr v (t ++ b) pos n = Ok r /\ first_where (fun i => pos <= Z.of_nat i /\ occurs l t i) r) /\
  (exists r, bs_rfind_ptr v (t ++ b) pos n = Ok r /\ last_where (fun i => Z.of_nat i <= pos /\ occurs l t i) r) /\
  (exists r, bs_find_first_of_ptr v (t ++ b) pos n = Ok r /\ first_where (fun i => pos <= Z.of_nat i /\ char_is l (fun c => In c t) i) r) /\
  (exists r, bs_find_first_not_of_ptr v (t ++ b) pos n = Ok r /\ first_where (fun i => pos <= Z.of_nat i /\ char_is l (fun c => ~ In c t) i) r) /\
  (exists r, bs_find_last_of_ptr v (t ++ b) pos n = Ok r /\ last_where (fun i => Z.of_nat i <= pos /\ char_is l (fun c => In c t) i) r).
Proof.
  intros cap v l t b pos H HT HP n. split; [|split; [|split; [|split]]].
  - intros HP2. destruct (bs_search_ptr_ok find1 cap v l _ t b pos H eq_refl HT) as (x & y & X & Y & E).
    unfold bs_find_ptr, n. rewrite E. now apply find1_ok.
  - destruct (bs_search_ptr_ok rfind1 cap v l _ t b pos H eq_refl HT) as (x & y & X & Y & E).
    unfold bs_rfind_ptr, n. rewrite E. now apply rfind1_ok.
  - destruct (bs_search_ptr_ok find_first_of1 cap v l _ t b pos H eq_refl HT) as (x & y & X & Y & E).
    unfold bs_find_first_of_ptr, n. rewrite E. now apply find_first_of1_ok.
  - destruct (bs_search_ptr_ok find_first_not_of1 cap v l _ t b pos H eq_refl HT) as (x & y & X & Y & E).
    unfold bs_find_first_not_of_ptr, n. rewrite E. now apply find_first_not_of1_ok.
  - destruct (bs_search_ptr_ok find_last_of1 cap v l _ t b pos H eq_refl HT) as (x & y & X & Y & E).
    unfold bs_find_last_of_ptr, n. rewrite E. now apply find_last_of1_ok.
Qed.

Lemma c231_long_set_refuted :
  forall cap v l mem count pos, bs_rep cap v l -> Z.of_nat cap < count -> (cap < length mem)%nat -> 0 <= pos ->
  let t := firstn (S cap) mem in
  (exists r, bs_find_first_of_ptr v mem pos count = Ok r /\ first_where (fun i => pos <= Z.of_nat i /\ char_is l (fun c => In c t) i) r) /\
  (exists r, bs_find_first_not_of_ptr v mem pos count = Ok r /\ first_where (fun i => pos <= Z.of_nat i /\ char_is l (fun c => ~ In c t) i) r) /\
  (exists r, bs_find_last_of_ptr v mem pos count = Ok r /\ last_where (fun i => Z.of_nat i <= pos /\ char_is l (fun c => In c t) i) r).
Proof.
  intros cap v l mem count pos H HC HM HP t. split; [|split].
  - destruct (bs_search_ptr_over find_first_of1 cap v l mem count pos H HC HM) as (x & y & X & Y & E).
    unfold bs_find_first_of_ptr. rewrite E. now apply find_first_of1_ok.
  - destruct (bs_search_ptr_over find_first_not_of1 cap v l mem count pos H HC HM) as (x & y & X & Y & E).
    unfold bs_find_first_not_of_ptr. rewrite E. now apply find_first_not_of1_ok.
  - destruct (bs_search_ptr_over find_last_of1 cap v l mem count pos H HC HM) as (x & y & X & Y & E).
    unfold bs_find_last_of_ptr. rewrite E. now apply find_last_of1_ok.
Qed.

Lemma c232_full :
  forall cap v l, bs_rep cap v l -> (bs_full v = true <-> length l = cap).
Proof.
  intros cap v l H. rewrite (full_val _ _ _ H). apply Nat.eqb_eq.
Qed.

Lemma c232_has_room_refuted :
  forall cap v l count, bs_rep cap v l -> 0 <= count < 2 ^ 62 ->
  (bs_has_room v count = true <-> Z.of_nat cap <= count + Z.of_nat (length l)).
Proof.
  intros cap v l count H HC. unfold bs_has_room. rewrite sz_id by lia.
  rewrite (bhas_room (S cap) v l (count + 1) H) by lia. rewrite Nat.leb_le. lia.
Qed.

Lemma c232_erase_iterator_refuted :
  forall cap dbg v l p f e, bs_holds cap v l -> (S p < length l)%nat -> range_ok dbg l f e -> (e + (e - f) < length l)%nat ->
  (exists v', bs_erase_at v (Z.of_nat p) = Ok (Z.of_nat (S p), v')) /\
  (exists v', bs_erase_range dbg v (Z.of_nat f) (Z.of_nat e) = Ok (Z.of_nat (S e), v')).
Proof.
  intros cap dbg v l p f e HH HP HR HE. split.
  - destruct (erase_at_ok cap v l p (proj1 HH)) as (v' & E & _); [lia|]. exists v'. rewrite E.
    replace (S p =? length l)%nat with false by (symmetry; apply Nat.eqb_neq; lia). repeat f_equal. lia.
  - destruct (erase_range_ok cap dbg v l f e HH HR) as (v' & E & _). exists v'. rewrite E.
    replace (e + (e - f) =? length l)%nat with false by (symmetry; apply Nat.eqb_neq; lia). repeat f_equal. lia.
Qed.

Lemma c232_erase_all_refuted :
  forall cap v l, bs_rep cap v l -> bs_erase true v 0 npos = Throw.
Proof.
  intros cap v l H. pose proof H as (F & Ix & _). unfold bs_erase. rewrite F, Ix, Z.eqb_refl.
  change (0 + swrap 64 0) with 0. now rewrite (berase_all 0 (S cap) v l H).
Qed.

Lemma c233_starts_ends :
  forall cap n v w l t, bs_rep cap v l -> bs_rep n w t ->
  (exists b, bs_starts_with v w = Ok b /\ (b = true <-> exists r, l = t ++ r)) /\
  (exists b, bs_ends_with v w = Ok b /\ (b = true <-> exists r, l = r ++ t)) /\
  (forall c, exists b, bs_starts_with_char v c = Ok b /\ (b = true <-> exists r, l = c :: r)) /\
  (forall c, exists b, bs_ends_with_char v c = Ok b /\ (b = true <-> exists r, l = r ++ [c])).
Proof.
  intros cap n v w l t H W. destruct (rep_view _ _ _ H) as (x & Ex & X). destruct (rep_view _ _ _ W) as (y & Ey & Y).
  pose proof (rep_shows _ _ _ H) as (_ & _ & _ & _ & _ & Em & _ & Fr & Ba & _).
  split; [|split; [|split]].
  - unfold bs_starts_with. rewrite Ex, Ey. cbn [bind]. now apply starts_with1_ok.
  - unfold bs_ends_with. rewrite Ex, Ey. cbn [bind]. now apply ends_with1_ok.
  - intros c. unfold bs_starts_with_char. destruct (bs_is_empty v) eqn:EV.
    + exists false. split; [reflexivity|]. split; [discriminate|]. intros (r & ->). discriminate (proj1 Em eq_refl).
    + destruct l as [|d l]; [discriminate (proj2 Em eq_refl)|]. rewrite (Fr d l eq_refl). cbn [bind].
      exists (d =? c). split; [reflexivity|]. rewrite Z.eqb_eq. split; [intros ->; now exists l | intros (r & E); congruence].
  - intros c. unfold bs_ends_with_char. destruct (bs_is_empty v) eqn:EV.
    + exists false. split; [reflexivity|]. split; [discriminate|]. intros (r & E).
      assert (E0 : l = []) by (now apply Em). rewrite E0 in E. destruct r; discriminate E.
    + destruct (exists_last (l := l)) as (r & d & E); [intros E; rewrite E in Em; discriminate (proj2 Em eq_refl)|].
      rewrite (Ba d r E). cbn [bind]. exists (d =? c). split; [reflexivity|]. rewrite Z.eqb_eq. split.
      * intros <-. now exists r.
      * intros (r' & E'). rewrite E in E'. apply app_inj_tail in E'. tauto.
Qed.

Lemma c233_starts_ends_c_strings :
  forall cap v l s b, bs_holds cap v l -> Forall (fun c => c <> 0) s -> Z.of_nat (length (s ++ 0 :: b)) < 2 ^ 63 ->
  (exists r, bs_starts_with_cstr v (s ++ 0 :: b) = Ok r /\ (r = true <-> exists t, l = s ++ t)) /\
  (exists r, bs_ends_with_cstr v (s ++ 0 :: b) = Ok r /\ (r = true <-> exists t, l = t ++ s)).
Proof.
  intros cap v l s b (H & HL) HF HB. pose proof H as (_ & _ & B & _). destruct (rep_view _ _ _ H) as (x & Ex & X).
  unfold bs_starts_with_cstr, bs_ends_with_cstr. rewrite (rep_cap _ _ _ H), Nat2Z.id, (cstr_eq cap s b HF HB).
  assert (exists w t, bs_ptr cap (s ++ 0 :: b) (Z.of_nat (length s)) = Ok w /\ bs_rep cap w t /\
    ((exists r, l = t ++ r) <-> (exists r, l = s ++ r)) /\ ((exists r, l = r ++ t) <-> (exists r, l = r ++ s))) as (w & t & E & R & I1 & I2).
  { destruct (Nat.leb_spec (length s) cap) as [C | C].
    - destruct (ptr_fits cap s (0 :: b) B C) as (w & E & (R & _) & _). exists w, s. tauto.
    - destruct (ptr_over cap (s ++ 0 :: b) (Z.of_nat (length s)) B) as (w & E & R & _); [lia | rewrite app_length; lia |].
      exists w, (firstn (S cap) (s ++ 0 :: b)). split; [exact E|]. split; [exact R|].
      assert (LF : length (firstn (S cap) (s ++ 0 :: b)) = S cap) by (rewrite firstn_length, app_length; lia).
      split; split; intros (r & EL); apply (f_equal (@length Z)) in EL; rewrite app_length in EL; lia. }
  rewrite E. cbn [bind]. destruct (rep_view _ _ _ R) as (y & Ey & Y).
  unfold bs_starts_with, bs_ends_with. rewrite Ex, Ey. cbn [bind].
  destruct (starts_with1_ok x y l t X Y) as (b1 & E1 & J1). destruct (ends_with1_ok x y l t X Y) as (b2 & E2 & J2).
  split; [exists b1 | exists b2]; rewrite ?I1 in J1; rewrite ?I2 in J2; auto.
Qed.

Lemma c233_concatenation :
  forall cap v l s b, bs_holds cap v l -> Forall (fun c => c <> 0) s -> Z.of_nat (length (s ++ 0 :: b)) < 2 ^ 62 ->
  ((length s + length l <= cap)%nat ->
     bs_makes cap (cstr_plus_bs cap (s ++ 0 :: b) v) (s ++ l) /\
     bs_makes cap (bs_plus_cstr v (s ++ 0 :: b)) (l ++ s)) /\
  ((cap < length s + length l)%nat ->
     cstr_plus_bs cap (s ++ 0 :: b) v = Throw /\ bs_plus_cstr v (s ++ 0 :: b) = Throw).
Proof.
  intros cap v l s b HH HF HB. pose proof HH as (H & HL). pose proof H as (_ & _ & B & _).
  pose proof (rep_shows _ _ _ H) as (RD & _).
  assert (HB3 : Z.of_nat (length (s ++ 0 :: b)) < 2 ^ 63) by lia.
  assert (HS : Z.of_nat (length s) < 2 ^ 63) by (rewrite app_length in HB; lia).
  destruct (cstr1_ok [] s b HF HB3) as (y & Ey & Y). cbn [app length] in Ey. change (Z.of_nat 0) with 0 in Ey.
  unfold cstr_plus_bs, bs_plus_cstr. rewrite Ey. cbn [bind]. rewrite (to_string1_ok _ _ Y), (cstr_eq cap s b HF HB3), RD. cbn [bind].
  split; intros HC.
  - split.
    + destruct (ptr_fits cap s (0 :: b) B) as (w & E & (R & _) & _); [lia|]. rewrite E. cbn [bind].
      apply append_ok; [split; [exact R | lia] | lia].
    + apply append_ok; [exact HH | lia].
  - split.
    + destruct (Nat.leb_spec (length s) cap) as [C | C].
      * destruct (ptr_fits cap s (0 :: b) B C) as (w & E & (R & _) & _). rewrite E. cbn [bind].
        apply (append_throws cap w s l R); lia.
      * destruct (ptr_over cap (s ++ 0 :: b) (Z.of_nat (length s)) B) as (w & E & R & _); [lia | rewrite app_length; lia |].
        rewrite E. cbn [bind]. apply (append_throws cap w _ l R); [|lia].
        rewrite firstn_length, app_length. lia.
    + apply (append_throws cap v l s H); lia.
Qed.

Lemma c233_std_string :
  forall cap v l s, bs_holds cap v l -> Z.of_nat (length s) < 2 ^ 63 ->
  string_plus_bs s v = Ok (s ++ l) /\
  ((length l + length s <= cap)%nat -> bs_makes cap (bs_plus_string v s) (l ++ s)) /\
  ((cap < length l + length s)%nat -> bs_plus_string v s = Throw).
Proof.
  intros cap v l s HH HS. pose proof HH as (H & HL). pose proof (rep_shows _ _ _ H) as (RD & _).
  unfold string_plus_bs. rewrite RD. split; [reflexivity|].
  split; intros HC; [now apply append_ok | apply (append_throws cap v l s H); lia].
Qed.

Lemma c233_split :
  forall cap v l pred, bs_rep cap v l ->
  exists ps, bs_split v pred = Ok ps /\ Forall valid1 ps /\ pieces (fun c => pred c = true) l (map chars1 ps).
Proof.
  intros cap v l pred H. destruct (rep_view _ _ _ H) as (x & Ex & X). unfold bs_split. rewrite Ex. cbn [bind]. now apply split1_ok.
Qed.
