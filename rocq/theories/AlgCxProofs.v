(** Proofs about daw_algorithm_cx.h. *)
From Coq Require Import Permutation Lia.
From Verif Require Import Common CommonProofs AlgCx SpecAlgCx.

Section Rotate.
  Context {A : Type}.

  Lemma nth_at (P S : list A) (x : A) n : n = length P -> nth_error (P ++ x :: S) n = Some x.
  Proof. intros ->. rewrite nth_error_app2, Nat.sub_diag by lia. reflexivity. Qed.
  Lemma upd_at (P S : list A) (x y : A) n : n = length P -> upd (P ++ x :: S) n y = P ++ y :: S.
  Proof. intros ->. induction P as [|p P IH]; cbn; [reflexivity|]. rewrite IH. reflexivity. Qed.

  (** Swapping two elements of an array. *)
  Lemma swap_mid (P M S : list A) (x y : A) i j :
    i = length P -> j = (length P + 1 + length M)%nat ->
    swap_at (P ++ x :: M ++ y :: S) i j = Ok (P ++ y :: M ++ x :: S) /\
    swap_at (P ++ x :: M ++ y :: S) j i = Ok (P ++ y :: M ++ x :: S).
  Proof.
    intros Hi Hj.
    assert (Ei : forall z w, nth_error (P ++ z :: M ++ w :: S) i = Some z) by (intros; apply nth_at; exact Hi).
    assert (R : forall z w, P ++ z :: M ++ w :: S = (P ++ z :: M) ++ w :: S) by (intros; rewrite <- app_assoc; reflexivity).
    assert (Lj : forall z, j = length (P ++ z :: M)) by (intros z; rewrite app_length; cbn [length]; lia).
    assert (Ej : forall z w, nth_error (P ++ z :: M ++ w :: S) j = Some w) by (intros z w; rewrite R; apply nth_at; apply Lj).
    assert (Ui : forall z w v, upd (P ++ z :: M ++ w :: S) i v = P ++ v :: M ++ w :: S) by (intros; apply upd_at; exact Hi).
    assert (Uj : forall z w v, upd (P ++ z :: M ++ w :: S) j v = P ++ z :: M ++ v :: S)
      by (intros z w v; rewrite !R; apply upd_at; apply Lj).
    unfold swap_at. rewrite !Ei, !Ej, !Ui, !Uj, !Ui. split; reflexivity.
  Qed.

  Lemma rotate_step fuel : forall (P A' C D S : list A) l l' first middle last tmp,
    l = P ++ A' ++ C ++ D ++ S -> l' = P ++ D ++ C ++ A' ++ S ->
    first = length P -> middle = (first + length A')%nat -> tmp = (middle + length C)%nat -> last = (tmp + length D)%nat ->
    (length A' + length C + length D < fuel)%nat -> D <> [] -> (A' = [] -> C = []) ->
    rotate_loop fuel l first middle last tmp = Ok l'.
  Proof.
    induction fuel as [|fuel IH]; intros P A' C D S l l' first middle last tmp -> -> Ef Em Et El Hf HD HA; [lia|].
    cbn [rotate_loop].
    destruct A' as [|a A''].
    - rewrite (HA eq_refl) in *. cbn [length app] in *. replace tmp with first by lia.
      rewrite Nat.eqb_refl. reflexivity.
    - destruct D as [|d D']; [congruence|].
      destruct (Nat.eqb_spec first tmp) as [E|E]; [cbn [length] in *; lia|clear E].
      assert (E : P ++ (a :: A'') ++ C ++ (d :: D') ++ S = P ++ a :: (A'' ++ C) ++ d :: (D' ++ S))
        by (cbn [app]; rewrite <- !app_assoc; reflexivity).
      rewrite E. clear E.
      rewrite (proj1 (swap_mid P (A'' ++ C) (D' ++ S) a d first tmp
        ltac:(lia) ltac:(cbn [length] in *; rewrite app_length; lia))).
      cbn [bind]. cbn [length] in *.
      destruct (Nat.eqb_spec (Datatypes.S tmp) last) as [E|E].
      + destruct D' as [|d' D'']; [|cbn [length] in *; lia].
        apply (IH (P ++ [d]) A'' [] (C ++ [a]) S);
          rewrite ?app_length; cbn [length app] in *; rewrite <- ?app_assoc; cbn [app]; try reflexivity; try lia.
        destruct C; discriminate.
      + assert (HD' : D' <> []) by (intros ->; cbn [length] in *; lia).
        destruct (Nat.eqb_spec (Datatypes.S first) middle) as [E'|E'].
        * destruct A'' as [|a' A'']; [|cbn [length] in *; lia].
          apply (IH (P ++ [d]) (C ++ [a]) [] D' S);
            rewrite ?app_length; cbn [length app] in *; rewrite <- ?app_assoc; cbn [app]; try reflexivity; try lia; auto.
        * destruct A'' as [|a' A'']; [cbn [length] in *; lia|].
          apply (IH (P ++ [d]) (a' :: A'') (C ++ [a]) D' S);
            rewrite ?app_length; cbn [length app] in *; rewrite <- ?app_assoc; cbn [app]; try reflexivity; try lia; auto.
          discriminate.
  Qed.

  Lemma rotate_ok (P X Y S : list A) : (Y = [] -> X = []) ->
    rotate (P ++ X ++ Y ++ S) (length P) (length P + length X) (length P + length X + length Y) =
    Ok (P ++ Y ++ X ++ S).
  Proof.
    intros HY. unfold rotate.
    destruct Y as [|y Y].
    - rewrite (HY eq_refl). cbn [length app]. replace (length P + 0)%nat with (length P) by lia.
      cbn [rotate_loop]. rewrite Nat.eqb_refl. reflexivity.
    - apply (rotate_step _ P X [] (y :: Y) S); cbn [length app]; try reflexivity; try lia; try discriminate.
      rewrite !app_length. cbn [length]. rewrite !app_length. lia.
  Qed.

  (** The end is the middle: the loop runs out of the array. *)
  Lemma rotate_end fuel : forall (l : list A) first middle last tmp,
    (first < tmp)%nat -> (last <= tmp)%nat -> (length l + 1 <= fuel + tmp)%nat -> (length l < fuel + tmp \/ tmp <= length l)%nat ->
    (0 < fuel)%nat -> rotate_loop fuel l first middle last tmp = UB.
  Proof.
    induction fuel as [|fuel IH]; intros l first middle last tmp H1 H2 H3 H4 Hf; [lia|]. cbn [rotate_loop].
    destruct (Nat.eqb_spec first tmp); [lia|].
    destruct (Nat.lt_ge_cases tmp (length l)) as [Hl|Hl].
    - destruct (swap_at_ok l first tmp) as (l' & -> & L & _); [lia|lia|]. cbn [bind].
      destruct (Nat.eqb_spec (S tmp) last); [lia|].
      assert (length l' = length l) by exact L.
      destruct (S first =? middle)%nat; apply IH; lia.
    - unfold swap_at. apply nth_error_None in Hl. rewrite Hl. destruct (nth_error l first); reflexivity.
  Qed.
End Rotate.

Section Nth.
  Context {A : Type} (comp : A -> A -> bool).

  (** Swaps within the range [b, e). *)
  Definition inside (b e : nat) (l l' : list A) : Prop :=
    Permutation l l' /\ length l' = length l /\ firstn b l' = firstn b l /\ skipn e l' = skipn e l.
  Lemma inside_refl b e l : inside b e l l.
  Proof. repeat split; auto. Qed.
  Lemma inside_trans b e l1 l2 l3 : inside b e l1 l2 -> inside b e l2 l3 -> inside b e l1 l3.
  Proof.
    intros (P1 & L1 & F1 & S1) (P2 & L2 & F2 & S2). repeat split; try congruence.
    eapply perm_trans; eassumption.
  Qed.
  Lemma firstn_upd (l : list A) i x b : (b <= i)%nat -> firstn b (upd l i x) = firstn b l.
  Proof.
    revert i b. induction l as [|y l IH]; intros i b H; [reflexivity|].
    destruct b; [reflexivity|]. destruct i; [lia|]. cbn. rewrite IH by lia. reflexivity.
  Qed.
  Lemma skipn_upd (l : list A) i x e : (i < e)%nat -> skipn e (upd l i x) = skipn e l.
  Proof.
    revert i e. induction l as [|y l IH]; intros i e H; [reflexivity|].
    destruct e; [lia|]. destruct i; [reflexivity|]. cbn. apply IH. lia.
  Qed.
  Lemma swap_inside b e l i j : (b <= i < e)%nat -> (b <= j < e)%nat -> (e <= length l)%nat ->
    exists l', swap_at l i j = Ok l' /\ inside b e l l'.
  Proof.
    intros Hi Hj He. destruct (swap_at_ok l i j) as (l' & E & L & P & _); [lia|lia|].
    exists l'. split; [exact E|]. split; [exact P|]. split; [exact L|].
    unfold swap_at in E. destruct (nth_error l i), (nth_error l j); try discriminate.
    injection E as <-. rewrite !firstn_upd, !skipn_upd by lia. split; reflexivity.
  Qed.

  Lemma nth_inner_ok b e n : forall l first mi j,
    (b <= first < e)%nat -> (b <= mi < e)%nat -> (b <= j)%nat -> (j + n <= e)%nat -> (e <= length l)%nat ->
    exists l', nth_inner comp n l first mi j = Ok l' /\ inside b e l l'.
  Proof.
    induction n as [|n IH]; intros l first mi j H1 H2 H3 H4 H5; cbn [nth_inner].
    - exists l. split; [reflexivity|apply inside_refl].
    - unfold rd. destruct (nth_error_ex l j) as [x Ex]; [lia|]. destruct (nth_error_ex l mi) as [m Em]; [lia|].
      rewrite Ex, Em. cbn [bind]. destruct (comp x m).
      + destruct (swap_inside b e l first j) as (l1 & E1 & I1); [lia..|]. rewrite E1. cbn [bind].
        destruct (IH l1 first j (S j)) as (l2 & E2 & I2); try lia.
        { destruct I1 as (_ & L & _). rewrite L. lia. }
        exists l2. split; [exact E2|]. eapply inside_trans; eassumption.
      + apply IH; lia.
  Qed.
  Lemma nth_outer_ok b e n : forall l first,
    (b <= first)%nat -> (first + n <= e)%nat -> (e <= length l)%nat ->
    exists l', nth_outer comp n l first e = Ok l' /\ inside b e l l'.
  Proof.
    induction n as [|n IH]; intros l first H1 H2 H3; cbn [nth_outer].
    - exists l. split; [reflexivity|apply inside_refl].
    - destruct (nth_inner_ok b e (e - S first) l first first (S first)) as (l1 & E1 & I1); [lia..|].
      rewrite E1. cbn [bind].
      destruct (IH l1 (S first)) as (l2 & E2 & I2); try lia.
      { destruct I1 as (_ & L & _). rewrite L. lia. }
      exists l2. split; [exact E2|]. eapply inside_trans; eassumption.
  Qed.
  Lemma nth_element_ok l first nth last : (first <= nth <= last)%nat -> (last <= length l)%nat ->
    exists l', nth_element comp l first nth last = Ok l' /\ inside first last l l'.
  Proof.
    intros H1 H2. unfold nth_element. destruct (first =? last)%nat.
    - exists l. split; [reflexivity|apply inside_refl].
    - apply nth_outer_ok; lia.
  Qed.
  Lemma nth_element_first l first last : nth_element comp l first first last = Ok l.
  Proof. unfold nth_element. rewrite Nat.sub_diag. destruct (first =? last)%nat; reflexivity. Qed.
End Nth.

Section Part.
  Context {A : Type} (p : A -> bool).

  Lemma find_if_not_ok : forall n (l R S : list A) P, l = P ++ R ++ S -> n = length R ->
    exists T F, R = T ++ F /\ Forall (fun x => p x = true) T /\ (forall f F', F = f :: F' -> p f = false) /\
      find_if_not p n l (length P) = Ok (length P + length T)%nat.
  Proof.
    induction n as [|n IH]; intros l R S P Hl Hn.
    - destruct R; [|discriminate]. exists [], []. cbn. rewrite Nat.add_0_r. repeat split; auto. intros f F' E. discriminate.
    - destruct R as [|x R]; [discriminate|]. cbn [length] in Hn. cbn [find_if_not].
      unfold rd. rewrite Hl. cbn [app]. rewrite (nth_at P (R ++ S) x (length P) eq_refl). cbn [bind].
      destruct (p x) eqn:Ep.
      + destruct (IH (P ++ x :: R ++ S) R S (P ++ [x])) as (T & F & E1 & E2 & E3 & E4).
        { rewrite <- app_assoc. reflexivity. } { lia. }
        exists (x :: T), F. rewrite E1. repeat split; auto.
        rewrite app_length in E4. cbn [length] in E4. rewrite Nat.add_1_r in E4. rewrite <- E1, E4.
        f_equal. cbn [length]. lia.
      + exists [], (x :: R). repeat split; auto.
        all: try (cbn; rewrite Nat.add_0_r; reflexivity).
        intros f F' E. injection E as <- _. exact Ep.
  Qed.

  Lemma partition_loop_ok : forall n (R P T F S : list A),
    n = length R -> F <> [] -> Forall (fun x => p x = true) T -> Forall (fun x => p x = false) F ->
    exists F2, partition_loop p n (P ++ T ++ F ++ R ++ S) (length P + length T) (length P + length T + length F) =
        Ok (P ++ (T ++ filter p R) ++ F2 ++ S, (length P + length T + length (filter p R))%nat) /\
      Permutation F2 (F ++ filter (fun x => negb (p x)) R) /\ Forall (fun x => p x = false) F2.
  Proof.
    induction n as [|n IH]; intros R P T F S Hn HF HT HFF; (destruct R as [|x R]; [|try discriminate]); try discriminate.
    - exists F. cbn. rewrite !app_nil_r, Nat.add_0_r. repeat split; auto.
    - cbn [length] in Hn. cbn [partition_loop].
      assert (Ex : nth_error (P ++ T ++ F ++ (x :: R) ++ S) (length P + length T + length F) = Some x).
      { replace (P ++ T ++ F ++ (x :: R) ++ S) with ((P ++ T ++ F) ++ x :: R ++ S) by (rewrite <- !app_assoc; reflexivity).
        apply nth_at. rewrite !app_length. lia. }
      unfold rd. rewrite Ex. cbn [bind filter]. destruct (p x) eqn:Ep; cbn [negb].
      + destruct F as [|f F]; [congruence|].
        assert (E : P ++ T ++ (f :: F) ++ (x :: R) ++ S = (P ++ T) ++ f :: F ++ x :: (R ++ S))
          by (cbn [app]; rewrite <- !app_assoc; reflexivity).
        rewrite E.
        rewrite (proj2 (swap_mid (P ++ T) F (R ++ S) f x (length P + length T)%nat (length P + length T + length (f :: F))%nat
          ltac:(rewrite app_length; lia) ltac:(rewrite app_length; cbn [length]; lia))).
        cbn [bind].
        destruct (IH R P (T ++ [x]) (F ++ [f]) S) as (F2 & E2 & P2 & G2).
        { lia. } { destruct F; discriminate. } { apply Forall_app; auto. }
        { inversion HFF; subst. apply Forall_app; auto. }
        rewrite !app_length in E2. cbn [length] in *.
        exists F2. split; [|split; [|exact G2]].
        * replace (Datatypes.S (length P + length T)) with (length P + (length T + 1))%nat by lia.
          replace (Datatypes.S (length P + length T + Datatypes.S (length F)))
            with (length P + (length T + 1) + (length F + 1))%nat by lia.
          replace ((P ++ T) ++ x :: F ++ f :: R ++ S) with (P ++ (T ++ [x]) ++ (F ++ [f]) ++ R ++ S)
            by (rewrite <- !app_assoc; reflexivity).
          rewrite E2. f_equal. f_equal; [|lia]. rewrite <- !app_assoc. reflexivity.
        * eapply perm_trans; [exact P2|]. apply Permutation_app_tail. symmetry. apply Permutation_cons_append.
      + destruct (IH R P T (F ++ [x]) S) as (F2 & E2 & P2 & G2).
        { lia. } { destruct F; discriminate. } { auto. } { apply Forall_app; auto. }
        rewrite !app_length in E2. cbn [length] in *.
        exists F2. split; [|split; [|exact G2]].
        * replace (Datatypes.S (length P + length T + length F)) with (length P + length T + (length F + 1))%nat by lia.
          replace (P ++ T ++ F ++ (x :: R) ++ S) with (P ++ T ++ (F ++ [x]) ++ R ++ S)
            by (rewrite <- !app_assoc; reflexivity).
          exact E2.
        * eapply perm_trans; [exact P2|]. rewrite <- app_assoc. reflexivity.
  Qed.

  Lemma filter_all (l : list A) : Forall (fun x => p x = true) l -> filter p l = l /\ filter (fun x => negb (p x)) l = [].
  Proof. induction 1 as [|x l Hx H [IH1 IH2]]; cbn; [auto|]. rewrite Hx. cbn. rewrite IH1, IH2. auto. Qed.

  Lemma partition_ok (P R S : list A) :
    exists F, partition p (P ++ R ++ S) (length P) (length P + length R) =
        Ok (P ++ filter p R ++ F ++ S, (length P + length (filter p R))%nat) /\
      Permutation F (filter (fun x => negb (p x)) R) /\ Forall (fun x => p x = false) F.
  Proof.
    unfold partition. replace (length P + length R - length P)%nat with (length R) by lia.
    destruct (find_if_not_ok (length R) (P ++ R ++ S) R S P eq_refl eq_refl) as (T & F & -> & HT & HF & ->).
    cbn [bind]. destruct (filter_all T HT) as [T1 T2]. rewrite !filter_app, T1, T2. cbn [app].
    rewrite (app_length T F). destruct F as [|f F].
    - cbn [length filter]. rewrite !Nat.add_0_r, Nat.eqb_refl. exists []. rewrite !app_nil_r. repeat split; auto.
    - specialize (HF f F eq_refl). cbn [length filter]. rewrite HF. cbn [negb].
      destruct (Nat.eqb_spec (length P + length T) (length P + (length T + Datatypes.S (length F)))); [lia|].
      destruct (partition_loop_ok (length F) F P T [f] S eq_refl) as (F2 & E2 & P2 & G2); auto; try discriminate.
      exists F2. cbn [length app] in E2.
      replace (length P + (length T + Datatypes.S (length F)) - Datatypes.S (length P + length T))%nat with (length F) by lia.
      replace (length P + length T + 1)%nat with (Datatypes.S (length P + length T)) in E2 by lia.
      rewrite <- !app_assoc in *. cbn [app] in *. rewrite E2. rewrite app_length. split; [|split; [exact P2|exact G2]].
      f_equal. f_equal. lia.
  Qed.
End Part.

(** * The statements of the properties *)

Lemma inside_split {A} (P a S l' : list A) : firstn (length P) l' = firstn (length P) (P ++ a ++ S) ->
  length l' = length (P ++ a ++ S) -> skipn (length P + length a) l' = skipn (length P + length a) (P ++ a ++ S) ->
  exists b, l' = P ++ b ++ S /\ length b = length a.
Proof.
  intros F L K. rewrite firstn_app, Nat.sub_diag, firstn_all in F. cbn [firstn] in F. rewrite app_nil_r in F.
  assert (E : skipn (length P + length a) (P ++ a ++ S) = S).
  { rewrite app_assoc, <- app_length, skipn_app, skipn_all, Nat.sub_diag. reflexivity. }
  rewrite E in K. exists (firstn (length a) (skipn (length P) l')). split.
  - rewrite <- F at 1. rewrite <- K. rewrite <- (firstn_skipn (length P) l') at 1. f_equal.
    rewrite <- (firstn_skipn (length a) (skipn (length P) l')) at 1. f_equal.
    generalize (length P) as n. intros n. clear. revert l'. induction n as [|n IH]; intros l'; [reflexivity|]. destruct l'; cbn; [destruct (length a); reflexivity|apply IH].
  - rewrite firstn_length, skipn_length, L, !app_length. lia.
Qed.
Lemma rd_mid {A} (P M : list A) x (S : list A) n : n = (length P + length M)%nat -> rd (P ++ M ++ x :: S) n = Ok x.
Proof. intros ->. unfold rd. rewrite app_assoc, nth_at; [reflexivity|]. rewrite app_length. reflexivity. Qed.
Lemma filter_split {A} (p : A -> bool) l : Permutation l (filter p l ++ filter (fun x => negb (p x)) l).
Proof.
  induction l as [|x l IH]; cbn; [constructor|]. destruct (p x); cbn; [constructor; exact IH|].
  eapply perm_trans; [constructor; exact IH|]. apply Permutation_middle.
Qed.

Lemma c268_rotate_partial :
  forall (T : Type) (before X Y after : list T), (Y = [] -> X = []) ->
  exists l', rotate (before ++ X ++ Y ++ after) (length before) (length before + length X) (length before + length X + length Y) = Ok l' /\
    range_becomes before (X ++ Y) (Y ++ X) after (before ++ X ++ Y ++ after) l'.
Proof.
  intros T P X Y S H. eexists. split; [apply rotate_ok; exact H|]. unfold range_becomes. rewrite <- !app_assoc. repeat split. rewrite !app_length. lia.
Qed.

Lemma c268_rotate_refuted :
  forall (T : Type) (l : list T) first last, (first < last)%nat -> rotate l first last last = UB.
Proof.
  intros T l first last H. apply rotate_end; lia.
Qed.

Lemma c269_nth_element_partial :
  forall (T : Type) (comp : T -> T -> bool) (before a after : list T) n, (n <= length a)%nat ->
  exists b, nth_element comp (before ++ a ++ after) (length before) (length before + n) (length before + length a) = Ok (before ++ b ++ after) /\
    Permutation a b.
Proof.
  intros T comp P a S n Hn.
  destruct (nth_element_ok comp (P ++ a ++ S) (length P) (length P + n) (length P + length a)) as (l' & E & PP & L & F & K); [lia|rewrite !app_length; lia|].
  apply inside_split in F; auto. destruct F as (b & -> & Lb). exists b. split; [exact E|].
  apply Permutation_app_inv_l in PP. apply Permutation_app_inv_r in PP. exact PP.
Qed.

Lemma c269_nth_first_refuted :
  forall (T : Type) (comp : T -> T -> bool) (before after a : list T) x y, In y a -> comp y x = true ->
  nth_element comp (before ++ (x :: a) ++ after) (length before) (length before) (length before + length (x :: a)) = Ok (before ++ (x :: a) ++ after) /\
  ~ nth_selected comp (x :: a) (x :: a) 0.
Proof.
  intros T comp P S a x y I C. split; [apply nth_element_first|]. intros [_ H]. destruct (H x eq_refl) as [_ G]. cbn [skipn] in G. rewrite Forall_forall in G.
  specialize (G y (or_intror I)). congruence.
Qed.

Lemma c269_nth_second_refuted :
  forall (T : Type) (comp : T -> T -> bool) (before after : list T) x y z, comp y x = true -> comp z x = true ->
  nth_element comp (before ++ [x; y; z] ++ after) (length before) (length before + 1) (length before + 3) = Ok (before ++ [z; x; y] ++ after) /\
  ~ nth_selected comp [x; y; z] [z; x; y] 1.
Proof.
  intros T comp P S x y z C1 C2. split.
  - unfold nth_element. destruct (Nat.eqb_spec (length P) (length P + 3)); [lia|]. replace (length P + 1 - length P)%nat with 1%nat by lia. cbn [nth_outer].
    replace (length P + 3 - Datatypes.S (length P))%nat with 2%nat by lia. cbn [nth_inner].
    rewrite (rd_mid P [x] y (z :: S)), (rd_mid P [] x (y :: z :: S)) by (cbn [length]; lia). cbn [bind]. rewrite C1.
    change (P ++ [x; y; z] ++ S) with (P ++ x :: [] ++ y :: z :: S).
    rewrite (proj1 (swap_mid P [] (z :: S) x y (length P) (Datatypes.S (length P)) eq_refl ltac:(cbn [length]; lia))). cbn [bind app].
    rewrite (rd_mid P [y; x] z S), (rd_mid P [y] x (z :: S)) by (cbn [length]; lia). cbn [bind]. rewrite C2.
    change (P ++ y :: x :: z :: S) with (P ++ y :: [x] ++ z :: S).
    rewrite (proj1 (swap_mid P [x] S y z (length P) (Datatypes.S (Datatypes.S (length P))) eq_refl ltac:(cbn [length]; lia))). reflexivity.
  - intros [_ H]. destruct (H x eq_refl) as [_ G]. cbn [skipn] in G. inversion G as [|? ? _ G2]; subst. inversion G2; subst. congruence.
Qed.

Lemma c270_partition :
  forall (T : Type) (p : T -> bool) (before a after : list T),
  exists others, partition p (before ++ a ++ after) (length before) (length before + length a) =
      Ok (before ++ (filter p a ++ others) ++ after, (length before + length (filter p a))%nat) /\
    partitioned p a (filter p a ++ others) (length (filter p a)).
Proof.
  intros T p P R S. destruct (partition_ok p P R S) as (F & E & PF & HF). exists F. split.
  - rewrite E. rewrite <- !app_assoc. reflexivity.
  - split; [|split; [reflexivity|]].
    + eapply perm_trans; [apply (filter_split p)|]. apply Permutation_app_head. symmetry. exact PF.
    + rewrite firstn_app, Nat.sub_diag, firstn_all, skipn_app, Nat.sub_diag, skipn_all. cbn [firstn skipn app]. rewrite app_nil_r. split; [|exact HF].
      apply Forall_forall. intros x I. apply filter_In in I. apply I.
Qed.
