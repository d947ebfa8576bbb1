(** Proofs about memory mapped files. *)
From Coq Require Import Permutation Lia.
From Verif Require Import Common CommonProofs MmapFile SpecMmapFile.
Open Scope Z_scope.

(** * Lists *)
Lemma flat_upd {A B} (f : option A -> list B) (o : list (option A)) i x y : f None = [] -> nth_error o i = Some x ->
  Permutation (flat_map f o) (f x ++ flat_map f (upd o i None)) /\ Permutation (flat_map f (upd o i y)) (f y ++ flat_map f (upd o i None)).
Proof.
  intros N. revert i. induction o as [|z o IH]; intros [|i] E; cbn in E; try discriminate.
  - injection E as ->. cbn. rewrite N. split; reflexivity.
  - cbn [flat_map upd]. destruct (IH i E) as [H1 H2]. split.
    + rewrite H1. rewrite !app_assoc. apply Permutation_app_tail. apply Permutation_app_comm.
    + rewrite H2. rewrite !app_assoc. apply Permutation_app_tail. apply Permutation_app_comm.
Qed.
Lemma mem_in x l : mem x l = true <-> In x l.
Proof.
  induction l as [|y l IH]; cbn; [split; [discriminate|tauto]|]. destruct (Nat.eqb_spec x y) as [->|N]; cbn; [tauto|]. rewrite IH. intuition congruence.
Qed.
Lemma remove1_perm x l r : Permutation l (x :: r) -> Permutation (remove1 x l) r.
Proof.
  intros P. assert (I : In x l) by (apply (Permutation_in x (Permutation_sym P)); left; auto).
  apply (Permutation_cons_inv (a := x)). rewrite <- P. clear P r. induction l as [|y l IH]; [destruct I|]. cbn. destruct (Nat.eqb_spec x y) as [->|N]; [reflexivity|].
  destruct I as [I|I]; [congruence|]. rewrite perm_swap. constructor. apply IH. exact I.
Qed.
Definition sizes (l : list (nat * list Z)) : list (nat * nat) := map (fun m => (fst m, length (snd m))) l.
Lemma find_map_perm a n l r : Permutation (sizes l) ((a, n) :: r) -> NoDup (map fst l) ->
  exists bytes, find_map a l = Some bytes /\ length bytes = n /\ Permutation (sizes (remove_map a l)) r.
Proof.
  intros P ND. assert (I : In (a, n) (sizes l)) by (apply (Permutation_in _ (Permutation_sym P)); left; auto).
  assert (K : exists bytes, find_map a l = Some bytes /\ length bytes = n /\ Permutation ((a, n) :: sizes (remove_map a l)) (sizes l)).
  { clear P r. induction l as [|[b bytes] l IH]; [destruct I|]. cbn in *. inversion ND as [|? ? N1 N2]; subst. destruct (Nat.eqb_spec a b) as [->|N].
    - destruct I as [I|I].
      + injection I as <-. exists bytes. repeat split; reflexivity.
      + exfalso. apply N1. apply in_map_iff in I. destruct I as ([c bs] & E & I). cbn in E. injection E as -> _. apply in_map_iff. exists (b, bs). auto.
    - destruct I as [I|I]; [congruence|]. destruct (IH N2 I) as (bs & E1 & E2 & E3). exists bs. repeat split; auto. cbn [sizes map fst snd]. rewrite perm_swap. constructor. exact E3. }
  destruct K as (bytes & E1 & E2 & E3). exists bytes. repeat split; auto. apply (Permutation_cons_inv (a := (a, n))). rewrite E3. exact P.
Qed.
Lemma find_map_in a l bytes : NoDup (map fst l) -> In (a, bytes) l -> find_map a l = Some bytes.
Proof.
  induction l as [|[b bs] l IH]; intros N I; [destruct I|]. cbn in *. inversion N as [|? ? N1 N2]; subst. destruct I as [I|I].
  - injection I as -> ->. rewrite Nat.eqb_refl. reflexivity.
  - destruct (Nat.eqb_spec a b) as [->|]; [|auto]. exfalso. apply N1. apply in_map_iff. exists (b, bytes). auto.
Qed.
Lemma find_map_some a l bytes : find_map a l = Some bytes -> In (a, bytes) l.
Proof. induction l as [|[b bs] l IH]; cbn; [discriminate|]. destruct (Nat.eqb_spec a b) as [->|]; [intros E; injection E as ->; auto|auto]. Qed.
Lemma remove_map_incl a l x : In x (remove_map a l) -> In x l.
Proof. induction l as [|[b bs] l IH]; cbn; [tauto|]. destruct (Nat.eqb_spec a b); [auto|]. intros [H|H]; auto. Qed.
Lemma remove_map_other a b l : a <> b -> find_map b (remove_map a l) = find_map b l.
Proof.
  intros N. induction l as [|[c bs] l IH]; [reflexivity|]. cbn. destruct (Nat.eqb_spec a c) as [->|M]; cbn.
  - destruct (Nat.eqb_spec b c); [congruence|reflexivity].
  - rewrite IH. reflexivity.
Qed.
Lemma remove_map_nodup a l : NoDup (map fst l) -> NoDup (map fst (remove_map a l)).
Proof.
  induction l as [|[c bs] l IH]; intros N; [constructor|]. cbn in *. inversion N as [|? ? N1 N2]; subst. destruct (a =? c)%nat; [exact N2|]. cbn. constructor; auto.
  intros I. apply N1. apply in_map_iff in I. destruct I as (x & E & I). apply in_map_iff. exists x. split; auto. eapply remove_map_incl; eauto.
Qed.
Lemma remove1_nodup a l : NoDup l -> NoDup (remove1 a l).
Proof.
  induction l as [|c l IH]; intros N; [constructor|]. cbn. inversion N as [|? ? N1 N2]; subst. destruct (a =? c)%nat; [exact N2|]. constructor; auto.
  intros I. apply N1. clear - I. induction l as [|d l IH]; [destruct I|]. cbn in I. destruct (a =? d)%nat; [right; exact I|]. destruct I; [left|right]; auto.
Qed.
Lemma remove1_incl a l x : In x (remove1 a l) -> In x l.
Proof. induction l as [|b l IH]; cbn; [tauto|]. destruct (Nat.eqb_spec a b); [auto|]. intros [H|H]; auto. Qed.

(** * The system *)
(** All numbers are used once. *)
Definition sane (s : sys) : Prop :=
  NoDup (s_fds s) /\ NoDup (map fst (s_maps s)) /\ Forall (fun x => (x < s_next s)%nat) (s_fds s) /\ Forall (fun x => (x < s_next s)%nat) (map fst (s_maps s)).
(** What the system has besides the resources [F] and [M]. *)
Definition has (s : sys) (F : list nat) (M : list (nat * nat)) : Prop := sane s /\ Permutation (s_fds s) F /\ Permutation (mapped s) M.

Lemma cleanup_ok d s F M : has s (file_fds (Some (Some d)) ++ F) (file_maps (Some (Some d)) ++ M) ->
  exists s', cleanup d s = Ok (no_data, s') /\ has s' F M /\ s_next s' = s_next s /\
    (forall a bytes, find_map a (s_maps s) = Some bytes -> (forall n, ~ In (a, n) (file_maps (Some (Some d)))) -> find_map a (s_maps s') = Some bytes).
Proof.
  intros ((N1 & N2 & L1 & L2) & PF & PM). unfold cleanup. cbn [file_fds file_maps] in *.
  assert (S1 : exists s1, match d_ptr d with At a => munmap a (d_size d) s | _ => Ok s end = Ok s1 /\ s_fds s1 = s_fds s /\ s_next s1 = s_next s /\
    Permutation (mapped s1) M /\ NoDup (map fst (s_maps s1)) /\ Forall (fun x => (x < s_next s)%nat) (map fst (s_maps s1)) /\
    (forall a bytes, find_map a (s_maps s) = Some bytes -> (forall n, ~ In (a, n) (match d_ptr d with At a => [(a, d_size d)] | _ => [] end)) -> find_map a (s_maps s1) = Some bytes)).
  { destruct (d_ptr d) as [| |a]; try (exists s; repeat split; auto; fail).
    cbn [app] in PM. destruct (find_map_perm a (d_size d) (s_maps s) M PM N2) as (bytes & E1 & E2 & E3). unfold munmap. rewrite E1, E2, Nat.eqb_refl.
    eexists. split; [reflexivity|]. cbn [s_fds s_next s_maps]. split; [reflexivity|]. split; [reflexivity|]. split; [exact E3|]. split; [apply remove_map_nodup; exact N2|]. split.
    - rewrite Forall_forall in *. intros x I. apply L2. apply in_map_iff in I. destruct I as (y & E & I). apply in_map_iff. exists y. split; auto. eapply remove_map_incl; eauto.
    - intros b bs E H. rewrite remove_map_other; [exact E|]. intros <-. apply (H (d_size d)). left; auto. }
  destruct S1 as (s1 & -> & Ef & En & PM1 & N3 & L3 & K). cbn [bind].
  destruct (d_file d) as [fd|].
  - cbn [app] in PF. unfold close. rewrite Ef. assert (I : mem fd (s_fds s) = true) by (apply mem_in, (Permutation_in fd (Permutation_sym PF)); left; auto).
    rewrite I. cbn [bind]. eexists. split; [reflexivity|]. cbn [s_fds s_next s_maps]. split; [|split; [exact En|exact K]]. split; [|split].
    + split; [apply remove1_nodup; exact N1|]. split; [exact N3|]. cbn [s_fds s_next s_maps]. rewrite En. split; [|exact L3].
      rewrite Forall_forall in *. intros x Ix. apply L1. eapply remove1_incl; eauto.
    + cbn [s_fds]. apply remove1_perm. exact PF.
    + exact PM1.
  - cbn [bind]. exists s1. split; [reflexivity|]. split; [|split; [exact En|exact K]]. split; [|split].
    + split; [rewrite Ef; exact N1|]. split; [exact N3|]. rewrite Ef, En. split; auto.
    + rewrite Ef. exact PF.
    + exact PM1.
Qed.
Lemma reset_ok m s F M : has s (file_fds (Some m) ++ F) (file_maps (Some m) ++ M) ->
  exists m' s', reset m s = Ok (m', s') /\ file_fds (Some m') = [] /\ file_maps (Some m') = [] /\ (m <> None -> m' = Some no_data) /\ has s' F M /\ s_next s' = s_next s /\
    (forall a bytes, find_map a (s_maps s) = Some bytes -> (forall n, ~ In (a, n) (file_maps (Some m))) -> find_map a (s_maps s') = Some bytes).
Proof.
  intros H. destruct m as [d|].
  - destruct (cleanup_ok d s F M H) as (s' & E & H' & En & K). exists (Some no_data), s'. cbn [reset]. rewrite E. repeat split; auto; apply H'.
  - exists None, s. cbn [reset]. cbn [file_fds file_maps app] in H. repeat split; auto; try apply H. congruence.
Qed.
(** What the object holds after an open, and that other mappings stay. *)
Definition good (a : answer) : bool := a_opens a && a_seeks a && negb (length (a_bytes a) =? 0)%nat && a_maps a.
Lemma has_fd s F M : has s F M -> has (Sys (S (s_next s)) (s_next s :: s_fds s) (s_maps s)) (s_next s :: F) M.
Proof.
  intros ((N1 & N2 & L1 & L2) & PF & PM). split; [|split]; cbn [s_fds s_maps].
  - split; [|split; [exact N2|split]]; cbn [s_fds s_maps s_next].
    + constructor; auto. intros I. rewrite Forall_forall in L1. specialize (L1 _ I). lia.
    + constructor; [lia|]. eapply Forall_impl; [|exact L1]. cbn. lia.
    + eapply Forall_impl; [|exact L2]. cbn. lia.
  - constructor. exact PF.
  - exact PM.
Qed.
Lemma has_map s F M bytes : has s F M -> has (Sys (S (s_next s)) (s_fds s) ((s_next s, bytes) :: s_maps s)) F ((s_next s, length bytes) :: M).
Proof.
  intros ((N1 & N2 & L1 & L2) & PF & PM). split; [|split]; cbn [s_fds s_maps].
  - split; [exact N1|split; [|split]]; cbn [s_fds s_maps s_next map fst].
    + constructor; auto. intros I. rewrite Forall_forall in L2. specialize (L2 _ I). lia.
    + eapply Forall_impl; [|exact L1]. cbn. lia.
    + constructor; [lia|]. eapply Forall_impl; [|exact L2]. cbn. lia.
  - exact PF.
  - unfold mapped. cbn [s_maps map fst snd]. constructor. exact PM.
Qed.
Lemma open_ok m a s F M : has s (file_fds (Some m) ++ F) (file_maps (Some m) ++ M) ->
  exists d s', open m a s = Ok (good a, Some d, s') /\ has s' (file_fds (Some (Some d)) ++ F) (file_maps (Some (Some d)) ++ M) /\
    (good a = true -> exists fd ad, d = Fdata (Some fd) (At ad) (length (a_bytes a)) /\ find_map ad (s_maps s') = Some (a_bytes a)) /\
    (good a = false -> d = no_data) /\
    (forall b bytes, find_map b (s_maps s) = Some bytes -> (forall n, ~ In (b, n) (file_maps (Some m))) -> find_map b (s_maps s') = Some bytes).
Proof.
  intros H. unfold open, reset_to. destruct (reset_ok m s F M H) as (m' & s1 & -> & _ & _ & _ & H1 & En & K). cbn [bind fst snd]. unfold good.
  destruct (a_opens a); cbn [negb andb].
  2:{ exists no_data, s1. split; [reflexivity|]. split; [exact H1|]. split; [discriminate|]. split; [reflexivity|exact K]. }
  pose proof (has_fd s1 F M H1) as H2. set (s2 := Sys (S (s_next s1)) (s_next s1 :: s_fds s1) (s_maps s1)) in *.
  assert (FAIL : forall p n, match p with At _ => False | _ => True end ->
    exists s3, reset (Some (Fdata (Some (s_next s1)) p n)) s2 = Ok (Some no_data, s3) /\ has s3 F M /\
      (forall b bytes, find_map b (s_maps s2) = Some bytes -> find_map b (s_maps s3) = Some bytes)).
  { intros p n Hp. destruct (reset_ok (Some (Fdata (Some (s_next s1)) p n)) s2 F M) as (m3 & s3 & E3 & _ & _ & Em & H3 & _ & K3).
    - cbn [file_fds file_maps d_file d_ptr]. destruct p; [exact H2|exact H2|contradiction].
    - exists s3. rewrite E3, Em by discriminate. split; [reflexivity|]. split; [exact H3|]. intros b bytes Eb. apply K3; auto. intros k. cbn [file_maps d_ptr]. destruct p; [auto..|contradiction]. }
  destruct (a_seeks a); cbn [andb].
  2:{ change (-1 <=? 0) with true. cbv iota. destruct (FAIL Null 0%nat Logic.I) as (s3 & -> & H3 & K3). cbn [bind fst snd]. exists no_data, s3.
      split; [reflexivity|]. split; [exact H3|]. split; [discriminate|]. split; [reflexivity|]. intros. apply K3. cbn [s2 s_maps]. auto. }
  destruct (Nat.eqb_spec (length (a_bytes a)) 0) as [E0|N0]; cbn [negb andb].
  { destruct (Z.leb_spec (Z.of_nat (length (a_bytes a))) 0); [|lia]. destruct (FAIL Null 0%nat Logic.I) as (s3 & -> & H3 & K3). cbn [bind fst snd]. exists no_data, s3.
    split; [reflexivity|]. split; [exact H3|]. split; [discriminate|]. split; [reflexivity|]. intros. apply K3. cbn [s2 s_maps]. auto. }
  destruct (Z.leb_spec (Z.of_nat (length (a_bytes a))) 0); [lia|]. rewrite Nat2Z.id. destruct (a_maps a).
  - exists (Fdata (Some (s_next s1)) (At (s_next s2)) (length (a_bytes a))). eexists. split; [reflexivity|].
    split; [exact (has_map s2 _ M (a_bytes a) H2)|]. split; [|split; [discriminate|]].
    + intros _. eexists. eexists. split; [reflexivity|]. cbn [s_maps find_map]. rewrite Nat.eqb_refl. reflexivity.
    + intros b bytes Eb Hb. cbn [s_maps find_map s2 s_next]. specialize (K b bytes Eb Hb).
      destruct (Nat.eqb_spec b (S (s_next s1))) as [->|]; [|exact K]. exfalso. destruct H1 as ((_ & _ & _ & L) & _).
      apply find_map_some in K. rewrite Forall_forall in L. specialize (L (S (s_next s1))). assert (IN : In (S (s_next s1)) (map fst (s_maps s1))) by (apply in_map_iff; exists (S (s_next s1), bytes); auto).
      specialize (L IN). lia.
  - destruct (FAIL Failed (length (a_bytes a)) Logic.I) as (s3 & -> & H3 & K3). cbn [bind fst snd]. exists no_data, s3.
    split; [reflexivity|]. split; [exact H3|]. split; [discriminate|]. split; [reflexivity|]. intros. apply K3. cbn [s2 s_maps]. auto.
Qed.

(** * Programs *)
Definition inv (o : objects) (s : sys) : Prop := has s (owned_fds o) (owned_maps o).
Lemma has_perm s F F' M M' : Permutation F F' -> Permutation M M' -> has s F M -> has s F' M'.
Proof. intros P Q (H & A & B). split; [exact H|]. split; [rewrite A; exact P|rewrite B; exact Q]. Qed.
Lemma inv_at o s i x : nth_error o i = Some x -> inv o s <-> has s (file_fds x ++ owned_fds (upd o i None)) (file_maps x ++ owned_maps (upd o i None)).
Proof.
  intros E. destruct (flat_upd file_fds o i x None eq_refl E) as [A _]. destruct (flat_upd file_maps o i x None eq_refl E) as [B _].
  split; apply has_perm; auto; symmetry; auto.
Qed.
Lemma inv_upd o s i x y : nth_error o i = Some x -> inv (upd o i y) s <-> has s (file_fds y ++ owned_fds (upd o i None)) (file_maps y ++ owned_maps (upd o i None)).
Proof.
  intros E. destruct (flat_upd file_fds o i x y eq_refl E) as [_ A]. destruct (flat_upd file_maps o i x y eq_refl E) as [_ B].
  split; apply has_perm; auto; symmetry; auto.
Qed.
Lemma obj_some o i m : obj o i = Ok m <-> nth_error o i = Some (Some m).
Proof. unfold obj. destruct (nth_error o i) as [[x|]|]; split; intros E; congruence. Qed.
Lemma obj_alive o i : alive o i -> exists m, obj o i = Ok m /\ nth_error o i = Some (Some m).
Proof. intros [m E]. exists m. split; [apply obj_some|]; exact E. Qed.
Lemma lookup_upd {A} (o : list A) i j x y : nth_error o j = Some y -> nth_error (upd o i x) j = Some (if (i =? j)%nat then x else y).
Proof.
  intros E. destruct (Nat.eqb_spec i j) as [->|N].
  - apply nth_error_upd_eq. apply nth_error_Some. congruence.
  - rewrite nth_error_upd_ne by auto. exact E.
Qed.
Lemma upd_twice {A} (o : list A) i x y : upd (upd o i x) i y = upd o i y.
Proof. revert i. induction o as [|z o IH]; intros [|i]; cbn; [reflexivity..|]. rewrite IH. reflexivity. Qed.

(** The mappings of other objects than those that an operation changes stay. *)
Definition keeps (o : objects) (s s' : sys) (P : nat -> Prop) : Prop :=
  forall i d a bytes, ~ P i -> nth_error o i = Some (Some (Some d)) -> d_ptr d = At a -> find_map a (s_maps s) = Some bytes -> find_map a (s_maps s') = Some bytes.
Lemma keeps_same o s P : keeps o s s P.
Proof. intros i d a bytes _ _ _ E. exact E. Qed.
Lemma owned_apart o s i j d a n x : inv o s -> i <> j -> nth_error o i = Some (Some (Some d)) -> d_ptr d = At a -> nth_error o j = Some x -> ~ In (a, n) (file_maps x).
Proof.
  intros H N Ei Ea Ej I. destruct H as ((_ & ND & _ & _) & _ & PM).
  assert (ND' : NoDup (map fst (owned_maps o))).
  { eapply Permutation_NoDup; [apply Permutation_map; exact PM|]. unfold mapped. rewrite map_map. cbn [fst]. rewrite (map_ext _ fst) by reflexivity. exact ND. }
  unfold owned_maps in ND'. destruct (flat_upd file_maps o i _ None eq_refl Ei) as [A _].
  assert (Ej' : nth_error (upd o i None) j = Some x) by (rewrite nth_error_upd_ne by auto; exact Ej).
  destruct (flat_upd file_maps (upd o i None) j _ None eq_refl Ej') as [B _]. rewrite A, B in ND'. cbn [file_maps] in ND'. rewrite Ea in ND'. cbn [app map fst] in ND'.
  inversion ND' as [|? ? N1 _]; subst. apply N1. rewrite map_app. apply in_or_app. left. apply in_map_iff. exists (a, n). auto.
Qed.

Lemma step_ok o s p : inv o s -> proper o p -> exists o' s' z, step o s p = Ok (o', s', z) /\ inv o' s' /\ keeps o s s' (fun i => touches i p).
Proof.
  intros H P. destruct p as [i|i a|i|i|i j|i j|i]; cbn [proper] in P; cbn [step].
  - unfold dead. rewrite P. cbn [bind]. do 3 eexists. split; [reflexivity|]. split; [|apply keeps_same]. apply (inv_upd o s i None (Some None) P). apply (inv_at o s i None P). exact H.
  - destruct (obj_alive o i P) as (m & -> & E). cbn [bind]. pose proof (proj1 (inv_at o s i _ E) H) as H1.
    destruct (open_ok m a s _ _ H1) as (d & s' & -> & H2 & _ & _ & K). cbn [bind fst snd]. do 3 eexists. split; [reflexivity|].
    split; [apply (inv_upd o s' i _ (Some (Some d)) E); exact H2|]. intros k d' b bytes Hk Ek Eb Em. cbn [touches] in Hk. apply K; [exact Em|].
    intros n. apply (owned_apart o s k i d' b n (Some m)); auto.
  - destruct P as [d E]. apply obj_some in E. rewrite E. cbn [bind is_open arrow]. do 3 eexists. split; [reflexivity|]. split; [exact H|apply keeps_same].
  - destruct P as [d E]. apply obj_some in E. rewrite E. cbn [bind size arrow]. do 3 eexists. split; [reflexivity|]. split; [exact H|apply keeps_same].
  - destruct P as [Pi Pj]. destruct (obj_alive o j Pj) as (m & Em & Ej). unfold dead. unfold not_alive in Pi. rewrite Pi, Em. cbn [bind]. do 3 eexists. split; [reflexivity|]. split; [|apply keeps_same].
    assert (N : i <> j) by (intros ->; congruence).
    assert (E1 : nth_error (upd o j (Some None)) i = Some None) by (rewrite nth_error_upd_ne by auto; exact Pi).
    apply (inv_upd _ s i None (Some m) E1).
    assert (C : Permutation (owned_fds o) (file_fds (Some m) ++ owned_fds (upd (upd o j (Some None)) i None)) /\
                Permutation (owned_maps o) (file_maps (Some m) ++ owned_maps (upd (upd o j (Some None)) i None))).
    { assert (K : forall B (f : option mmfile -> list B), f None = [] -> f (Some None) = [] -> Permutation (flat_map f o) (f (Some m) ++ flat_map f (upd (upd o j (Some None)) i None))).
      { intros B f Hf1 Hf2. destruct (flat_upd f o j _ (Some None) Hf1 Ej) as [A1 A2]. rewrite A1. apply Permutation_app_head.
        destruct (flat_upd f (upd o j (Some None)) i None None Hf1 E1) as [A3 _]. rewrite Hf1 in A3. cbn [app] in A3. rewrite <- A3, A2, Hf2. reflexivity. }
      split; apply K; reflexivity. }
    destruct C. eapply has_perm; eauto.
  - destruct P as [Pi [d Ej]]. pose proof (proj2 (obj_some _ _ _) Ej) as Oj. rewrite Oj. cbn [bind release fst snd].
    set (o1 := upd o j (Some None)). destruct (obj_alive o i Pi) as (m & _ & Ei).
    assert (E1 : nth_error o1 i = Some (Some (if (j =? i)%nat then None else m))) by (unfold o1; rewrite (lookup_upd o j i (Some None) (Some m) Ei); destruct (j =? i)%nat; reflexivity).
    set (n := if (j =? i)%nat then None else m) in *. change (upd o j (Some None)) with o1. rewrite (proj2 (obj_some o1 i n) E1). cbn [bind].
    (* the system has the file of j, that of i and the rest *)
    assert (H1 : has s (file_fds (Some n) ++ (file_fds (Some (Some d)) ++ owned_fds (upd o1 i None))) (file_maps (Some n) ++ (file_maps (Some (Some d)) ++ owned_maps (upd o1 i None)))).
    { assert (K : forall B (f : option mmfile -> list B), f None = [] -> f (Some None) = [] -> Permutation (flat_map f o) (f (Some n) ++ (f (Some (Some d)) ++ flat_map f (upd o1 i None)))).
      { intros B f Hf1 Hf2. destruct (flat_upd f o j _ (Some None) Hf1 Ej) as [A1 A2]. rewrite A1.
        destruct (flat_upd f o1 i _ None Hf1 E1) as [A3 _]. fold o1 in A2. rewrite Hf2 in A2. cbn [app] in A2. rewrite <- A2, A3. rewrite !app_assoc. apply Permutation_app_tail. apply Permutation_app_comm. }
      eapply has_perm; [apply K; reflexivity|apply K; reflexivity|exact H]. }
    unfold reset_to. destruct (reset_ok n s _ _ H1) as (m' & s' & -> & _ & _ & _ & H2 & _ & K). cbn [bind fst snd]. do 3 eexists. split; [reflexivity|]. split.
    + apply (inv_upd o1 s' i _ (Some (Some d)) E1). exact H2.
    + intros k d' b bytes Hk Ek Eb Em. cbn [touches] in Hk. apply K; [exact Em|]. intros q. unfold n. destruct (Nat.eqb_spec j i); [cbn; tauto|]. apply (owned_apart o s k i d' b q (Some m)); auto.
  - destruct (obj_alive o i P) as (m & -> & E). cbn [bind]. pose proof (proj1 (inv_at o s i _ E) H) as H1.
    destruct (reset_ok m s _ _ H1) as (m' & s' & -> & _ & _ & _ & H2 & _ & K). cbn [bind fst snd]. do 3 eexists. split; [reflexivity|].
    split; [apply (inv_upd o s' i _ None E); exact H2|]. intros k d' b bytes Hk Ek Eb Em. cbn [touches] in Hk. apply K; [exact Em|].
    intros n. apply (owned_apart o s k i d' b n (Some m)); auto.
Qed.
Lemma obj_ub o i : ~ alive o i -> obj o i = UB.
Proof. intros N. unfold obj. destruct (nth_error o i) as [[m|]|] eqn:E; [exfalso; apply N; exists m; exact E|reflexivity..]. Qed.
Lemma step_proper o s p r : step o s p = Ok r -> proper o p.
Proof.
  assert (D : forall i A (f : unit -> res A) r, bind (dead o i) f = Ok r -> not_alive o i).
  { intros i A f r' E. unfold dead in E. unfold not_alive. destruct (nth_error o i) as [[m|]|]; [discriminate|reflexivity|discriminate]. }
  assert (B : forall i A (f : mmfile -> res A) r, bind (obj o i) f = Ok r -> exists m, nth_error o i = Some (Some m) /\ f m = Ok r).
  { intros i A f r' E. unfold obj in E. destruct (nth_error o i) as [[m|]|]; try discriminate. exists m. auto. }
  intros E. destruct p as [i|i a|i|i|i j|i j|i]; cbn [proper step] in *.
  - exact (D _ _ _ _ E).
  - apply B in E. destruct E as (m & E & _). exists m; auto.
  - apply B in E. destruct E as (m & E & F). destruct m as [d|]; [exists d; auto|discriminate].
  - apply B in E. destruct E as (m & E & F). destruct m as [d|]; [exists d; auto|discriminate].
  - split; [exact (D _ _ _ _ E)|]. unfold dead in E. destruct (nth_error o i) as [[?|]|]; try discriminate. cbn [bind] in E. apply B in E. destruct E as (m & E & _). exists m; auto.
  - apply B in E. destruct E as (m & E & F). destruct m as [d|]; [|discriminate]. split; [|exists d; auto]. cbn [release bind fst snd] in F.
    match type of F with bind ?x _ = _ => destruct x as [m| | |] eqn:Ei; try discriminate end. apply obj_some in Ei. unfold alive.
    destruct (Nat.eq_dec j i) as [->|N]; [exists (Some d); auto|]. rewrite nth_error_upd_ne in Ei by auto. exists m; auto.
  - apply B in E. destruct E as (m & E & _). exists m; auto.
Qed.
Lemma run_inv ps : forall o s o' s' out, inv o s -> run o s ps = Ok (o', s', out) -> inv o' s'.
Proof.
  induction ps as [|p ps IH]; intros o s o' s' out H E; cbn [run] in E; [injection E as <- <- _; exact H|].
  destruct (step o s p) as [[[o1 s1] z]| | |] eqn:E1; try discriminate. cbn [bind fst snd] in E.
  destruct (step_ok o s p H (step_proper o s p _ E1)) as (o2 & s2 & z2 & E2 & H2 & _). rewrite E1 in E2. injection E2 as <- <- _.
  destruct (run o1 s1 ps) as [[[o3 s3] out3]| | |] eqn:E3; try discriminate. cbn [bind fst snd] in E. injection E as <- <- _. eapply IH; eauto.
Qed.
Lemma inv_init n : inv (fresh_objects n) sys_init.
Proof.
  assert (E : owned_fds (fresh_objects n) = [] /\ owned_maps (fresh_objects n) = []) by (unfold owned_fds, owned_maps, fresh_objects; induction n as [|n [I1 I2]]; [auto|]; cbn; auto).
  unfold inv. destruct E as [-> ->]. repeat split; constructor.
Qed.
Lemma dead_nothing o : all_dead o -> owned_fds o = [] /\ owned_maps o = [].
Proof. unfold owned_fds, owned_maps. induction 1 as [|x o Hx H [I1 I2]]; [auto|]. subst x. cbn. auto. Qed.
Lemma get_keeps m pos s s' b : get 1 m pos s = Ok b ->
  (forall d a bytes, m = Some d -> d_ptr d = At a -> find_map a (s_maps s) = Some bytes -> find_map a (s_maps s') = Some bytes) -> get 1 m pos s' = Ok b.
Proof.
  intros E H. destruct m as [d|]; [|discriminate]. unfold get in *. cbn [arrow bind] in *. destruct (d_ptr d) as [| |a] eqn:Ea; try discriminate.
  destruct (find_map a (s_maps s)) as [bytes|] eqn:Em; [|discriminate]. rewrite (H d a bytes eq_refl Ea Em). exact E.
Qed.
Lemma element_one bytes pos b : nth_error bytes pos = Some b -> element (firstn 1 (skipn (pos * 1) bytes)) = b /\ (pos * 1 + 1 <= length bytes)%nat.
Proof.
  rewrite Nat.mul_1_r. intros E. split.
  - revert pos E. induction bytes as [|x bytes IH]; intros [|pos] E; cbn in E; try discriminate; [injection E as ->; unfold element; cbn; lia|cbn [skipn]; auto].
  - assert (pos < length bytes)%nat by (apply nth_error_Some; congruence). lia.
Qed.
Lemma open_holds o s i a : inv o s -> alive o i -> good a = true ->
  exists o' s', step o s (Open i a) = Ok (o', s', 1) /\ holds o' s' i (a_bytes a).
Proof.
  intros H P G. cbn [step]. destruct (obj_alive o i P) as (m & -> & E). cbn [bind]. pose proof (proj1 (inv_at o s i _ E) H) as H1.
  destruct (open_ok m a s _ _ H1) as (d & s' & -> & H2 & Hg & _ & K). cbn [bind fst snd]. rewrite G. do 2 eexists. split; [reflexivity|].
  destruct (Hg G) as (fd & ad & -> & Em). eexists. split; [rewrite (lookup_upd o i i _ _ E), Nat.eqb_refl; reflexivity|]. split; [reflexivity|]. split; [reflexivity|].
  intros pos b Eb. unfold get. cbn [arrow bind d_ptr]. rewrite Em. destruct (element_one _ _ _ Eb) as [E1 E2]. rewrite (proj2 (Nat.leb_le _ _) E2), E1. reflexivity.
Qed.
Lemma open_fails o s i a : inv o s -> alive o i -> good a = false ->
  exists o' s', step o s (Open i a) = Ok (o', s', 0) /\ nth_error o' i = Some (Some (Some no_data)).
Proof.
  intros H P G. cbn [step]. destruct (obj_alive o i P) as (m & -> & E). cbn [bind]. pose proof (proj1 (inv_at o s i _ E) H) as H1.
  destruct (open_ok m a s _ _ H1) as (d & s' & -> & H2 & _ & Hg & K). cbn [bind fst snd]. rewrite G. do 2 eexists. split; [reflexivity|].
  rewrite (Hg G), (lookup_upd o i i _ _ E), Nat.eqb_refl. reflexivity.
Qed.
Lemma step_other o s p o' s' z i : step o s p = Ok (o', s', z) -> ~ touches i p -> nth_error o' i = nth_error o i.
Proof.
  intros E N. destruct p as [j|j a|j|j|j k|j k|j]; cbn [touches step] in *.
  - destruct (dead o j); try discriminate. cbn [bind] in E. injection E as <- _ _. apply nth_error_upd_ne. congruence.
  - destruct (obj o j) as [m| | |]; try discriminate. cbn [bind] in E. destruct (open m a s) as [[[b m'] s1]| | |]; try discriminate. cbn [bind fst snd] in E. injection E as <- _ _. apply nth_error_upd_ne. congruence.
  - destruct (obj o j) as [m| | |]; try discriminate. cbn [bind] in E. destruct (is_open m); try discriminate. cbn [bind] in E. injection E as <- _ _. reflexivity.
  - destruct (obj o j) as [m| | |]; try discriminate. cbn [bind] in E. destruct (size m); try discriminate. cbn [bind] in E. injection E as <- _ _. reflexivity.
  - destruct (dead o j); try discriminate. cbn [bind] in E. destruct (obj o k); try discriminate. cbn [bind] in E. injection E as <- _ _. rewrite !nth_error_upd_ne; [reflexivity|intuition congruence..].
  - destruct (obj o k) as [m| | |]; try discriminate. cbn [bind] in E. destruct (release m) as [[d m']| | |]; try discriminate. cbn [bind fst snd] in E.
    destruct (obj _ j) as [n| | |]; try discriminate. cbn [bind] in E. destruct (reset_to n d s) as [[m2 s2]| | |]; try discriminate. cbn [bind fst snd] in E. injection E as <- _ _.
    rewrite !nth_error_upd_ne; [reflexivity|intuition congruence..].
  - destruct (obj o j) as [m| | |]; try discriminate. cbn [bind] in E. destruct (reset m s) as [[m' s1]| | |]; try discriminate. cbn [bind fst snd] in E. injection E as <- _ _. apply nth_error_upd_ne. congruence.
Qed.
Lemma holds_keeps o s p o' s' z i bytes : inv o s -> step o s p = Ok (o', s', z) -> ~ touches i p -> holds o s i bytes -> holds o' s' i bytes.
Proof.
  intros H E N (m & Em & E1 & E2 & E3). destruct (step_ok o s p H (step_proper _ _ _ _ E)) as (o2 & s2 & z2 & Es & _ & K). rewrite E in Es. injection Es as <- <- _.
  exists m. rewrite (step_other _ _ _ _ _ _ _ E N). repeat split; auto. intros pos b Eb. eapply get_keeps; [apply E3; exact Eb|].
  intros d a bs -> Ea Eq. eapply (K i d a bs); eauto.
Qed.
Lemma holds_engaged o s i bytes : holds o s i bytes -> engaged o i.
Proof. intros (m & Em & E1 & _). destruct m as [d|]; [exists d; exact Em|discriminate]. Qed.
Lemma holds_move_new o s i j bytes : inv o s -> not_alive o i -> holds o s j bytes ->
  exists o' s', step o s (MoveNew i j) = Ok (o', s', 0) /\ holds o' s' i bytes /\ nth_error o' j = Some (Some None).
Proof.
  intros H Pi (m & Em & E1 & E2 & E3). cbn [step]. unfold dead, not_alive in *. rewrite Pi, (proj2 (obj_some _ _ _) Em). cbn [bind]. do 2 eexists. split; [reflexivity|].
  assert (N : i <> j) by (intros ->; congruence). split.
  - exists m. rewrite nth_error_upd_eq; [repeat split; auto|]. rewrite upd_length. apply nth_error_Some. congruence.
  - rewrite nth_error_upd_ne by auto. apply nth_error_upd_eq. apply nth_error_Some. congruence.
Qed.
Lemma holds_move_assign o s i j bytes : inv o s -> alive o i -> holds o s j bytes ->
  exists o' s', step o s (MoveAssign i j) = Ok (o', s', 0) /\ holds o' s' i bytes.
Proof.
  intros H Pi HH. pose proof (holds_engaged _ _ _ _ HH) as Pj. destruct HH as (m & Em & E1 & E2 & E3). destruct Pj as [d Ed]. rewrite Em in Ed. injection Ed as ->.
  assert (G : (d_size d = 0)%nat \/ exists a, d_ptr d = At a).
  { unfold size in E2. cbn [arrow bind] in E2. injection E2 as E2. destruct bytes as [|b0 bytes]; [left; exact E2|]. specialize (E3 0%nat b0 eq_refl). unfold get in E3. cbn [arrow bind] in E3.
    destruct (d_ptr d) as [| |a]; try discriminate. right. exists a. reflexivity. }
  cbn [step]. rewrite (proj2 (obj_some _ _ _) Em). cbn [bind release fst snd].
  set (o1 := upd o j (Some None)). destruct (obj_alive o i Pi) as (m & _ & Ei).
  assert (L1 : nth_error o1 i = Some (Some (if (j =? i)%nat then None else m))) by (unfold o1; rewrite (lookup_upd o j i (Some None) (Some m) Ei); destruct (j =? i)%nat; reflexivity).
  set (n := if (j =? i)%nat then None else m) in *. change (upd o j (Some None)) with o1. rewrite (proj2 (obj_some o1 i n) L1). cbn [bind].
  assert (R : exists m' s', reset n s = Ok (m', s') /\ forall a bs, d_ptr d = At a -> find_map a (s_maps s) = Some bs -> find_map a (s_maps s') = Some bs).
  { unfold n. destruct (Nat.eqb_spec j i) as [->|N]; [exists None, s; split; auto|].
    pose proof (proj1 (inv_at o s i _ Ei) H) as H1. destruct (reset_ok m s _ _ H1) as (m' & s' & E & _ & _ & _ & _ & _ & K). exists m', s'. split; [exact E|].
    intros a bs Ea Eq. apply K; [exact Eq|]. intros q. eapply (owned_apart o s j i d a q); eauto. }
  destruct R as (m' & s' & R & K). unfold reset_to. rewrite R. cbn [bind fst snd]. do 2 eexists. split; [reflexivity|].
  exists (Some d). rewrite (lookup_upd o1 i i _ _ L1), Nat.eqb_refl. repeat split; auto. intros pos b Eb. eapply get_keeps; [apply E3; exact Eb|]. intros d0 a bs E0 Ea Eq. injection E0 as <-. eauto.
Qed.

(** * The statements of the properties *)

Lemma c277_ownership :
  forall n ps o s out, run (fresh_objects n) sys_init ps = Ok (o, s, out) ->
  Permutation (s_fds s) (owned_fds o) /\ Permutation (mapped s) (owned_maps o) /\ NoDup (s_fds s) /\ (all_dead o -> s = Sys (s_next s) [] []).
Proof.
  intros n ps o s out E. pose proof (run_inv _ _ _ _ _ _ (inv_init n) E) as ((ND & _) & A & B). split; [exact A|]. split; [exact B|]. split; [exact ND|].
  intros D. destruct (dead_nothing o D) as [E1 E2]. rewrite E1 in A. rewrite E2 in B. apply Permutation_nil in B || (symmetry in B; apply Permutation_nil in B). symmetry in A. apply Permutation_nil in A.
  destruct s as [k f m]. cbn in *. subst f. unfold mapped in B. cbn in B. destruct m; [reflexivity|discriminate].
Qed.

Lemma c277_no_ub :
  forall n ps o s out p, run (fresh_objects n) sys_init ps = Ok (o, s, out) -> proper o p -> exists o' s' z, step o s p = Ok (o', s', z).
Proof.
  intros n ps o s out p E P. destruct (step_ok o s p (run_inv _ _ _ _ _ _ (inv_init n) E) P) as (o' & s' & z & H & _). eauto.
Qed.

Lemma c277_empty_refuted :
  forall o s i j, nth_error o i = Some (Some None) -> step o s (IsOpen i) = UB /\ step o s (Size i) = UB /\ (forall m, nth_error o j = Some (Some m) -> step o s (MoveAssign j i) = UB).
Proof.
  intros o s i j E. pose proof (proj2 (obj_some _ _ _) E) as F. cbn [step]. rewrite F. cbn. auto.
Qed.

Lemma c278_open :
  forall n ps o s out i a, run (fresh_objects n) sys_init ps = Ok (o, s, out) -> alive o i ->
  (answers_well a -> exists o' s', step o s (Open i a) = Ok (o', s', 1) /\ holds o' s' i (a_bytes a)) /\
  (~ answers_well a -> exists o' s', step o s (Open i a) = Ok (o', s', 0) /\ step o' s' (IsOpen i) = Ok (o', s', 0) /\ step o' s' (Size i) = Ok (o', s', 0)).
Proof.
  intros n ps o s out i a E P. pose proof (run_inv _ _ _ _ _ _ (inv_init n) E) as H. assert (G : answers_well a <-> good a = true).
  { unfold answers_well, good. destruct a as [x y z l]. cbn [a_opens a_seeks a_maps a_bytes]. destruct l; destruct x, y, z; cbn; split; intros K; try discriminate K; try (destruct K as (? & ? & ? & ?); congruence); try reflexivity. repeat split; congruence. }
  split; intros W.
  - apply G in W. apply open_holds; auto.
  - destruct (good a) eqn:Eg; [exfalso; tauto|]. destruct (open_fails o s i a H P Eg) as (o' & s' & E1 & E2). exists o', s'. split; [exact E1|]. cbn [step]. rewrite (proj2 (obj_some _ _ _) E2). split; reflexivity.
Qed.

Lemma c278_keeps :
  forall n ps o s out, run (fresh_objects n) sys_init ps = Ok (o, s, out) -> forall i bytes, holds o s i bytes ->
  (forall p o' s' z, step o s p = Ok (o', s', z) -> ~ touches i p -> holds o' s' i bytes) /\
  (forall j, not_alive o j -> exists o' s', step o s (MoveNew j i) = Ok (o', s', 0) /\ holds o' s' j bytes) /\
  (forall j, alive o j -> exists o' s', step o s (MoveAssign j i) = Ok (o', s', 0) /\ holds o' s' j bytes).
Proof.
  intros n ps o s out E i bytes H. pose proof (run_inv _ _ _ _ _ _ (inv_init n) E) as K. split; [intros p o' s' z E1 N; eapply holds_keeps; eauto|]. split; intros j P.
  - destruct (holds_move_new o s j i bytes K P H) as (o' & s' & E1 & E2 & _). eauto.
  - apply holds_move_assign; auto.
Qed.

Lemma c278_wide_refuted :
  forall s d a bytes w, find_map a (s_maps s) = Some bytes -> d_ptr d = At a -> d_size d = length bytes -> bytes <> [] -> (2 <= w)%nat ->
  size (Some d) = Ok (length bytes) /\ get w (Some d) (length bytes - 1) s = UB.
Proof.
  intros s d a bytes w E Ea Es N W. split; [cbn; rewrite Es; reflexivity|]. unfold get. cbn [arrow bind]. rewrite Ea, E.
  assert (L : (1 <= length bytes)%nat) by (destruct bytes; [congruence|cbn; lia]). destruct (Nat.leb_spec ((length bytes - 1) * w + w) (length bytes)) as [C|_]; [exfalso; nia|reflexivity].
Qed.

Lemma c279_handles_refuted :
  forall m a s s1 m1, w_reset m s = Ok (m1, s1) -> wa_opens a = true -> wa_bytes a <> [] ->
  (wa_sizes a = true -> wa_mapping a = true -> wa_view a = true ->
    exists m2 s2 m3 s3, w_open m a s = Ok (true, m2, s2) /\ w_reset m2 s2 = Ok (m3, s3) /\ s_maps s3 = s_maps s1 /\ s_fds s3 = S (s_next s1) :: s_fds s1) /\
  (wa_sizes a = false \/ wa_mapping a = false -> exists m2 s2, w_open m a s = Ok (false, m2, s2) /\ s_fds s2 = s_next s1 :: s_fds s1).
Proof.
  intros m a s s1 m1 E Eo Eb. assert (L : (length (wa_bytes a) =? 0)%nat = false) by (destruct (wa_bytes a); [congruence|reflexivity]). split.
  - intros Es Em Ev. unfold w_open. rewrite E, Eo, Es, L, Em, Ev. cbn [bind snd negb orb s_next]. unfold close. cbn [s_fds s_next s_maps mem].
    rewrite Nat.eqb_refl, orb_true_r. cbn [bind remove1]. replace (s_next s1 =? S (s_next s1))%nat with false by (symmetry; apply Nat.eqb_neq; lia). rewrite Nat.eqb_refl.
    do 4 eexists. split; [reflexivity|]. unfold w_reset, w_cleanup, unmap_view. cbn [w_ptr s_maps s_next s_fds find_map remove_map]. rewrite !Nat.eqb_refl. cbn [bind fst snd]. split; [reflexivity|]. split; reflexivity.
  - intros C. unfold w_open. rewrite E, Eo, L. cbn [bind snd negb]. destruct (wa_sizes a); cbn [negb orb]; [|do 2 eexists; split; reflexivity].
    destruct (wa_mapping a); [destruct C; discriminate|]. do 2 eexists; split; reflexivity.
Qed.

Lemma c279_is_open_refuted :
  forall m a s m' s' ok, w_open m a s = Ok (ok, m', s') -> w_is_open m' = Ok (negb ok).
Proof.
  intros m a s m' s' ok E. unfold w_open in E. destruct (w_reset m s) as [[m1 s1]| | |]; try discriminate. cbn [bind snd] in E.
  destruct (wa_opens a); cbn [negb] in E; [|injection E as <- <- _; reflexivity].
  destruct (negb (wa_sizes a) || (length (wa_bytes a) =? 0)%nat) eqn:L; [injection E as <- <- _; reflexivity|]. apply orb_false_iff in L. destruct L as [_ L].
  destruct (wa_mapping a); cbn [negb] in E; [|injection E as <- <- _; reflexivity].
  match type of E with bind ?x _ = _ => destruct x as [s2| | |]; try discriminate end. cbn [bind] in E.
  destruct (wa_view a); cbn [negb] in E; injection E as <- <- _; [|reflexivity]. cbn [w_is_open w_size w_ptr w_handle]. rewrite L. reflexivity.
Qed.

Lemma c279_wide_path_refuted :
  forall a s, wa_opens a = true -> wa_sizes a = true -> wa_bytes a <> [] -> w_open_wide None a s = UB.
Proof.
  intros a s Eo Es N. unfold w_open_wide. rewrite Eo, Es. destruct (wa_bytes a); [congruence|]. reflexivity.
Qed.
