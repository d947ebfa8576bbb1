(** Proofs about OldString.v. *)
From Verif Require Import Common Ints BitsModel StringView StringPopProofs OldString SpecOldString.
From Verif Require Import CommonProofs.
Open Scope Z_scope.

(** ** Splitting *)

Lemma rd_mid {A} (pre : list A) c t : rd (pre ++ c :: t) (length pre) = Ok c.
Proof. unfold rd. rewrite nth_error_app2, Nat.sub_diag by lia. reflexivity. Qed.

Lemma length_snoc {A} (l : list A) x : length (l ++ [x]) = S (length l).
Proof. rewrite app_length. cbn [length]. lia. Qed.
Lemma length_snoc2 {A} (l m : list A) x : length (l ++ m ++ [x]) = S (length l + length m).
Proof. rewrite !app_length. cbn [length]. lia. Qed.

(** The first part of [t] without a delimiter. *)
Lemma find_if_pos_ok p pb t : Forall (fun c => p c = Ok (pb c)) t -> forall pre,
  exists a b, t = a ++ b /\ Forall (fun c => pb c = false) a /\
    (b = [] \/ exists d b', b = d :: b' /\ pb d = true) /\
    find_if_pos (length t) p (pre ++ t) (length pre) = Ok (length pre + length a)%nat.
Proof.
  induction t as [|c t IH]; intros P pre.
  - exists [], []. repeat split; auto.
  - inversion P as [|? ? Pc Pt]; subst. cbn [length find_if_pos]. rewrite rd_mid. cbn [bind]. rewrite Pc. cbn [bind].
    destruct (pb c) eqn:C.
    + exists [], (c :: t). repeat split; auto. right. eauto.
    + destruct (IH Pt (pre ++ [c])) as (a & b & -> & Fa & Hb & E).
      exists (c :: a), b. repeat split; auto.
      rewrite <- app_assoc in E. cbn [app] in E. rewrite length_snoc in E.
      rewrite E. cbn [length]. f_equal. lia.
Qed.

Lemma firstn_exact {A} (a b : list A) : firstn (length a) (a ++ b) = a.
Proof. induction a; cbn; congruence. Qed.
Lemma skipn_exact {A} (a b : list A) : skipn (length a) (a ++ b) = b.
Proof. induction a; cbn; congruence. Qed.

Lemma split_loop_ok p pb (delim : Z -> Prop) : (forall c, pb c = true <-> delim c) -> forall n t pre,
  (length t <= n)%nat -> Forall (fun c => p c = Ok (pb c)) t ->
  exists ps, split_loop (S n) p (pre ++ t) (length pre) = Ok ps /\ cut_at delim t ps.
Proof.
  intros PB. assert (PF : forall a, Forall (fun c => pb c = false) a -> Forall (fun c => ~ delim c) a).
  { intros a. apply Forall_impl. intros c C D. apply PB in D. congruence. }
  induction n as [|n IH]; intros t pre L P.
  - destruct t; [|cbn in L; lia]. rewrite app_nil_r. exists [[]]. split; [|constructor; constructor].
    cbn [split_loop]. rewrite Nat.sub_diag. cbn [find_if_pos bind]. rewrite Nat.eqb_refl, Nat.sub_diag. reflexivity.
  - change (split_loop (S (S n)) p (pre ++ t) (length pre)) with
      (find_iter <- find_if_pos (length (pre ++ t) - length pre) p (pre ++ t) (length pre) ;;
       let piece := firstn (find_iter - length pre) (skipn (length pre) (pre ++ t)) in
       if (find_iter =? length (pre ++ t))%nat then Ok [piece]
       else rest <- split_loop (S n) p (pre ++ t) (S find_iter) ;; Ok (piece :: rest)).
    rewrite app_length, Nat.add_comm, Nat.add_sub, skipn_exact.
    destruct (find_if_pos_ok p pb t P pre) as (a & b & -> & Fa & Hb & E). rewrite E. cbn [bind].
    cbv zeta. rewrite (Nat.add_comm (length pre) (length a)), Nat.add_sub, firstn_exact.
    destruct Hb as [-> | (d & b' & -> & Hd)].
    + rewrite app_nil_r, (Nat.add_comm (length a)), Nat.add_comm, Nat.eqb_refl. exists [a]. split; [reflexivity|]. constructor. auto.
    + rewrite app_length. cbn [length]. replace (length a + length pre =? length a + S (length b') + length pre)%nat with false by (symmetry; apply Nat.eqb_neq; lia).
      apply Forall_app in P. destruct P as [_ P]. inversion P as [|? ? _ Pb]; subst.
      destruct (IH b' (pre ++ a ++ [d])) as (ps & Es & Cs).
      * rewrite app_length in L. cbn [length] in L. lia.
      * auto.
      * rewrite length_snoc2, <- !app_assoc in Es. cbn [app] in Es.
        rewrite (Nat.add_comm (length a)), Es. cbn [bind].
        exists (a :: ps). split; [reflexivity|]. constructor; auto. now apply PB.
Qed.

Lemma split_with_ok p pb (delim : Z -> Prop) s : (forall c, pb c = true <-> delim c) ->
  Forall (fun c => p c = Ok (pb c)) s ->
  exists ps, split_with p s = Ok ps /\ cut_at delim s ps.
Proof. intros PB P. exact (split_loop_ok p pb delim PB (length s) s [] (Nat.le_refl _) P). Qed.

Lemma all_Forall {A} (P : A -> Prop) l : (forall x, P x) -> Forall P l.
Proof. intros H. apply Forall_forall. auto. Qed.

Lemma split_if_ok s is_delim : exists ps, split_if s is_delim = Ok ps /\ cut_at (fun c => is_delim c = true) s ps.
Proof. apply (split_with_ok _ is_delim); [reflexivity|]. apply all_Forall. reflexivity. Qed.
Lemma split_char_ok s d : exists ps, split_char s d = Ok ps /\ cut_at (fun c => c = d) s ps.
Proof. apply (split_with_ok _ (fun c => c =? d)); [intros c; apply Z.eqb_eq|]. apply all_Forall. reflexivity. Qed.
Lemma elem_In c l : elem c l = true <-> In c l.
Proof.
  unfold elem. rewrite existsb_exists. split.
  - intros (x & I1 & E). apply Z.eqb_eq in E. now subst.
  - intros I1. exists c. split; [auto|apply Z.eqb_refl].
Qed.
Lemma split_set_ok s ds : exists ps, split_set s ds = Ok ps /\ cut_at (fun c => In c ds) s ps.
Proof. apply (split_with_ok _ (fun c => elem c ds)); [intros c; apply elem_In|]. apply all_Forall. reflexivity. Qed.
Lemma split_space_ok s : Forall (fun c => -1 <= c <= 255) s ->
  exists ps, split_space s = Ok ps /\ cut_at (fun c => c = 32 \/ 9 <= c <= 13) s ps.
Proof.
  intros F. apply (split_with_ok _ (fun c => (c =? 32) || ((9 <=? c) && (c <=? 13)))).
  - intros c. rewrite orb_true_iff, andb_true_iff, Z.eqb_eq, !Z.leb_le. reflexivity.
  - revert F. apply Forall_impl. intros c C. unfold c_isspace.
    destruct (Z.ltb_spec c (-1)); [lia|]. destruct (Z.ltb_spec 255 c); [lia|]. reflexivity.
Qed.

Lemma find_if_pos_ub p pb a d b pre : Forall (fun c => p c = Ok (pb c)) a -> Forall (fun c => pb c = false) a ->
  p d = UB -> find_if_pos (length (a ++ d :: b)) p (pre ++ a ++ d :: b) (length pre) = UB.
Proof.
  intros P F D. revert pre. induction a as [|c a IH]; intros pre; cbn [app length find_if_pos].
  - rewrite rd_mid. cbn [bind]. now rewrite D.
  - inversion P; inversion F; subst. rewrite rd_mid. cbn [bind]. rewrite H1. cbn [bind]. rewrite H5.
    specialize (IH H2 H6 (pre ++ [c])). rewrite <- app_assoc in IH. cbn [app] in IH. rewrite length_snoc in IH. exact IH.
Qed.
Lemma split_loop_ub p pb d b : p d = UB -> forall n a pre,
  (length a <= n)%nat -> Forall (fun c => p c = Ok (pb c)) a ->
  split_loop (S n) p (pre ++ a ++ d :: b) (length pre) = UB.
Proof.
  intros D. induction n as [n IH] using lt_wf_ind. intros a pre L P.
  change (split_loop (S n) p (pre ++ a ++ d :: b) (length pre)) with
      (find_iter <- find_if_pos (length (pre ++ a ++ d :: b) - length pre) p (pre ++ a ++ d :: b) (length pre) ;;
       let piece := firstn (find_iter - length pre) (skipn (length pre) (pre ++ a ++ d :: b)) in
       if (find_iter =? length (pre ++ a ++ d :: b))%nat then Ok [piece]
       else rest <- split_loop n p (pre ++ a ++ d :: b) (S find_iter) ;; Ok (piece :: rest)).
  rewrite (app_length pre), Nat.add_comm, Nat.add_sub.
  destruct (find_if_pos_ok p pb a P []) as (x & y & -> & Fx & Hy & _).
  destruct Hy as [-> | (e & y' & -> & He)].
  - rewrite app_nil_r in *. rewrite (find_if_pos_ub p pb); auto.
  - assert (Pe : p e = Ok true). { apply Forall_app in P. destruct P as [_ P]. inversion P; congruence. }
    assert (Px : Forall (fun c => p c = Ok (pb c)) x) by (apply Forall_app in P; tauto).
    assert (E : find_if_pos (length ((x ++ e :: y') ++ d :: b)) p (pre ++ (x ++ e :: y') ++ d :: b) (length pre) = Ok (length pre + length x)%nat).
    { rewrite <- !app_assoc. cbn [app]. clear -Fx Px Pe. revert pre. induction x as [|c x IHx]; intros pre; cbn [app length find_if_pos].
      - rewrite rd_mid. cbn [bind]. rewrite Pe. cbn [bind]. now rewrite Nat.add_0_r.
      - inversion Fx; inversion Px; subst. rewrite rd_mid. cbn [bind]. rewrite H5. cbn [bind]. rewrite H1.
        specialize (IHx H2 H6 (pre ++ [c])). rewrite <- app_assoc in IHx. cbn [app] in IHx. rewrite length_snoc in IHx.
        rewrite IHx. f_equal. lia. }
    rewrite E. cbn [bind]. cbv zeta.
    replace (length pre + length x =? length ((x ++ e :: y') ++ d :: b) + length pre)%nat with false.
    2:{ symmetry. apply Nat.eqb_neq. rewrite !app_length. cbn [length]. lia. }
    destruct n as [|n]; [rewrite app_length in L; cbn [length] in L; lia|].
    assert (R : split_loop (S n) p (pre ++ (x ++ e :: y') ++ d :: b) (S (length pre + length x)) = UB).
    { specialize (IH n ltac:(lia) y' (pre ++ x ++ [e])).
      rewrite length_snoc2, <- !app_assoc in IH. cbn [app] in IH. rewrite <- !app_assoc. cbn [app].
      apply IH; [rewrite app_length in L; cbn [length] in L; lia|]. apply Forall_app in P. destruct P as [_ P]. inversion P; auto. }
    rewrite R. reflexivity.
Qed.
(** A negative character other than EOF reaches isspace. *)
Lemma split_space_ub a d b : Forall (fun c => -1 <= c <= 255) a -> d < -1 -> split_space (a ++ d :: b) = UB.
Proof.
  intros F D. unfold split_space, split_with.
  apply (split_loop_ub c_isspace (fun c => (c =? 32) || ((9 <=? c) && (c <=? 13))) d b) with (pre := []).
  - unfold c_isspace. destruct (Z.ltb_spec d (-1)); [reflexivity|lia].
  - rewrite app_length. lia.
  - revert F. apply Forall_impl. intros c C. unfold c_isspace.
    destruct (Z.ltb_spec c (-1)); [lia|]. destruct (Z.ltb_spec 255 c); [lia|]. reflexivity.
Qed.

(** The pieces are determined by the text. *)
Lemma cut_nonempty delim s ps : cut_at delim s ps -> ps <> [].
Proof. intros []; discriminate. Qed.
Lemma cut_unique delim s ps qs : cut_at delim s ps -> cut_at delim s qs -> ps = qs.
Proof.
  intros C. revert qs. induction C as [t F|t d rest ps F D C IH]; intros qs Q.
  - inversion Q as [t' F' E|t' d' rest' ps' F' D' C' E]; subst; [reflexivity|].
    exfalso. apply Forall_app in F. destruct F as [_ F]. inversion F; subst. auto.
  - inversion Q as [t' F' E|t' d' rest' ps' F' D' C' E]; subst.
    + exfalso. apply Forall_app in F'. destruct F' as [_ F']. inversion F'; subst. auto.
    + assert (T : t = t' /\ d = d' /\ rest = rest').
      { clear -F F' D D' E. revert t' F' E. induction t as [|x t IHt]; intros [|y t'] F' E; cbn [app] in E.
        - injection E; intros; subst; auto.
        - injection E; intros; subst. inversion F'; subst. contradiction.
        - injection E; intros; subst. inversion F; subst. contradiction.
        - injection E as E1 E2. subst. inversion F; inversion F'; subst. destruct (IHt H2 t' H6) as (-> & -> & ->); auto. }
      destruct T as (-> & -> & ->). f_equal. auto.
Qed.

Lemma joined_cons sep p ps : ps <> [] -> joined sep (p :: ps) = p ++ sep ++ joined sep ps.
Proof. destruct ps; [congruence|reflexivity]. Qed.
Lemma cut_joined d s ps : cut_at (fun c => c = d) s ps -> joined [d] ps = s.
Proof.
  induction 1 as [t F|t e rest ps F D C IH]; [reflexivity|].
  rewrite joined_cons by (eapply cut_nonempty; eauto). rewrite IH, D. reflexivity.
Qed.
Lemma joined_cut d ps : ps <> [] -> Forall (fun p => ~ In d p) ps -> cut_at (fun c => c = d) (joined [d] ps) ps.
Proof.
  intros N F. induction ps as [|p ps IH]; [congruence|]. inversion F as [|? ? Hp Hps]; subst.
  assert (Fp : Forall (fun c => c <> d) p) by (apply Forall_forall; intros c I1 ->; auto).
  destruct ps as [|q ps].
  - constructor. exact Fp.
  - rewrite joined_cons by discriminate. cbn [app]. constructor; auto. apply IH; [discriminate|auto].
Qed.

Lemma combine_ok ps chr : str_combine ps chr = joined chr ps.
Proof.
  assert (L : forall ps, str_combine_loop false ps chr = match ps with [] => [] | _ => chr ++ joined chr ps end).
  { induction ps0 as [|p qs IH]; [reflexivity|]. cbn [str_combine_loop]. rewrite IH.
    destruct qs; [cbn [joined]; now rewrite app_nil_r|]. reflexivity. }
  unfold str_combine. destruct ps as [|p ps]; [reflexivity|]. cbn [str_combine_loop app]. rewrite L.
  destruct ps; [cbn [joined]; apply app_nil_r|reflexivity].
Qed.

Lemma combine_split s d : exists ps, split_char s d = Ok ps /\ str_combine ps [d] = s.
Proof. destruct (split_char_ok s d) as (ps & E & C). exists ps. split; auto. rewrite combine_ok. now apply cut_joined. Qed.
Lemma split_combine ps d : ps <> [] -> Forall (fun p => ~ In d p) ps -> split_char (str_combine ps [d]) d = Ok ps.
Proof.
  intros N F. destruct (split_char_ok (str_combine ps [d]) d) as (qs & E & C). rewrite E. f_equal.
  rewrite combine_ok in C. eapply cut_unique; eauto. now apply joined_cut.
Qed.

(** ** Trimming *)

(** A text that fits into memory. *)
Notation short s := (Z.of_nat (length s) < 2 ^ 63).

Lemma last_pos_ok p s :
  match last_pos p s with
  | Some k => exists a c b, s = a ++ c :: b /\ length a = k /\ p c = true /\ Forall (fun c => p c = false) b
  | None => Forall (fun c => p c = false) s
  end.
Proof.
  induction s as [|c s IH]; cbn [last_pos]; [constructor|].
  destruct (last_pos p s) as [k|].
  - destruct IH as (a & d & b & -> & <- & D & F). exists (c :: a), d, b. auto.
  - destruct (p c) eqn:C; [|constructor; auto]. exists [], c, s. auto.
Qed.
Lemma first_pos_ok p s :
  match first_pos p s with
  | Some k => exists a c b, s = a ++ c :: b /\ length a = k /\ p c = true /\ Forall (fun c => p c = false) a
  | None => Forall (fun c => p c = false) s
  end.
Proof.
  induction s as [|c s IH]; cbn [first_pos]; [constructor|].
  destruct (p c) eqn:C.
  - exists [], c, s. auto.
  - destruct (first_pos p s) as [k|].
    + destruct IH as (a & d & b & -> & <- & D & F). exists (c :: a), d, b. repeat split; auto.
    + constructor; auto.
Qed.
Lemma not_elem c ds : negb (elem c ds) = true <-> ~ In c ds.
Proof. rewrite <- elem_In. destruct (elem c ds); cbn; intuition congruence. Qed.
Lemma not_elem_in c ds : negb (elem c ds) = false <-> In c ds.
Proof. rewrite <- elem_In. destruct (elem c ds); cbn; intuition congruence. Qed.
Lemma Forall_elem ds l : Forall (fun c => negb (elem c ds) = false) l -> Forall (fun c => In c ds) l.
Proof. apply Forall_impl. intros c. apply not_elem_in. Qed.

Lemma snoc_inj {A} (a b : list A) x y : a ++ [x] = b ++ [y] -> a = b /\ x = y.
Proof. apply app_inj_tail. Qed.

Lemma sz_small n : 0 <= n < 2 ^ 64 -> sz n = n.
Proof. intros H. unfold sz, wrap. now apply Z.mod_small. Qed.

Lemma substr_whole s : str_substr s 0 (Z.of_nat (length s)) = Ok s.
Proof.
  unfold str_substr. destruct (Z.ltb_spec (Z.of_nat (length s)) 0); [lia|].
  rewrite Z.min_id, Nat2Z.id. change (Z.to_nat 0) with 0%nat. cbn [skipn]. now rewrite firstn_all.
Qed.

Lemma trim_right_ok ds s : short s -> exists r, trim_right s ds = Ok r /\ trimmed_right ds s r.
Proof.
  intros L. unfold trim_right. destruct s as [|x s]; [|set (t := x :: s) in *].
  { exists []. split; [reflexivity|]. exists []. repeat split; [constructor|]. intros r' c E. destruct r'; discriminate. }
  pose proof (last_pos_ok (fun c => negb (elem c ds)) t) as H. destruct (last_pos _ t) as [k|].
  - destruct H as (a & c & b & E & <- & C & F). rewrite E in *. unfold pos_z.
    assert (Lk : length (a ++ c :: b) = (length a + 1 + length b)%nat) by (rewrite app_length; cbn [length]; lia).
    rewrite sz_small by lia. exists (a ++ [c]). split.
    + unfold str_substr. destruct (Z.ltb_spec (Z.of_nat (length (a ++ c :: b))) 0); [lia|].
      rewrite Z.min_l by lia. change (Z.to_nat 0) with 0%nat. cbn [skipn].
      replace (Z.to_nat (Z.of_nat (length a) + 1)) with (length (a ++ [c])) by (rewrite length_snoc; lia).
      replace (a ++ c :: b) with ((a ++ [c]) ++ b) by (now rewrite <- app_assoc). now rewrite firstn_exact.
    + exists b. split; [now rewrite <- app_assoc|]. split; [now apply Forall_elem|].
      intros r' d Ed. apply snoc_inj in Ed. destruct Ed as [_ <-]. now apply not_elem.
  - exists []. split.
    + unfold pos_z. change (sz (npos + 1)) with 0. unfold str_substr.
      destruct (Z.ltb_spec (Z.of_nat (length t)) 0); [lia|]. rewrite Z.min_l by lia. reflexivity.
    + exists t. split; [reflexivity|]. split; [now apply Forall_elem|]. intros r' c E. destruct r'; discriminate.
Qed.

Lemma trim_left_ok ds s : short s -> s = [] \/ (exists c, In c s /\ ~ In c ds) ->
  exists r, trim_left s ds = Ok r /\ trimmed_left ds s r.
Proof.
  intros L N. unfold trim_left. destruct s as [|x s]; [|set (t := x :: s) in *].
  { exists []. split; [reflexivity|]. exists []. repeat split; [constructor|]. intros r' c E. discriminate. }
  pose proof (first_pos_ok (fun c => negb (elem c ds)) t) as H. destruct (first_pos _ t) as [k|].
  - destruct H as (a & c & b & E & <- & C & F). rewrite E in *. unfold pos_z. exists (c :: b). split.
    + unfold str_substr. assert (Lk : length (a ++ c :: b) = (length a + 1 + length b)%nat) by (rewrite app_length; cbn [length]; lia).
      destruct (Z.ltb_spec (Z.of_nat (length (a ++ c :: b))) (Z.of_nat (length a))); [lia|].
      rewrite Nat2Z.id, skipn_exact. rewrite Z.min_r by (unfold npos; lia). rewrite Nat2Z.id.
      rewrite firstn_all2; [reflexivity|]. rewrite app_length. lia.
    + exists a. split; [reflexivity|]. split; [now apply Forall_elem|]. intros r' d Ed. injection Ed as <- _. now apply not_elem.
  - exfalso. destruct N as [N|(c & I1 & I2)]; [discriminate|]. rewrite Forall_forall in H. apply I2, not_elem_in, H, I1.
Qed.
Lemma trim_left_throws ds s : short s -> s <> [] -> Forall (fun c => In c ds) s -> trim_left s ds = Throw.
Proof.
  intros L N F. unfold trim_left. destruct s as [|x s]; [congruence|set (t := x :: s) in *].
  pose proof (first_pos_ok (fun c => negb (elem c ds)) t) as H. destruct (first_pos _ t) as [k|].
  - exfalso. destruct H as (a & c & b & E & _ & C & _). rewrite E in F. rewrite Forall_forall in F.
    apply not_elem in C. apply C, F, in_elt.
  - unfold pos_z, str_substr. destruct (Z.ltb_spec (Z.of_nat (length t)) npos); [reflexivity|]. unfold npos in *. lia.
Qed.

Lemma trim_ok ds s : short s -> exists r, trim s ds = Ok r /\ trimmed ds s r.
Proof.
  intros L. unfold trim.
  pose proof (first_pos_ok (fun c => negb (elem c ds)) s) as H. destruct (first_pos _ s) as [k|].
  - destruct H as (a & c & b & E & <- & C & F). unfold pos_z at 1. cbv zeta.
    pose proof (last_pos_ok (fun c => negb (elem c ds)) s) as G. destruct (last_pos _ s) as [m|].
    + destruct G as (a' & c' & b' & E' & <- & C' & F'). unfold pos_z.
      assert (La : length s = (length a + 1 + length b)%nat) by (rewrite E, app_length; cbn [length]; lia).
      assert (Lb : length s = (length a' + 1 + length b')%nat) by (rewrite E', app_length; cbn [length]; lia).
      assert (LE : (length a <= length a')%nat).
      { destruct (le_lt_dec (length a) (length a')) as [|Lt]; auto. exfalso.
        assert (nth_error s (length a') = Some c') by (rewrite E', nth_error_app2, Nat.sub_diag by lia; reflexivity).
        rewrite E, nth_error_app1 in H by lia. apply nth_error_In in H. rewrite Forall_forall in F. specialize (F _ H). cbv beta in F. congruence. }
      destruct (Z.eqb_spec npos (Z.of_nat (length a))) as [Q|_]; [unfold npos in Q; lia|].
      rewrite (sz_small (Z.of_nat (length a') - Z.of_nat (length a))), sz_small by lia.
      set (n := (length a' - length a + 1)%nat).
      assert (R : str_substr s (Z.of_nat (length a)) (Z.of_nat (length a') - Z.of_nat (length a) + 1) = Ok (firstn n (skipn (length a) s))).
      { unfold str_substr. destruct (Z.ltb_spec (Z.of_nat (length s)) (Z.of_nat (length a))); [lia|].
        rewrite Nat2Z.id. f_equal. f_equal. lia. }
      exists (firstn n (skipn (length a) s)). split; [exact R|].
      assert (Ln : (n + length a = length a' + 1)%nat) by (unfold n; lia).
      assert (Sa : skipn (length a) s = c :: b) by (rewrite E; apply skipn_exact).
      assert (Sb : skipn (n + length a) s = b').
      { replace (n + length a)%nat with (length (a' ++ [c'])) by (rewrite length_snoc; lia).
        rewrite E'. replace (a' ++ c' :: b') with ((a' ++ [c']) ++ b') by (now rewrite <- app_assoc). apply skipn_exact. }
      assert (Sab : skipn n (skipn (length a) s) = b').
      { rewrite <- Sb. clearbody n. clear. revert s. induction (length a) as [|k IH]; intros s; [now rewrite Nat.add_0_r|].
        rewrite Nat.add_succ_r. destruct s; [now rewrite !skipn_nil|]. cbn [skipn]. apply IH. }
      exists a, b'. split.
      { rewrite <- (firstn_skipn (length a) s) at 1. rewrite <- (firstn_skipn n (skipn (length a) s)) at 1.
        rewrite Sab. f_equal. rewrite E. apply firstn_exact. }
      split; [now apply Forall_elem|]. split; [now apply Forall_elem|].
      assert (Hn : nth_error s (length a') = Some c') by (rewrite E', nth_error_app2, Nat.sub_diag by lia; reflexivity).
      split.
      * intros r' d Ed. apply not_elem.
        assert (Ld : length (firstn n (skipn (length a) s)) = n) by (apply firstn_length_le; rewrite skipn_length; lia).
        assert (D1 : nth_error (firstn n (skipn (length a) s)) (n - 1) = Some d).
        { rewrite Ed, length_snoc in Ld. rewrite Ed, nth_error_app2 by lia. replace (n - 1 - length r')%nat with 0%nat by lia. reflexivity. }
        assert (D2 : nth_error s (length a') = Some d).
        { rewrite <- (firstn_skipn n (skipn (length a) s)) in Sa.
          rewrite <- (firstn_skipn (length a) s), nth_error_app2; rewrite firstn_length_le by lia; [|lia].
          rewrite <- (firstn_skipn n (skipn (length a) s)), nth_error_app1 by lia. rewrite <- D1. f_equal. lia. }
        congruence.
      * intros r' d Ed. apply not_elem. rewrite Sa in Ed. unfold n in Ed. rewrite Nat.add_1_r in Ed. cbn [firstn] in Ed. congruence.
    + exfalso. rewrite E in G. rewrite Forall_forall in G. specialize (G c (in_elt _ _ _)). cbv beta in G. congruence.
  - exists []. split; [reflexivity|]. exists [], s. repeat split.
    + constructor.
    + now apply Forall_elem.
    + intros r' c E. destruct r'; discriminate.
    + intros r' c E. discriminate.
Qed.

(** ** ends_with *)
Lemma ends_with_char_ok src c : exists b, ends_with_char src c = Ok b /\ (b = true <-> ends_in src [c]).
Proof.
  unfold ends_with_char. destruct (Nat.ltb_spec 0 (length src)) as [L|L].
  - destruct (exists_last (l := src)) as (t & x & ->); [intros ->; cbn in L; lia|].
    rewrite length_snoc, Nat.sub_succ, Nat.sub_0_r. rewrite rd_mid. cbn [bind]. eexists. split; [reflexivity|].
    rewrite Z.eqb_eq. split.
    + intros ->. exists t. reflexivity.
    + intros (a & E). apply snoc_inj in E. symmetry. tauto.
  - exists false. split; [reflexivity|]. split; [discriminate|]. intros (a & ->). rewrite length_snoc in L. lia.
Qed.
(** True when the last character is any of those of the ending. *)
Lemma ends_with_iff src e : short src -> ends_with src e = true <-> exists a c, src = a ++ [c] /\ In c e.
Proof.
  intros L. unfold ends_with.
  pose proof (last_pos_ok (fun c => elem c e) src) as H. destruct (last_pos _ src) as [k|].
  - destruct H as (a & c & b & -> & <- & C & F). unfold pos_z. cbv zeta. rewrite app_length in *. cbn [length] in *.
    rewrite sz_small by lia. rewrite andb_true_iff, negb_true_iff, Z.eqb_neq, Z.eqb_eq. split.
    + intros [_ E]. assert (b = []) as -> by (destruct b; [reflexivity|cbn [length] in E; lia]).
      exists a, c. split; auto. now apply elem_In.
    + intros (a2 & d & E & D). split; [unfold npos; lia|].
      destruct b as [|x b]; [cbn [length]; lia|]. exfalso.
      destruct (exists_last (l := x :: b)) as (t & y & Ey); [discriminate|]. rewrite Ey in *.
      assert (Q : (a ++ c :: t) ++ [y] = a2 ++ [d]) by (rewrite <- app_assoc; exact E).
      apply snoc_inj in Q. destruct Q as [_ ->]. apply Forall_app in F. destruct F as [_ F]. inversion F as [|? ? Fd _]; subst.
      apply elem_In in D. congruence.
  - unfold pos_z. rewrite Z.eqb_refl. cbn [negb andb]. split; [discriminate|]. intros (a & c & -> & I1). exfalso.
    apply Forall_app in H. destruct H as [_ H]. inversion H as [|? ? Hc _]; subst. apply elem_In in I1. congruence.
Qed.
Lemma ends_with_single src c : short src -> ends_with src [c] = true <-> ends_in src [c].
Proof.
  intros L. rewrite ends_with_iff by auto. split.
  - intros (a & d & -> & [->|[]]). now exists a.
  - intros (a & ->). exists a, c. split; [auto|now left].
Qed.
Lemma ends_with_wrong src a c e : short src -> src = a ++ [c] -> In c e -> ends_with src e = true.
Proof. intros L E I1. apply ends_with_iff; eauto. Qed.
Lemma ends_with_nothing src : short src -> ends_with src [] = false.
Proof.
  intros L. destruct (ends_with src []) eqn:E; [|reflexivity]. exfalso. apply ends_with_iff in E; auto.
  destruct E as (_ & c & _ & []).
Qed.

(** ** Searching and replacing *)
Lemma is_prefix_ok t s : is_prefix t s = true <-> exists b, s = t ++ b.
Proof.
  revert s. induction t as [|c t IH]; intros s; cbn [is_prefix].
  - split; [intros _; now exists s|auto].
  - destruct s as [|d s].
    + split; [discriminate|]. intros (b & E). discriminate.
    + rewrite andb_true_iff, Z.eqb_eq, IH. split.
      * intros [-> (b & ->)]. now exists b.
      * intros (b & E). injection E as -> ->. eauto.
Qed.
Lemma find_from_ok t s :
  match find_from t s with
  | Some k => exists a b, s = a ++ t ++ b /\ length a = k /\
      forall a' b', s = a' ++ t ++ b' -> (length a <= length a')%nat
  | None => ~ part_of t s
  end.
Proof.
  induction s as [|c s IH]; cbn [find_from].
  - destruct (is_prefix t []) eqn:P.
    + apply is_prefix_ok in P. destruct P as (b & E). exists [], b. repeat split; auto. intros; cbn; lia.
    + intros (a & b & E). destruct a; [|discriminate].
      assert (is_prefix t [] = true) by (apply is_prefix_ok; now exists b). congruence.
  - destruct (is_prefix t (c :: s)) eqn:P.
    + apply is_prefix_ok in P. destruct P as (b & E). exists [], b. repeat split; auto. intros; cbn; lia.
    + assert (NP : forall b, c :: s <> t ++ b).
      { intros b E. assert (is_prefix t (c :: s) = true) by (apply is_prefix_ok; now exists b). congruence. }
      destruct (find_from t s) as [k|].
      * destruct IH as (a & b & -> & <- & M). exists (c :: a), b. repeat split; auto.
        intros [|x a'] b' E; [now apply NP in E|]. injection E as -> E. apply M in E. cbn [length]. lia.
      * intros ([|x a] & b & E); [now apply NP in E|]. injection E as -> E. apply IH. now exists a, b.
Qed.

Lemma search_replace_ok pat by_ : pat <> [] -> forall n post pre, (length post <= n)%nat ->
  exists r, search_replace_loop (S n) (pre ++ post) pat by_ (length pre) = Ok (pre ++ r) /\ replaced pat by_ post r.
Proof.
  intros N. induction n as [|n IH]; intros post pre L.
  - destruct post; [|cbn in L; lia]. cbn [search_replace_loop]. unfold str_find. rewrite app_nil_r.
    destruct (Nat.ltb_spec (length pre) (length pre)); [lia|]. rewrite skipn_all.
    pose proof (find_from_ok pat []) as F. destruct (find_from pat []) as [k|].
    + exfalso. destruct F as (a & b & E & _). destruct a; [|discriminate]. destruct pat; [congruence|discriminate].
    + exists []. rewrite app_nil_r. split; [reflexivity|]. now constructor.
  - change (search_replace_loop (S (S n)) (pre ++ post) pat by_ (length pre)) with
      (match str_find (pre ++ post) pat (length pre) with
       | None => Ok (pre ++ post)
       | Some pos =>
           let s := firstn pos (pre ++ post) ++ by_ ++ skipn (pos + length pat) (pre ++ post) in
           search_replace_loop (S n) s pat by_ (pos + length by_)
       end).
    unfold str_find. destruct (Nat.ltb_spec (length (pre ++ post)) (length pre)) as [H|_]; [rewrite app_length in H; lia|].
    rewrite skipn_exact. pose proof (find_from_ok pat post) as F. destruct (find_from pat post) as [k|].
    + destruct F as (a & b & -> & <- & M). cbv zeta.
      replace (length pre + length a)%nat with (length (pre ++ a)) by apply app_length.
      replace (pre ++ a ++ pat ++ b) with ((pre ++ a) ++ pat ++ b) by (now rewrite <- app_assoc).
      rewrite firstn_exact.
      replace (length (pre ++ a) + length pat)%nat with (length ((pre ++ a) ++ pat)) by apply app_length.
      replace ((pre ++ a) ++ pat ++ b) with (((pre ++ a) ++ pat) ++ b) by (now rewrite <- app_assoc).
      rewrite skipn_exact.
      replace ((pre ++ a) ++ by_ ++ b) with (((pre ++ a) ++ by_) ++ b) by (now rewrite <- app_assoc).
      rewrite <- app_length.
      destruct (IH b ((pre ++ a) ++ by_)) as (r & E & R).
      { rewrite !app_length in L. destruct pat; [congruence|]. cbn [length] in L. lia. }
      exists (a ++ by_ ++ r). rewrite E. split; [now rewrite <- !app_assoc|]. now constructor.
    + exists post. split; [reflexivity|]. now constructor.
Qed.
(** An empty search text: the loop never ends. *)
Lemma search_replace_empty by_ fuel : forall s pos, (pos <= length s)%nat ->
  search_replace_loop fuel s [] by_ pos = OutOfFuel.
Proof.
  induction fuel as [|fuel IH]; intros s pos L; [reflexivity|]. cbn [search_replace_loop]. unfold str_find.
  destruct (Nat.ltb_spec (length s) pos); [lia|].
  assert (E : find_from [] (skipn pos s) = Some 0%nat) by (destruct (skipn pos s); reflexivity).
  rewrite E, Nat.add_0_r. cbv zeta. apply IH.
  rewrite !app_length, firstn_length_le, skipn_length by lia. cbn [length]. lia.
Qed.
Lemma pos_find_iff s t : short s -> pos_z (str_find s t 0) <> npos <-> part_of t s.
Proof.
  intros L. unfold str_find. destruct (Nat.ltb_spec (length s) 0); [lia|]. cbn [skipn].
  pose proof (find_from_ok t s) as F. destruct (find_from t s) as [k|].
  - destruct F as (a & b & -> & <- & _). split; [intros _; now exists a, b|]. intros _. unfold pos_z, npos.
    rewrite !app_length in L. lia.
  - split; [intros N; now contradiction N|]. intros Q. contradiction.
Qed.
Lemma contains_ok s t : short s -> str_contains s t = true <-> part_of t s.
Proof. intros L. unfold str_contains. rewrite negb_true_iff, Z.eqb_neq. now apply pos_find_iff. Qed.
Lemma in_ok s t : short s -> str_in t s = true <-> part_of t s.
Proof.
  intros L. unfold str_in. rewrite negb_true_iff, Z.eqb_neq.
  rewrite <- (pos_find_iff s t L). split; intros H E; apply H; congruence.
Qed.

Lemma min_front {A} (x y u w : list A) : x ++ u = y ++ w -> length x = length y -> x = y /\ u = w.
Proof.
  revert y. induction x as [|c x IH]; intros [|d y] E L; try discriminate; [auto|].
  injection E as -> E. destruct (IH y E) as [-> ->]; auto.
Qed.
(** The result of replacing is determined. *)
Lemma replaced_unique pat by_ s r r' : pat <> [] -> replaced pat by_ s r -> replaced pat by_ s r' -> r = r'.
Proof.
  intros N R. revert r'. induction R as [s H|pre post r M R IH]; intros r' R'.
  - inversion R' as [s' H' E|pre' post' r2 M' R2 E]; subst; [reflexivity|]. exfalso. apply H. now exists pre', post'.
  - inversion R' as [s' H' E|pre' post' r2 M' R2 E E2].
    + subst. exfalso. apply H'. now exists pre, post.
    + pose proof (M _ _ (eq_sym E)). pose proof (M' _ _ E).
      destruct (min_front _ _ _ _ E) as [-> E3]; [lia|]. apply app_inv_head in E3. subst post'.
      now rewrite (IH r2 R2).
Qed.

(** ** Formatting *)
Lemma is_digit_ok c : is_digit c = true <-> digit_char c.
Proof. unfold is_digit, digit_char. rewrite andb_true_iff, !Z.leb_le. reflexivity. Qed.
Lemma take_digits_app ds s : Forall digit_char ds -> (forall c t, s = c :: t -> ~ digit_char c) ->
  take_digits (ds ++ s) = (ds, s).
Proof.
  intros F N. induction F as [|c ds C F IH]; cbn [app take_digits].
  - destruct s as [|c t]; [reflexivity|]. cbn [take_digits]. destruct (is_digit c) eqn:D; [|reflexivity].
    apply is_digit_ok in D. destruct (N c t eq_refl D).
  - apply is_digit_ok in C. now rewrite C, IH.
Qed.
Lemma take_digits_ok s ds r : take_digits s = (ds, r) -> s = ds ++ r /\ Forall digit_char ds.
Proof.
  revert ds r. induction s as [|c s IH]; intros ds r; cbn [take_digits]; [intros E; injection E as <- <-; auto|].
  destruct (is_digit c) eqn:D.
  - destruct (take_digits s) as [a q]. intros E. injection E as <- <-. destruct (IH a q eq_refl) as [-> F].
    split; [reflexivity|]. constructor; auto. now apply is_digit_ok.
  - intros E. injection E as <- <-. auto.
Qed.
Definition pairs (ps : list Z) : list Z := List.concat (map (fun p => [58; p]) ps).
Lemma take_colons_app ps s : Forall digit_char ps -> (forall t, s <> 58 :: t) ->
  take_colons (pairs ps ++ s) = (pairs ps, s).
Proof.
  intros F N. induction F as [|p ps P F IH].
  - cbn [pairs map List.concat app]. destruct s as [|c [|d t]]; [reflexivity|reflexivity|]. cbn [take_colons].
    destruct (Z.eqb_spec c 58) as [->|]; [destruct (N (d :: t) eq_refl)|reflexivity].
  - change (pairs (p :: ps)) with (58 :: p :: pairs ps). cbn [app take_colons]. apply is_digit_ok in P.
    now rewrite P, Z.eqb_refl, IH.
Qed.
Lemma take_colons_ok n s cs r : (length s <= n)%nat -> take_colons s = (cs, r) ->
  exists ps, s = cs ++ r /\ cs = pairs ps /\ Forall digit_char ps.
Proof.
  revert s cs r. induction n as [|n IH]; intros s cs r L.
  - destruct s; [|cbn in L; lia]. cbn [take_colons]. intros E. injection E as <- <-. now exists [].
  - destruct s as [|c [|d s]]; cbn [take_colons].
    + intros E. injection E as <- <-. now exists [].
    + intros E. injection E as <- <-. now exists [].
    + destruct ((c =? 58) && is_digit d) eqn:B.
      * apply andb_true_iff in B. destruct B as [->%Z.eqb_eq D%is_digit_ok].
        destruct (take_colons s) as [a q] eqn:T. intros E. injection E as <- <-.
        cbn [length] in L. destruct (IH s a q ltac:(lia) T) as (ps & -> & -> & F).
        exists (d :: ps). repeat split; auto.
      * intros E. injection E as <- <-. now exists [].
Qed.
Lemma pairs_head ps s : (exists p t, pairs ps ++ s = 58 :: p :: t) \/ (ps = [] /\ pairs ps ++ s = s).
Proof. destruct ps as [|p ps]; [right; auto|left]. exists p, (pairs ps ++ s). reflexivity. Qed.

Lemma match_here_some s body rest : match_here s = Some (body, rest) <-> placeholder body /\ s = braced body ++ rest.
Proof.
  split.
  - unfold match_here. destruct s as [|c t]; [discriminate|]. destruct (Z.eqb_spec c 123) as [->|]; [|discriminate].
    destruct (take_digits t) as [ds t1] eqn:T1. destruct (take_colons t1) as [cs t2] eqn:T2.
    destruct ds as [|d ds]; [discriminate|]. destruct t2 as [|e r]; [discriminate|].
    destruct (Z.eqb_spec e 125) as [->|]; [|discriminate]. intros E.
    apply take_digits_ok in T1. destruct T1 as [-> F].
    apply (take_colons_ok (length t1) _ _ _ (Nat.le_refl _)) in T2. destruct T2 as (ps & -> & -> & Fp).
    assert (EB : body = (d :: ds) ++ pairs ps) by congruence. assert (ER : rest = r) by congruence. subst.
    split; [exists (d :: ds), ps; repeat split; auto; discriminate|].
    unfold braced. cbn [app]. f_equal. f_equal. now rewrite <- !app_assoc.
  - intros [(ds & ps & N & F & Fp & ->) ->]. fold (pairs ps). unfold braced, match_here. cbn [app]. rewrite Z.eqb_refl.
    rewrite <- !app_assoc. cbn [app]. rewrite take_digits_app; auto.
    + rewrite take_colons_app; auto.
      * destruct ds; [congruence|]. rewrite Z.eqb_refl. reflexivity.
      * intros t E. discriminate.
    + intros c t E. destruct (pairs_head ps (125 :: rest)) as [(p & t' & E')|[-> E']]; rewrite E' in E; injection E as <- _;
        unfold digit_char; lia.
Qed.
Lemma starts_iff s : starts_placeholder s <-> match_here s <> None.
Proof.
  split.
  - intros (body & rest & H). apply match_here_some in H. congruence.
  - destruct (match_here s) as [[body rest]|] eqn:E; [|congruence]. intros _. exists body, rest. now apply match_here_some.
Qed.

Definition leftmost (pre b : list Z) : Prop :=
  forall x y, pre ++ b = x ++ y -> starts_placeholder y -> (length pre <= length x)%nat.
Lemma regex_search_ok s :
  match regex_search s with
  | Some (pre, body, rest) => s = pre ++ braced body ++ rest /\ placeholder body /\ leftmost pre (braced body ++ rest)
  | None => forall a b, s = a ++ b -> ~ starts_placeholder b
  end.
Proof.
  induction s as [|c s IH].
  - cbn [regex_search match_here]. intros a b E. destruct a; [|discriminate]. cbn [app] in E. subst b.
    rewrite starts_iff. cbn. congruence.
  - cbn [regex_search]. destruct (match_here (c :: s)) as [[body rest]|] eqn:M.
    + apply match_here_some in M. destruct M as [P E]. split; [exact E|]. split; auto. intros x y _ _. cbn. lia.
    + destruct (regex_search s) as [[[pre body] rest]|].
      * destruct IH as (-> & P & L). split; [reflexivity|]. split; auto.
        intros [|d x] y E H.
        -- exfalso. cbn [app] in E. subst y. apply starts_iff in H. cbn [app] in H, M. congruence.
        -- cbn [app] in E. injection E as -> E. apply L in E; auto. cbn [length]. lia.
      * intros [|d a] b E.
        -- cbn [app] in E. subst b. rewrite starts_iff. congruence.
        -- cbn [app] in E. injection E as -> E. now apply (IH a b).
Qed.

Lemma body_split ds ps : Forall digit_char ds -> Forall digit_char ps ->
  split_char (ds ++ pairs ps) 58 = Ok (ds :: map (fun p => [p]) ps).
Proof.
  intros F Fp.
  assert (E : forall ps, ds ++ pairs ps = joined [58] (ds :: map (fun p => [p]) ps)).
  { clear. intros ps. revert ds. induction ps as [|p ps IH]; intros ds; [apply app_nil_r|].
    change (pairs (p :: ps)) with ([58] ++ [p] ++ pairs ps). rewrite (IH [p]). reflexivity. }
  rewrite E, <- combine_ok. apply split_combine; [discriminate|]. constructor.
  - intros I1. rewrite Forall_forall in F. apply F in I1. unfold digit_char in I1. lia.
  - apply Forall_forall. intros l I1. apply in_map_iff in I1. destruct I1 as (p & <- & I2). intros [->|[]].
    rewrite Forall_forall in Fp. apply Fp in I2. unfold digit_char in I2. lia.
Qed.
Lemma number_nonneg ds : Forall digit_char ds -> 0 <= number ds.
Proof.
  unfold number. assert (H : forall n, 0 <= n -> Forall digit_char ds -> 0 <= fold_left (fun n c => 10 * n + (c - 48)) ds n).
  { induction ds as [|c ds IH]; intros n H F; cbn [fold_left]; [auto|]. inversion F as [|? ? C F']; subst.
    apply IH; auto. unfold digit_char in C. lia. }
  intros F. apply H; [lia|auto].
Qed.
Lemma argument_ok args ds : Z.of_nat (length args) < 2 ^ 64 -> Forall digit_char ds ->
  argument args (read_size ds) =
    match nth_error args (Z.to_nat (number ds)) with Some a => Ok a | None => UB end.
Proof.
  intros L F. unfold argument, read_size. change (read_num ds) with (number ds).
  pose proof (number_nonneg ds F) as P. unfold npos. destruct (Z.ltb_spec (Z.min (number ds) (2 ^ 64 - 1)) (Z.of_nat (length args))) as [H|H].
  - rewrite Z.min_l by lia. reflexivity.
  - destruct (nth_error args (Z.to_nat (number ds))) eqn:E; [|reflexivity]. exfalso.
    assert (Z.to_nat (number ds) < length args)%nat by (apply nth_error_Some; congruence). lia.
Qed.

Lemma digits_pairs ds ps ds' ps' : Forall digit_char ds -> Forall digit_char ds' ->
  ds ++ pairs ps = ds' ++ pairs ps' -> ds = ds' /\ ps = ps'.
Proof.
  intros F F'. revert ds' F'. induction F as [|c ds C F IH]; intros ds' F' E.
  - destruct F' as [|d ds' D F']; cbn [app] in E.
    + split; [auto|]. clear -E. revert ps' E. induction ps as [|p ps IH]; intros [|q ps'] E; try discriminate; [auto|].
      change (58 :: p :: pairs ps = 58 :: q :: pairs ps') in E. injection E as -> E. f_equal. auto.
    + exfalso. destruct ps as [|p ps]; [discriminate|]. change (pairs (p :: ps)) with (58 :: p :: pairs ps) in E.
      injection E as <- _. unfold digit_char in D. lia.
  - destruct F' as [|d ds' D F']; cbn [app] in E.
    + exfalso. destruct ps' as [|p ps']; [discriminate|]. change (pairs (p :: ps')) with (58 :: p :: pairs ps') in E.
      injection E as -> _. unfold digit_char in C. lia.
    + injection E as -> E. destruct (IH ds' F' E) as [-> ->]. auto.
Qed.

Section Fmt.
  Variable fixed : list Z -> Z -> list Z.
  Variable args : list (list Z).
  Hypothesis few : Z.of_nat (length args) < 2 ^ 64.

  (** What a placeholder gives. *)
  Definition subst_body (body : list Z) : res (list Z) :=
    delims <- split_char body 58 ;;
    match delims with
    | [] | [_] => argument args (read_size body)
    | [d0; d1] => a <- argument args (read_size d0) ;; Ok (fixed a (read_num d1))
    | _ => Throw
    end.
  Lemma subst_ok body a : placeholder body -> subst_body body = Ok a <-> stands_for fixed args body a.
  Proof.
    intros (ds & ps & N & F & Fp & ->). fold (pairs ps). unfold subst_body. rewrite body_split by auto. cbn [bind].
    destruct ps as [|p [|q ps]]; cbn [map].
    - rewrite app_nil_r. rewrite argument_ok by auto. destruct (nth_error args (Z.to_nat (number ds))) as [x|] eqn:E.
      + split.
        * intros H. injection H as <-. now constructor.
        * intros H. inversion H as [? ? _ E2 E3|ds2 p2 a2 F2 E2 E3]; subst; [congruence|].
          exfalso. apply Forall_app in F. destruct F as [_ F]. inversion F as [|? ? C _]; subst. unfold digit_char in C. lia.
      + split; [discriminate|]. intros H. exfalso. inversion H as [? ? _ E2 E3|ds2 p2 a2 F2 E2 E3]; subst; [congruence|].
        apply Forall_app in F. destruct F as [_ F]. inversion F as [|? ? C _]; subst. unfold digit_char in C. lia.
    - change (pairs [p]) with [58; p]. rewrite argument_ok by auto.
      assert (EN : read_num [p] = p - 48) by (cbn; lia). rewrite EN.
      assert (D2 : forall b, stands_for fixed args (ds ++ [58; p]) b -> exists x, nth_error args (Z.to_nat (number ds)) = Some x /\ b = fixed x (p - 48)).
      { intros b H. inversion H as [? ? F2 E2 E3|ds2 p2 a2 F2 E2 E3]; subst.
        - exfalso. apply Forall_app in F2. destruct F2 as [_ F2]. inversion F2 as [|? ? C _]; subst. unfold digit_char in C. lia.
        - change (ds2 ++ pairs [p2] = ds ++ pairs [p]) in E3. destruct (digits_pairs _ _ _ _ F2 F E3) as [-> E4]. injection E4 as ->. eauto. }
      destruct (nth_error args (Z.to_nat (number ds))) as [x|] eqn:E; cbn [bind].
      + split.
        * intros H. injection H as <-. now constructor.
        * intros H. apply D2 in H. destruct H as (y & E2 & ->). congruence.
      + split; [discriminate|]. intros H. apply D2 in H. destruct H as (y & E2 & ->). congruence.
    - split; [discriminate|]. intros H. exfalso. inversion H as [? ? F2 E2 E3|ds2 p2 a2 F2 E2 E3]; subst.
      + apply Forall_app in F2. destruct F2 as [_ F2]. inversion F2 as [|? ? C _]; subst. unfold digit_char in C. lia.
      + change (ds2 ++ pairs [p2] = ds ++ pairs (p :: q :: ps)) in E3. destruct (digits_pairs _ _ _ _ F2 F E3) as [_ E4]. discriminate.
  Qed.
  Lemma subst_many ds p q ps : ds <> [] -> Forall digit_char ds -> Forall digit_char (p :: q :: ps) ->
    subst_body (ds ++ pairs (p :: q :: ps)) = Throw.
  Proof. intros N F Fp. unfold subst_body. rewrite body_split by auto. reflexivity. Qed.
  Lemma subst_range ds : ds <> [] -> Forall digit_char ds -> Z.of_nat (length args) <= number ds -> subst_body ds = UB.
  Proof.
    intros N F L. unfold subst_body. rewrite <- (app_nil_r ds) at 1. change (ds ++ []) with (ds ++ pairs []).
    rewrite body_split by auto. cbn [bind map]. rewrite argument_ok by auto.
    assert (E : nth_error args (Z.to_nat (number ds)) = None) by (apply nth_error_None; lia). now rewrite E.
  Qed.

  Lemma fmt_step fuel f out : fmt_loop fixed (S fuel) args f out =
    match regex_search f with
    | None => Ok (out ++ f)
    | Some (prefix, body, suffix) =>
        t <- (if ends_with prefix [123] then Ok (braced body) else subst_body body) ;;
        fmt_loop fixed fuel args suffix (out ++ prefix ++ t)
    end.
  Proof.
    cbn [fmt_loop]. destruct (regex_search f) as [[[prefix body] suffix]|]; [|reflexivity].
    destruct (ends_with prefix [123]).
    - cbn [bind]. unfold braced. now rewrite <- !app_assoc.
    - unfold subst_body. destruct (split_char body 58) as [ds| | |]; [|reflexivity|reflexivity|reflexivity]. cbn [bind].
      destruct ds as [|d0 [|d1 [|d2 ds]]].
      + destruct (argument args (read_size body)) as [a| | |]; cbn [bind]; rewrite <- ?app_assoc; reflexivity.
      + destruct (argument args (read_size body)) as [a| | |]; cbn [bind]; rewrite <- ?app_assoc; reflexivity.
      + destruct (argument args (read_size d0)) as [a| | |]; cbn [bind]; rewrite <- ?app_assoc; reflexivity.
      + reflexivity.
  Qed.

  Lemma braced_len body : (1 <= length (braced body))%nat.
  Proof. unfold braced. cbn [length]. lia. Qed.

  Lemma fmt_loop_sound : forall n f out r, (length f <= n)%nat -> short f ->
    fmt_loop fixed (S n) args f out = Ok r -> exists o, r = out ++ o /\ formatted fixed args f o.
  Proof.
    induction n as [|n IH]; intros f out r L Sh; rewrite fmt_step; pose proof (regex_search_ok f) as R.
    - destruct f; [|cbn in L; lia]. cbn [regex_search match_here] in *. intros E. injection E as <-. exists []. split; [auto|].
      now constructor.
    - destruct (regex_search f) as [[[pre body] rest]|].
      + destruct R as (-> & P & M). pose proof (braced_len body). rewrite !app_length in L, Sh.
        intros E. destruct (ends_with pre [123]) eqn:B.
        * cbn [bind] in E. apply IH in E; [|lia|lia]. destruct E as (o & -> & Fo). exists (pre ++ braced body ++ o).
          split; [now rewrite <- !app_assoc|]. apply fmt_keep; auto. apply ends_with_single in B; [|lia]. destruct B as (p & ->). eauto.
        * destruct (subst_body body) as [a| | |] eqn:S1; try discriminate. cbn [bind] in E.
          apply IH in E; [|lia|lia]. destruct E as (o & -> & Fo). exists (pre ++ a ++ o).
          split; [now rewrite <- !app_assoc|]. apply subst_ok in S1; auto. apply fmt_arg; auto.
          intros (p & Ep). assert (ends_with pre [123] = true) by (apply ends_with_single; [lia|now exists p]). congruence.
      + intros E. injection E as <-. exists f. split; [auto|]. now constructor.
  Qed.
  Lemma split_unique pre body rest pre' body' rest' : placeholder body -> placeholder body' ->
    leftmost pre (braced body ++ rest) -> leftmost pre' (braced body' ++ rest') ->
    pre ++ braced body ++ rest = pre' ++ braced body' ++ rest' -> pre = pre' /\ body = body' /\ rest = rest'.
  Proof.
    intros P P' M M' E.
    pose proof (M _ _ E ltac:(exists body', rest'; auto)). pose proof (M' _ _ (eq_sym E) ltac:(exists body, rest; auto)).
    destruct (min_front _ _ _ _ E) as [-> E2]; [lia|].
    assert (A : match_here (braced body ++ rest) = Some (body, rest)) by (apply match_here_some; auto).
    assert (B : match_here (braced body ++ rest) = Some (body', rest')) by (apply match_here_some; auto).
    assert (C : (body, rest) = (body', rest')) by congruence. injection C; auto.
  Qed.
  Lemma fmt_loop_complete f o : formatted fixed args f o -> short f -> forall n out, (length f <= n)%nat ->
    fmt_loop fixed (S n) args f out = Ok (out ++ o).
  Proof.
    induction 1 as [f N|pre body rest o M P K Fo IH|pre body rest a o M P K Sa Fo IH]; intros Sh n out L; rewrite fmt_step.
    - pose proof (regex_search_ok f) as R. destruct (regex_search f) as [[[pre body] rest]|]; [|reflexivity].
      exfalso. destruct R as (E & P & _). apply (N _ _ E). exists body, rest. auto.
    - pose proof (regex_search_ok (pre ++ braced body ++ rest)) as R.
      destruct (regex_search (pre ++ braced body ++ rest)) as [[[pre' body'] rest']|].
      2:{ exfalso. apply (R _ _ eq_refl). exists body, rest. auto. }
      destruct R as (E & P' & M'). destruct (split_unique _ _ _ _ _ _ P P' M M' E) as (<- & <- & <-).
      destruct K as (p & ->). pose proof (braced_len body). rewrite !app_length in L, Sh. cbn [length] in L, Sh.
      assert (B : ends_with (p ++ [123]) [123] = true) by (apply ends_with_single; [rewrite app_length; cbn [length]; lia|now exists p]).
      rewrite B. cbn [bind]. destruct n as [|n]; [lia|]. rewrite IH by lia. now rewrite <- !app_assoc.
    - pose proof (regex_search_ok (pre ++ braced body ++ rest)) as R.
      destruct (regex_search (pre ++ braced body ++ rest)) as [[[pre' body'] rest']|].
      2:{ exfalso. apply (R _ _ eq_refl). exists body, rest. auto. }
      destruct R as (E & P' & M'). destruct (split_unique _ _ _ _ _ _ P P' M M' E) as (<- & <- & <-).
      pose proof (braced_len body). rewrite !app_length in L, Sh.
      assert (B : ends_with pre [123] = false).
      { destruct (ends_with pre [123]) eqn:B; [|reflexivity]. apply ends_with_single in B; [|lia]. contradiction. }
      rewrite B. apply subst_ok in Sa; auto. rewrite Sa. cbn [bind]. destruct n as [|n]; [lia|].
      rewrite IH by lia. now rewrite <- !app_assoc.
  Qed.
  Lemma fmt_ok f o : short f -> fmt fixed f args = Ok o <-> formatted fixed args f o.
  Proof.
    intros Sh. unfold fmt. split.
    - intros E. apply fmt_loop_sound in E; auto. destruct E as (o' & -> & F). exact F.
    - intros F. rewrite (fmt_loop_complete f o F Sh) by lia. reflexivity.
  Qed.
End Fmt.

(** * Formats made of items, and formats that do not work *)
Lemma no_brace_leftmost pre b : ~ In 123 pre -> leftmost pre b.
Proof.
  intros N x y E (body & rest & P & Y). destruct (Nat.le_gt_cases (length pre) (length x)) as [|L]; auto.
  exfalso. apply N. subst y. assert (F : pre = firstn (length pre) (x ++ braced body ++ rest)).
  { rewrite <- E. symmetry. apply firstn_exact. }
  rewrite F, firstn_app. apply in_or_app. right. unfold braced.
  destruct (length pre - length x)%nat as [|k] eqn:K; [lia|]. left. reflexivity.
Qed.

Lemma no_brace_snoc pre : ~ In 123 pre -> ~ (exists p, pre = p ++ [123]).
Proof. intros N (p & ->). apply N. apply in_or_app. right. now left. Qed.

Lemma placeholder_digits ds : ds <> [] -> Forall digit_char ds -> placeholder ds.
Proof. intros A B. exists ds, []. repeat split; auto. cbn. now rewrite app_nil_r. Qed.

Lemma placeholder_fixed ds p : ds <> [] -> Forall digit_char ds -> digit_char p -> placeholder (ds ++ [58; p]).
Proof. intros A B C. exists ds, [p]. repeat split; auto. Qed.

Lemma nth_arg (args : list (list Z)) ds : Forall digit_char ds -> number ds < Z.of_nat (length args) ->
  nth_error args (Z.to_nat (number ds)) = Some (nth (Z.to_nat (number ds)) args []).
Proof. intros A B. pose proof (number_nonneg _ A). apply nth_error_nth'. lia. Qed.

Lemma items_formatted fixed args items : Forall (item_ok (length args)) items -> forall pre, ~ In 123 pre ->
  formatted fixed args (pre ++ List.concat (map item_text items)) (pre ++ List.concat (map (item_value fixed args) items)).
Proof.
  induction items as [|i items IH]; intros H pre N.
  - cbn. rewrite app_nil_r. constructor. intros a b E (body & rest & P & ->). apply N. rewrite E.
    apply in_or_app. right. now left.
  - inversion H as [|? ? A B]; subst. specialize (IH B). cbn [map List.concat].
    destruct i as [t|ds|ds p]; cbn [item_text item_value item_ok] in *.
    + rewrite !app_assoc. apply IH. rewrite in_app_iff. tauto.
    + destruct A as (A1 & A2 & A3). apply fmt_arg.
      * apply (no_brace_leftmost pre _ N).
      * now apply placeholder_digits.
      * now apply no_brace_snoc.
      * constructor; auto. now apply nth_arg.
      * apply (IH []). auto.
    + destruct A as (A1 & A2 & A3 & A4). apply fmt_arg.
      * apply (no_brace_leftmost pre _ N).
      * now apply placeholder_fixed.
      * now apply no_brace_snoc.
      * apply fixed_arg; auto. now apply nth_arg.
      * apply (IH []). auto.
Qed.

Lemma fmt_items fixed args items : Z.of_nat (length args) < 2 ^ 64 -> Forall (item_ok (length args)) items ->
  short (List.concat (map item_text items)) ->
  fmt fixed (List.concat (map item_text items)) args = Ok (List.concat (map (item_value fixed args) items)).
Proof. intros F H L. apply fmt_ok; auto. apply (items_formatted fixed args items H []). auto. Qed.

Lemma regex_search_at pre body rest : ~ In 123 pre -> placeholder body ->
  regex_search (pre ++ braced body ++ rest) = Some (pre, body, rest).
Proof.
  intros N P. pose proof (regex_search_ok (pre ++ braced body ++ rest)) as R.
  destruct (regex_search (pre ++ braced body ++ rest)) as [((pre', body'), rest')|].
  - destruct R as (E & P' & L').
    destruct (split_unique (fun a _ => a) [] pre body rest pre' body' rest' P P') as (-> & -> & ->); auto.
    now apply no_brace_leftmost.
  - destruct (R pre _ eq_refl). exists body, rest. auto.
Qed.

Lemma ends_no_brace pre : short pre -> ~ In 123 pre -> ends_with pre [123] = false.
Proof.
  intros L N. destruct (ends_with pre [123]) eqn:E; auto. apply ends_with_single in E; auto.
  destruct E as (a & ->). destruct N. apply in_or_app. right. now left.
Qed.

Lemma fmt_first fixed args pre body rest : ~ In 123 pre -> placeholder body -> short pre ->
  fmt fixed (pre ++ braced body ++ rest) args =
    t <- subst_body fixed args body ;;
    fmt_loop fixed (length (pre ++ braced body ++ rest)) args rest (pre ++ t).
Proof.
  intros N P L. unfold fmt. rewrite fmt_step, regex_search_at, ends_no_brace; auto.
Qed.

Lemma fmt_range fixed args pre ds rest : ~ In 123 pre -> short pre -> ds <> [] -> Forall digit_char ds ->
  Z.of_nat (length args) < 2 ^ 64 -> Z.of_nat (length args) <= number ds ->
  fmt fixed (pre ++ braced ds ++ rest) args = UB.
Proof.
  intros N L A B F G. rewrite fmt_first; auto using placeholder_digits. rewrite subst_range; auto.
Qed.

Lemma fmt_many fixed args pre ds p q ps rest : ~ In 123 pre -> short pre -> ds <> [] -> Forall digit_char ds ->
  Forall digit_char (p :: q :: ps) ->
  fmt fixed (pre ++ braced (ds ++ List.concat (map (fun p => [58; p]) (p :: q :: ps))) ++ rest) args = Throw.
Proof.
  intros N L A B C. rewrite fmt_first; auto.
  - change (List.concat (map (fun p0 => [58; p0]) (p :: q :: ps))) with (pairs (p :: q :: ps)). now rewrite subst_many.
  - exists ds, (p :: q :: ps). auto.
Qed.

Lemma formatted_unique fixed args f o o' : Z.of_nat (length args) < 2 ^ 64 -> short f ->
  formatted fixed args f o -> formatted fixed args f o' -> o = o'.
Proof.
  intros A B H H'. apply (fmt_ok fixed args A f o B) in H. apply (fmt_ok fixed args A f o' B) in H'. congruence.
Qed.

(** * The statements of the properties *)

Lemma trimmed_right_unique ds s r r' : trimmed_right ds s r -> trimmed_right ds s r' -> r = r'.
Proof.
  assert (H : forall r r', trimmed_right ds s r -> trimmed_right ds s r' -> (length r <= length r')%nat -> r = r').
  { clear. intros r r' (t & E & F & N) (t' & E' & F' & N') L.
    assert (P : r = firstn (length r) r').
    { rewrite <- (firstn_exact r t), <- E, E', firstn_app. replace (length r - length r')%nat with 0%nat by lia.
      rewrite app_nil_r. now rewrite firstn_length_le by lia. }
    assert (Q : r' = r ++ skipn (length r) r') by (rewrite P at 1; symmetry; apply firstn_skipn).
    destruct (skipn (length r) r') as [|x l] eqn:K; [now rewrite app_nil_r in Q|].
    exfalso. destruct (exists_last (l := x :: l)) as (l' & y & K'); [discriminate|]. rewrite K' in Q.
    apply (N' (r ++ l') y); [now rewrite <- app_assoc|].
    assert (G : t = (l' ++ [y]) ++ t').
    { apply (app_inv_head r). rewrite <- E, E', Q, <- app_assoc. reflexivity. }
    rewrite G in F. rewrite Forall_forall in F. apply F. apply in_or_app. left. apply in_or_app. right. now left. }
  intros A B. destruct (Nat.le_ge_cases (length r) (length r')); [|symmetry]; apply H; auto.
Qed.

Lemma c234_split :
  (forall s is_delim, exists ps, split_if s is_delim = Ok ps /\ cut_at (fun c => is_delim c = true) s ps) /\
  (forall s d, exists ps, split_char s d = Ok ps /\ cut_at (fun c => c = d) s ps) /\
  (forall s ds, exists ps, split_set s ds = Ok ps /\ cut_at (fun c => In c ds) s ps).
Proof.
  split; [exact split_if_ok | split; [exact split_char_ok | exact split_set_ok]].
Qed.

Lemma c234_pieces_unique :
  forall delim s ps qs, cut_at delim s ps -> cut_at delim s qs -> ps = qs.
Proof.
  exact cut_unique.
Qed.

Lemma c234_combine :
  forall ps chr, str_combine ps chr = joined chr ps.
Proof.
  exact combine_ok.
Qed.

Lemma c234_inverse :
  (forall s d, exists ps, split_char s d = Ok ps /\ str_combine ps [d] = s) /\
  (forall ps d, ps <> [] -> Forall (fun p => ~ In d p) ps -> split_char (str_combine ps [d]) d = Ok ps).
Proof.
  split; [exact combine_split | exact split_combine].
Qed.

Lemma c234_space_partial :
  forall s, Forall (fun c => -1 <= c <= 255) s ->
  exists ps, split_space s = Ok ps /\ cut_at (fun c => c = 32 \/ 9 <= c <= 13) s ps.
Proof.
  exact split_space_ok.
Qed.

Lemma c234_space_refuted :
  forall a d b, Forall (fun c => -1 <= c <= 255) a -> d < -1 -> split_space (a ++ d :: b) = UB.
Proof.
  exact split_space_ub.
Qed.

Lemma c235_trim_right :
  forall ds s, Z.of_nat (length s) < 2 ^ 63 -> exists r, trim_right s ds = Ok r /\ trimmed_right ds s r.
Proof.
  exact trim_right_ok.
Qed.

Lemma c235_trim :
  forall ds s, Z.of_nat (length s) < 2 ^ 63 -> exists r, trim s ds = Ok r /\ trimmed ds s r.
Proof.
  exact trim_ok.
Qed.

Lemma c235_trim_left_partial :
  forall ds s, Z.of_nat (length s) < 2 ^ 63 -> s = [] \/ (exists c, In c s /\ ~ In c ds) ->
  exists r, trim_left s ds = Ok r /\ trimmed_left ds s r.
Proof.
  exact trim_left_ok.
Qed.

Lemma c235_trim_left_refuted :
  forall ds s, Z.of_nat (length s) < 2 ^ 63 -> s <> [] -> Forall (fun c => In c ds) s -> trim_left s ds = Throw.
Proof.
  exact trim_left_throws.
Qed.

Lemma c235_unique :
  forall ds s r r', trimmed_right ds s r -> trimmed_right ds s r' -> r = r'.
Proof.
  exact trimmed_right_unique.
Qed.

Lemma c236_char :
  forall src c, exists b, ends_with_char src c = Ok b /\ (b = true <-> ends_in src [c]).
Proof.
  exact ends_with_char_ok.
Qed.

Lemma c236_string_partial :
  forall src c, Z.of_nat (length src) < 2 ^ 63 -> ends_with src [c] = true <-> ends_in src [c].
Proof.
  exact ends_with_single.
Qed.

Lemma c236_string_refuted :
  forall src e, Z.of_nat (length src) < 2 ^ 63 -> ends_with src e = true <-> exists a c, src = a ++ [c] /\ In c e.
Proof.
  exact ends_with_iff.
Qed.

Lemma c237_replace :
  forall pat by_ s, pat <> [] -> exists r, replaced pat by_ s r /\
  forall fuel, (length s < fuel)%nat -> search_replace_loop fuel s pat by_ 0 = Ok r.
Proof.
  intros pat by_ s H. destruct (search_replace_ok pat by_ H (length s) s [] (le_n _)) as (r & _ & R). exists r. split; auto.
  intros [|n] L; [lia|]. destruct (search_replace_ok pat by_ H n s []) as (r' & E & R'); [lia|].
  cbn [app length] in E. rewrite E. f_equal. exact (replaced_unique pat by_ s r' r H R' R).
Qed.

Lemma c237_unique :
  forall pat by_ s r r', pat <> [] -> replaced pat by_ s r -> replaced pat by_ s r' -> r = r'.
Proof.
  exact replaced_unique.
Qed.

Lemma c237_empty_refuted :
  forall by_ s fuel, search_replace_loop fuel s [] by_ 0 = OutOfFuel.
Proof.
  intros by_ s fuel. apply search_replace_empty. lia.
Qed.

Lemma c237_contains :
  forall s t, Z.of_nat (length s) < 2 ^ 63 -> (str_contains s t = true <-> part_of t s) /\ (str_in t s = true <-> part_of t s).
Proof.
  intros s t L. split; [exact (contains_ok s t L) | exact (in_ok s t L)].
Qed.

Lemma c238_format :
  forall fixed args f o, Z.of_nat (length args) < 2 ^ 64 -> Z.of_nat (length f) < 2 ^ 63 ->
  fmt fixed f args = Ok o <-> formatted fixed args f o.
Proof.
  intros fixed args f o A B. exact (fmt_ok fixed args A f o B).
Qed.

Lemma c238_items :
  forall fixed args items, Z.of_nat (length args) < 2 ^ 64 -> Forall (item_ok (length args)) items ->
  Z.of_nat (length (List.concat (map item_text items))) < 2 ^ 63 ->
  fmt fixed (List.concat (map item_text items)) args = Ok (List.concat (map (item_value fixed args) items)).
Proof.
  exact fmt_items.
Qed.

Lemma c238_kept :
  forall fixed args f, Z.of_nat (length args) < 2 ^ 64 -> Z.of_nat (length f) < 2 ^ 63 -> ~ In 123 f -> fmt fixed f args = Ok f.
Proof.
  intros fixed args f A B C. apply (fmt_ok fixed args A f f B). constructor. intros a b E (body & rest & _ & ->). apply C. rewrite E.
  apply in_or_app. right. now left.
Qed.

Lemma c238_colons :
  forall fixed args pre ds p q ps rest, ~ In 123 pre -> Z.of_nat (length pre) < 2 ^ 63 -> ds <> [] -> Forall digit_char ds ->
  Forall digit_char (p :: q :: ps) ->
  fmt fixed (pre ++ braced (ds ++ List.concat (map (fun p => [58; p]) (p :: q :: ps))) ++ rest) args = Throw.
Proof.
  exact fmt_many.
Qed.

Lemma c238_index_refuted :
  forall fixed args pre ds rest, ~ In 123 pre -> Z.of_nat (length pre) < 2 ^ 63 -> ds <> [] -> Forall digit_char ds ->
  Z.of_nat (length args) < 2 ^ 64 -> Z.of_nat (length args) <= number ds ->
  fmt fixed (pre ++ braced ds ++ rest) args = UB.
Proof.
  exact fmt_range.
Qed.
