(** Proofs about daw::vector and daw::split_buffer. *)
From Verif Require Import Common Ints Math Vector SpecVector SpecBits CommonProofs BitsProofs MathProofs.
From Coq Require Import ZifyBool.
Open Scope Z_scope.
Local Arguments Z.mul : simpl never.
Local Arguments Z.add : simpl never.
Local Arguments Z.sub : simpl never.
Local Arguments Z.pow : simpl never.
Local Arguments Z.of_nat : simpl never.
Local Arguments Z.to_nat : simpl never.
Local Arguments Nat.ltb : simpl never.
Local Arguments Nat.leb : simpl never.
Local Arguments Nat.div : simpl never.
Local Arguments Nat.sub : simpl never.

(** ** Slots *)
Lemma rd_mid {T} (pre post : list T) (s : T) i : i = length pre -> rd (pre ++ s :: post) i = Ok s.
Proof. intros ->. unfold rd. rewrite nth_error_app2, Nat.sub_diag by lia. reflexivity. Qed.
Lemma upd_mid {T} (pre post : list T) (s t : T) i : i = length pre -> upd (pre ++ s :: post) i t = pre ++ t :: post.
Proof. intros ->. induction pre as [|h pre IH]; cbn; [reflexivity | rewrite IH; reflexivity]. Qed.
Lemma repeat_snoc {T} (x : T) n : repeat x (S n) = repeat x n ++ [x].
Proof. apply repeat_cons. Qed.
Lemma map_snoc {T U} (f : T -> U) l x : map f (l ++ [x]) = map f l ++ [f x].
Proof. apply map_app. Qed.
Lemma app_cons {T} (l : list T) x r : l ++ x :: r = (l ++ [x]) ++ r.
Proof. rewrite <- app_assoc. reflexivity. Qed.
Lemma repeat_plus {T} (x : T) a b : repeat x (a + b) = repeat x a ++ repeat x b.
Proof. apply repeat_app. Qed.

Section P.
Context {A : Type}.
Variable trivial : bool.
Implicit Types (m pre post : mem A) (xs ys l : list A).

Definition live (s : slot A) : Prop := s <> Raw.
Definition okslot (s : slot A) : Prop := trivial = true \/ live s.
Lemma live_ok ss : Forall live ss -> Forall okslot ss.
Proof. apply Forall_impl. intros s H. right. exact H. Qed.
Lemma live_obj xs : Forall live (map Obj xs).
Proof. induction xs; constructor; [discriminate | assumption]. Qed.
Lemma live_moved n : Forall live (repeat (@Moved A) n).
Proof. induction n; constructor; [discriminate | assumption]. Qed.

Lemma construct_mid pre post a i : i = length pre -> construct trivial (pre ++ Raw :: post) i a = Ok (pre ++ Obj a :: post).
Proof. intros E. unfold construct. rewrite rd_mid by exact E. cbn [bind]. rewrite upd_mid by exact E. reflexivity. Qed.
Lemma read_mid pre post a i : i = length pre -> read (pre ++ Obj a :: post) i = Ok a.
Proof. intros E. unfold read. rewrite rd_mid by exact E. reflexivity. Qed.
Lemma assign_mid pre post s a i : i = length pre -> okslot s -> assign_slot trivial (pre ++ s :: post) i a = Ok (pre ++ Obj a :: post).
Proof.
  intros E [T | L]; unfold assign_slot; rewrite rd_mid by exact E; cbn [bind]; rewrite upd_mid by exact E.
  - rewrite T. destruct s; reflexivity.
  - destruct s; [exfalso; apply L; reflexivity | reflexivity | reflexivity].
Qed.
Lemma destroy_mid pre post s i : i = length pre -> live s -> destroy trivial (pre ++ s :: post) i = Ok (pre ++ Raw :: post).
Proof.
  intros E L. unfold destroy. rewrite rd_mid by exact E. cbn [bind]. rewrite upd_mid by exact E.
  destruct s; [exfalso; apply L; reflexivity | reflexivity | reflexivity].
Qed.
Lemma move_mid pre post a i : i = length pre -> move_out (pre ++ Obj a :: post) i = Ok (a, pre ++ Moved :: post).
Proof. intros E. unfold move_out. rewrite read_mid by exact E. cbn [bind]. rewrite upd_mid by exact E. reflexivity. Qed.

(** ** Loops *)
Lemma construct_list_raw l : forall pre post i, i = length pre ->
  construct_list trivial (pre ++ repeat Raw (length l) ++ post) i l = Ok (pre ++ map Obj l ++ post).
Proof.
  induction l as [|a l IH]; intros pre post i E; [reflexivity|].
  cbn [construct_list length repeat app map]. rewrite construct_mid by exact E. cbn [bind].
  rewrite app_cons, IH by (rewrite app_length; cbn; lia). rewrite <- app_cons. reflexivity.
Qed.
Lemma construct_n_raw n : forall pre post i x a, i = length pre -> (forall q, read_ref (pre ++ q) x = Ok a) ->
  construct_n trivial (pre ++ repeat Raw n ++ post) i n x None = Ok (pre ++ map Obj (repeat a n) ++ post).
Proof.
  induction n as [|n IH]; intros pre post i x a E R; [reflexivity|].
  cbn [construct_n repeat app map]. rewrite R. cbn [bind]. rewrite construct_mid by exact E. cbn [bind].
  rewrite app_cons, (IH _ _ _ _ a).
  - rewrite <- app_cons. reflexivity.
  - rewrite app_length; cbn; lia.
  - intros q. rewrite <- app_assoc. apply R.
Qed.
Lemma construct_n_src n : forall pre post i x a s, i = length pre -> read_ref s x = Ok a ->
  construct_n trivial (pre ++ repeat Raw n ++ post) i n x (Some s) = Ok (pre ++ map Obj (repeat a n) ++ post).
Proof.
  induction n as [|n IH]; intros pre post i x a s E R; [reflexivity|].
  cbn [construct_n repeat app map]. rewrite R. cbn [bind]. rewrite construct_mid by exact E. cbn [bind].
  rewrite app_cons, (IH _ _ _ _ a); [rewrite <- app_cons; reflexivity | rewrite app_length; cbn; lia | exact R].
Qed.
Lemma assign_list_live l : forall pre ss post i, i = length pre -> length ss = length l -> Forall okslot ss ->
  assign_list trivial (pre ++ ss ++ post) i l = Ok (pre ++ map Obj l ++ post).
Proof.
  induction l as [|a l IH]; intros pre [|s ss] post i E L F; try discriminate L; [reflexivity|].
  inversion F as [|? ? F1 F2]; subst.
  cbn [assign_list app map]. rewrite assign_mid by auto. cbn [bind].
  rewrite app_cons, IH; [rewrite <- app_cons; reflexivity | rewrite app_length; cbn; lia | cbn in L; lia | exact F2].
Qed.
Lemma fill_n_live n : forall pre ss post i x a, i = length pre -> length ss = n -> Forall okslot ss ->
  (forall j, (j <= n)%nat -> read_ref (pre ++ map Obj (repeat a j) ++ skipn j ss ++ post) x = Ok a) ->
  fill_n trivial (pre ++ ss ++ post) i n x = Ok (pre ++ map Obj (repeat a n) ++ post).
Proof.
  induction n as [|n IH]; intros pre [|s ss] post i x a E L F R; try discriminate L; [reflexivity|].
  inversion F as [|? ? F1 F2]; subst.
  pose proof (R 0%nat ltac:(lia)) as R0. cbn [skipn repeat map app] in R0.
  cbn [fill_n app map repeat]. rewrite R0. cbn [bind]. rewrite assign_mid by auto. cbn [bind].
  rewrite app_cons, (IH _ _ _ _ _ a).
  - rewrite <- app_cons. reflexivity.
  - rewrite app_length; cbn; lia.
  - cbn in L; lia.
  - exact F2.
  - intros j Hj. specialize (R (S j) ltac:(lia)). cbn [skipn repeat map app] in R. rewrite <- app_cons. exact R.
Qed.
Lemma destroy_down_live ss : forall pre post, Forall live ss ->
  destroy_down trivial (pre ++ ss ++ post) (length pre + length ss) (length ss) = Ok (pre ++ repeat Raw (length ss) ++ post).
Proof.
  induction ss as [|s ss IH] using rev_ind; intros pre post F; [reflexivity|].
  apply Forall_app in F. destruct F as [F1 F2]. inversion F2; subst.
  rewrite app_length, Nat.add_1_r, Nat.add_succ_r. cbn [destroy_down].
  rewrite <- app_assoc. cbn [app]. rewrite (app_assoc pre ss), destroy_mid by (try assumption; rewrite app_length; lia).
  cbn [bind]. rewrite <- app_assoc, IH by assumption. rewrite repeat_snoc, <- app_assoc. reflexivity.
Qed.
Lemma move_forward_live ys : forall pre ds post src dst, dst = length pre -> src = (length pre + length ds)%nat -> ds <> [] -> Forall okslot ds ->
  exists hs, length hs = length ds /\ Forall okslot hs /\ (Forall live ds -> Forall live hs) /\
    move_forward trivial (pre ++ ds ++ map Obj ys ++ post) src dst (length ys) = Ok (pre ++ map Obj ys ++ hs ++ post).
Proof.
  induction ys as [|y ys IH]; intros pre ds post src dst Ed Es N F.
  - exists ds. auto.
  - destruct ds as [|d ds]; [congruence|]. inversion F as [|? ? F1 F2]; subst.
    cbn [move_forward length map app].
    replace (pre ++ d :: ds ++ Obj y :: map Obj ys ++ post) with ((pre ++ d :: ds) ++ Obj y :: map Obj ys ++ post)
      by (rewrite <- app_assoc; reflexivity).
    rewrite move_mid by (rewrite app_length; reflexivity). cbn [bind fst snd].
    rewrite <- app_assoc. cbn [app]. rewrite assign_mid by auto. cbn [bind].
    destruct (IH (pre ++ [Obj y]) (ds ++ [Moved]) post (S (length pre + S (length ds))) (S (length pre))) as (hs & H1 & H2 & H3 & H4).
    + rewrite app_length; cbn; lia.
    + rewrite !app_length; cbn; lia.
    + destruct ds; discriminate.
    + apply Forall_app. split; [assumption | constructor; [right; discriminate | constructor]].
    + exists hs. split; [rewrite H1, app_length; cbn; lia|]. split; [exact H2|]. split.
      * intros LF. apply H3. inversion LF; subst. apply Forall_app. split; [assumption | constructor; [discriminate | constructor]].
      * replace (pre ++ Obj y :: ds ++ Moved :: map Obj ys ++ post) with ((pre ++ [Obj y]) ++ (ds ++ [Moved]) ++ map Obj ys ++ post)
          by (rewrite <- !app_assoc; reflexivity).
        rewrite H4. rewrite <- app_assoc. reflexivity.
Qed.
Lemma move_backward_live ys : forall pre ds post src dst, src = length pre -> dst = (length pre + length ds)%nat -> ds <> [] -> Forall okslot ds ->
  exists hs, length hs = length ds /\ Forall okslot hs /\ (Forall live ds -> Forall live hs) /\
    move_backward trivial (pre ++ map Obj ys ++ ds ++ post) src dst (length ys) = Ok (pre ++ hs ++ map Obj ys ++ post).
Proof.
  induction ys as [|y ys IH] using rev_ind; intros pre ds post src dst Es Ed N F.
  - exists ds. auto.
  - destruct ds as [|d ds _] using rev_ind; [congruence|].
    apply Forall_app in F. destruct F as [F1 F2]. inversion F2 as [|? ? F3 F4]; subst.
    replace (length (ys ++ [y])) with (S (length ys)) by (rewrite app_length; cbn; lia). cbn [move_backward].
    rewrite map_snoc.
    replace (pre ++ (map Obj ys ++ [Obj y]) ++ (ds ++ [d]) ++ post) with ((pre ++ map Obj ys) ++ Obj y :: ds ++ d :: post)
      by (rewrite <- !app_assoc; reflexivity).
    rewrite move_mid by (rewrite app_length, map_length; reflexivity). cbn [bind fst snd].
    replace ((pre ++ map Obj ys) ++ Moved :: ds ++ d :: post) with ((pre ++ map Obj ys ++ Moved :: ds) ++ d :: post)
      by (rewrite <- !app_assoc; reflexivity).
    rewrite assign_mid by (try assumption; rewrite !app_length, map_length; cbn; lia). cbn [bind].
    destruct (IH pre (Moved :: ds) (Obj y :: post) (length pre) (length pre + length (ds ++ [d]))%nat) as (hs & H1 & H2 & H3 & H4).
    + reflexivity.
    + rewrite app_length; cbn; lia.
    + discriminate.
    + constructor; [right; discriminate | assumption].
    + exists hs. split; [rewrite H1, app_length; cbn; lia|]. split; [exact H2|]. split.
      * intros LF. apply H3. apply Forall_app in LF. destruct LF. constructor; [discriminate | assumption].
      * replace ((pre ++ map Obj ys ++ Moved :: ds) ++ Obj y :: post) with (pre ++ map Obj ys ++ (Moved :: ds) ++ Obj y :: post)
          by (rewrite <- !app_assoc; reflexivity).
        rewrite H4. rewrite <- !app_assoc. reflexivity.
Qed.
Lemma construct_moved_raw ys : forall pre mid post src dst, src = length pre -> dst = (length pre + length ys + length mid)%nat ->
  construct_moved trivial (pre ++ map Obj ys ++ mid ++ repeat Raw (length ys) ++ post) src dst (length ys)
  = Ok (pre ++ repeat Moved (length ys) ++ mid ++ map Obj ys ++ post).
Proof.
  induction ys as [|y ys IH]; intros pre mid post src dst Es Ed; [reflexivity|].
  cbn [construct_moved length map repeat app]. rewrite move_mid by exact Es. cbn [bind fst snd].
  replace (pre ++ Moved :: map Obj ys ++ mid ++ Raw :: repeat Raw (length ys) ++ post)
    with ((pre ++ Moved :: map Obj ys ++ mid) ++ Raw :: repeat Raw (length ys) ++ post) by (rewrite <- !app_assoc; cbn; rewrite <- !app_assoc; reflexivity).
  rewrite construct_mid by (rewrite Ed, app_length; cbn; rewrite app_length, map_length; lia). cbn [bind].
  replace ((pre ++ Moved :: map Obj ys ++ mid) ++ Obj y :: repeat Raw (length ys) ++ post)
    with ((pre ++ [Moved]) ++ map Obj ys ++ (mid ++ [Obj y]) ++ repeat Raw (length ys) ++ post)
    by (rewrite <- !app_assoc; cbn; rewrite <- !app_assoc; reflexivity).
  rewrite IH by (rewrite ?app_length; cbn in *; lia). rewrite <- !app_assoc. reflexivity.
Qed.
Lemma construct_backward_raw xs : forall rest pre post b, b = (length pre + length xs)%nat ->
  construct_backward trivial (map Obj xs ++ rest) (pre ++ repeat Raw (length xs) ++ post) (length xs) b
  = Ok (repeat Moved (length xs) ++ rest, pre ++ map Obj xs ++ post, length pre).
Proof.
  induction xs as [|x xs IH] using rev_ind; intros rest pre post b Eb.
  - cbn in *. rewrite Eb, Nat.add_0_r. reflexivity.
  - rewrite app_length, Nat.add_1_r in *. rewrite Nat.add_succ_r in Eb. subst b. cbn [construct_backward].
    rewrite map_snoc, <- app_assoc. cbn [app].
    rewrite move_mid by (rewrite map_length; reflexivity). cbn [bind fst snd].
    rewrite repeat_snoc, <- app_assoc. cbn [app]. rewrite (app_assoc pre).
    rewrite construct_mid by (rewrite app_length, repeat_length; reflexivity). cbn [bind].
    rewrite <- app_assoc, IH by reflexivity. rewrite repeat_snoc, <- !app_assoc. reflexivity.
Qed.
Lemma construct_forward_raw ys : forall opre orest npre npost i e, i = length opre -> e = length npre ->
  construct_forward trivial (opre ++ map Obj ys ++ orest) (npre ++ repeat Raw (length ys) ++ npost) i (length ys) e
  = Ok (opre ++ repeat Moved (length ys) ++ orest, npre ++ map Obj ys ++ npost, (length npre + length ys)%nat).
Proof.
  induction ys as [|y ys IH]; intros opre orest npre npost i e Ei Ee.
  - cbn. rewrite Nat.add_0_r. subst e. reflexivity.
  - cbn [construct_forward length map repeat app]. rewrite move_mid by exact Ei. cbn [bind fst snd].
    rewrite construct_mid by exact Ee. cbn [bind].
    rewrite (app_cons opre), (app_cons npre), IH by (rewrite app_length; cbn; lia).
    rewrite app_length, <- !app_cons. cbn [length]. do 2 f_equal. lia.
Qed.
Lemma all_raw n : forallb is_raw (repeat (@Raw A) n) = true.
Proof. induction n; [reflexivity | exact IHn]. Qed.
Lemma dealloc_raw n : deallocate trivial (repeat (@Raw A) n) = Ok tt.
Proof. unfold deallocate. rewrite all_raw, orb_true_r. reflexivity. Qed.
Lemma release_live ss k n : Forall live ss -> n = length ss -> release trivial (ss ++ repeat Raw k) n = Ok tt.
Proof.
  intros F ->. unfold release. pose proof (destroy_down_live ss [] (repeat Raw k) F) as D. cbn in D.
  rewrite D. cbn [bind]. rewrite <- repeat_plus. apply dealloc_raw.
Qed.
Lemma read_all_obj ys : forall pre post i, i = length pre -> read_all (pre ++ map Obj ys ++ post) i (length ys) = Ok ys.
Proof.
  induction ys as [|y ys IH]; intros pre post i E; [reflexivity|].
  cbn [read_all length map app]. rewrite read_mid by exact E. cbn [bind].
  rewrite app_cons, IH by (rewrite app_length; cbn; lia). reflexivity.
Qed.
End P.

Section Q.
Context {A : Type}.
Variable trivial : bool.
Variable ms : Z.
Hypothesis MS : max_size_ok ms.
Implicit Types (m pre post : mem A) (xs ys l : list A).

Definition vec_of xs (k : nat) : vec A := Vec (map Obj xs ++ repeat Raw k) (length xs).
Lemma vec_cap xs k : capacity (vec_of xs k) = (length xs + k)%nat.
Proof. unfold capacity, vec_of. cbn [buf]. rewrite app_length, map_length, repeat_length. reflexivity. Qed.
Lemma holds_inv (v : vec A) xs : holds ms v xs -> exists k, v = vec_of xs k /\ Z.of_nat (length xs + k) <= ms.
Proof.
  intros (L & (k & B) & C). exists k. destruct v as [b n]. cbn in *. subst b n. split; [reflexivity|].
  rewrite <- vec_cap. exact C.
Qed.
Lemma holds_mk xs k : Z.of_nat (length xs + k) <= ms -> holds ms (vec_of xs k) xs.
Proof.
  intros C. split; [reflexivity|]. split; [exists k; reflexivity|]. rewrite vec_cap. exact C.
Qed.
Lemma ref_read xs x a : ref_value xs x = Some a -> forall q, read_ref (map Obj xs ++ q) x = Ok a.
Proof.
  destruct x as [b|i]; cbn; intros E q; [congruence|].
  unfold read, rd. rewrite nth_error_app1 by (rewrite map_length; apply nth_error_Some; congruence).
  rewrite nth_error_map, E. reflexivity.
Qed.
Lemma swap_out_ok xs k ys r : 
  swap_out trivial (vec_of xs k) (SBuf (repeat Raw (length xs) ++ map Obj ys ++ repeat Raw r) (length xs) (length xs + length ys))
  = Ok (vec_of (xs ++ ys) r).
Proof.
  unfold swap_out, vec_of. cbn [buf len sbuf sbegin send].
  pose proof (construct_backward_raw trivial xs (repeat Raw k) [] (map Obj ys ++ repeat Raw r) (length xs) eq_refl) as E.
  cbn [app length] in E. rewrite E. cbn [bind]. rewrite Nat.eqb_refl.
  rewrite release_live by (rewrite ?repeat_length; auto using live_moved). cbn [bind].
  rewrite map_app, app_length, <- app_assoc. reflexivity.
Qed.
Lemma swap_out_at_ok xs1 xs2 k ys r : 
  swap_out_at trivial (vec_of (xs1 ++ xs2) k)
    (SBuf (repeat Raw (length xs1) ++ map Obj ys ++ repeat Raw (length xs2 + r)) (length xs1) (length xs1 + length ys)) (length xs1)
  = Ok (vec_of (xs1 ++ ys ++ xs2) r, length xs1).
Proof.
  unfold swap_out_at, vec_of. cbn [buf len sbuf sbegin send].
  pose proof (construct_backward_raw trivial xs1 (map Obj xs2 ++ repeat Raw k) [] (map Obj ys ++ repeat Raw (length xs2 + r)) (length xs1) eq_refl) as E.
  cbn [app length] in E. rewrite map_app, <- app_assoc, E. cbn [bind].
  replace (length (xs1 ++ xs2) - length xs1)%nat with (length xs2) by (rewrite app_length; lia).
  rewrite repeat_plus.
  pose proof (construct_forward_raw trivial xs2 (repeat Moved (length xs1)) (repeat Raw k) (map Obj xs1 ++ map Obj ys) (repeat Raw r)
    (length xs1) (length xs1 + length ys)) as F.
  rewrite repeat_length in F. rewrite !app_length, !map_length in F. specialize (F eq_refl eq_refl).
  rewrite <- !app_assoc in F. rewrite F. cbn [bind]. rewrite Nat.eqb_refl.
  rewrite app_assoc, release_live.
  - cbn [bind]. rewrite !map_app, !app_length, <- !app_assoc. do 3 f_equal. lia.
  - apply Forall_app. split; apply live_moved.
  - rewrite !app_length, !repeat_length. reflexivity.
Qed.
Definition grown (cap n : Z) : Z := if ms / 2 <=? cap then ms else Z.max (2 * cap) n.
Lemma recommend_ok cap n : Z.of_nat cap <= ms -> n <= ms -> recommend ms cap n = Ok (grown (Z.of_nat cap) n) /\ n <= grown (Z.of_nat cap) n <= ms.
Proof.
  intros C N. unfold recommend, grown. destruct MS as [M1 M2].
  pose proof (Z.div_mod ms 2 ltac:(lia)) as D. pose proof (Z.mod_pos_bound ms 2 ltac:(lia)) as B.
  replace (ms <? n) with false by lia.
  unfold sz. rewrite Z.mod_small by lia.
  destruct (Z.leb_spec (ms / 2) (Z.of_nat cap)); (split; [reflexivity | lia]).
Qed.
Lemma recommend_throw cap n : ms < n -> recommend ms cap n = Throw.
Proof. intros H. unfold recommend. replace (ms <? n) with true by lia. reflexivity. Qed.
Lemma raw_split (n a : nat) : (a <= n)%nat -> repeat (@Raw A) n = repeat Raw a ++ repeat Raw (n - a).
Proof. intros H. rewrite <- repeat_plus. f_equal. lia. Qed.
Lemma sz_small z : 0 <= z < 2 ^ 64 -> sz z = z.
Proof. intros H. unfold sz. apply Z.mod_small. exact H. Qed.

(** ** reserve, shrink_to_fit, clear *)
Lemma reserve_ok xs k n : Z.of_nat (length xs + k) <= ms -> n <= ms ->
  reserve trivial ms (vec_of xs k) n = Ok (vec_of xs (if Z.of_nat (length xs + k) <? n then Z.to_nat n - length xs else k)).
Proof.
  intros C N. unfold reserve. rewrite vec_cap. destruct (Z.ltb_spec (Z.of_nat (length xs + k)) n) as [G|G]; [|reflexivity].
  replace (ms <? n) with false by lia. unfold split_buffer. cbn [len vec_of].
  rewrite (raw_split (Z.to_nat n) (length xs)) by lia.
  pose proof (swap_out_ok xs k [] (Z.to_nat n - length xs)) as E. cbn [map app length] in E.
  rewrite Nat.add_0_r in E. rewrite app_nil_r in E. exact E.
Qed.
Lemma reserve_throw xs k n : Z.of_nat (length xs + k) <= ms -> ms < n -> reserve trivial ms (vec_of xs k) n = Throw.
Proof.
  intros C N. unfold reserve. rewrite vec_cap. replace (_ <? n) with true by lia. replace (ms <? n) with true by lia. reflexivity.
Qed.
Lemma shrink_ok xs k : shrink_to_fit trivial (vec_of xs k) = Ok (vec_of xs 0).
Proof.
  unfold shrink_to_fit. rewrite vec_cap. cbn [len vec_of].
  destruct (Nat.ltb_spec (length xs) (length xs + k)) as [G|G].
  - unfold split_buffer. rewrite Nat2Z.id.
    pose proof (swap_out_ok xs k [] 0) as E. cbn [map app length repeat] in E.
    rewrite Nat.add_0_r, !app_nil_r in E. exact E.
  - replace k with 0%nat by lia. reflexivity.
Qed.
(** Objects after the first ones are destroyed, whatever their values. *)
Lemma destruct_end_gen xs ss k : Forall live ss -> 
  destruct_at_end trivial (Vec (map Obj xs ++ ss ++ repeat Raw k) (length xs + length ss)) (length xs) = Ok (vec_of xs (length ss + k)).
Proof.
  intros F. unfold destruct_at_end. cbn [len buf]. rewrite (proj2 (Nat.ltb_ge _ _)) by lia.
  replace (length xs + length ss - length xs)%nat with (length ss) by lia.
  pose proof (destroy_down_live trivial ss (map Obj xs) (repeat Raw k) F) as E. rewrite map_length in E. rewrite E. cbn [bind].
  rewrite <- repeat_plus. reflexivity.
Qed.
Lemma destruct_end xs ys k : destruct_at_end trivial (vec_of (xs ++ ys) k) (length xs) = Ok (vec_of xs (length ys + k)).
Proof.
  pose proof (destruct_end_gen xs (map Obj ys) k (live_obj ys)) as E. rewrite map_length in E.
  unfold vec_of. rewrite map_app, <- app_assoc, app_length. exact E.
Qed.
Lemma clear_ok xs k : clear trivial (vec_of xs k) = Ok (vec_of [] (length xs + k)).
Proof. apply (destruct_end [] xs k). Qed.
Lemma destruct_ok xs k : Vector.destruct trivial (vec_of xs k) = Ok tt.
Proof.
  unfold Vector.destruct. destruct (capacity (vec_of xs k) =? 0)%nat; [reflexivity|].
  rewrite clear_ok. cbn [bind vec_of buf map app]. apply dealloc_raw.
Qed.
Lemma vdealloc_ok xs k : vdeallocate trivial (vec_of xs k) = Ok tt.
Proof. apply destruct_ok. Qed.

(** ** push_back *)
Definition push_spare (len k : nat) : nat :=
  if (0 <? k)%nat then k - 1 else Z.to_nat (grown (Z.of_nat len) (Z.of_nat len + 1)) - len - 1.
Lemma push_ok xs k x a : Z.of_nat (length xs + k) <= ms -> Z.of_nat (length xs) + 1 <= ms -> ref_value xs x = Some a ->
  push_back trivial ms (vec_of xs k) x = Ok (vec_of (xs ++ [a]) (push_spare (length xs) k)) /\ Z.of_nat (length (xs ++ [a]) + push_spare (length xs) k) <= ms.
Proof.
  intros C N R. pose proof MS as [M1 M2]. unfold push_back, push_spare. rewrite vec_cap. cbn [len].
  replace (len (vec_of xs k)) with (length xs) by reflexivity.
  rewrite app_length. cbn [length].
  destruct (Nat.ltb_spec (length xs) (length xs + k)) as [G|G].
  - rewrite (proj2 (Nat.ltb_lt _ _)) by lia. split; [|lia].
    cbn [buf vec_of]. rewrite (ref_read _ _ _ R). cbn [bind].
    rewrite (raw_split k 1) by lia. cbn [repeat app].
    rewrite construct_mid by (rewrite map_length; reflexivity). cbn [bind]. unfold vec_of.
    rewrite map_snoc, app_length, <- app_assoc, Nat.add_1_r. reflexivity.
  - assert (k = 0%nat) by lia. subst k. rewrite Nat.add_0_r in *. rewrite (proj2 (Nat.ltb_ge 0 0)) by lia.
    rewrite sz_small by lia. destruct (recommend_ok (length xs) (Z.of_nat (length xs) + 1)) as [E B]; [lia | lia |].
    rewrite E. cbn [bind]. set (g := grown _ _) in *. split; [|lia].
    cbn [buf vec_of]. rewrite (ref_read _ _ _ R). cbn [bind split_buffer sbuf send sbegin].
    rewrite (raw_split (Z.to_nat g) (length xs)) by lia.
    rewrite (raw_split (Z.to_nat g - length xs) 1) by lia. cbn [repeat app].
    rewrite construct_mid by (rewrite repeat_length; reflexivity). cbn [bind].
    pose proof (swap_out_ok xs 0 [a] (Z.to_nat g - length xs - 1)) as S1. cbn [map app length] in S1.
    rewrite Nat.add_1_r in S1. exact S1.
Qed.
Lemma push_throw xs k x a : Z.of_nat (length xs + k) <= ms -> ms < Z.of_nat (length xs) + 1 -> ref_value xs x = Some a ->
  push_back trivial ms (vec_of xs k) x = Throw.
Proof.
  intros C N R. pose proof MS as [M1 M2]. unfold push_back. rewrite vec_cap. replace (len (vec_of xs k)) with (length xs) by reflexivity.
  rewrite (proj2 (Nat.ltb_ge _ _)) by lia. rewrite sz_small by lia. rewrite recommend_throw by lia. reflexivity.
Qed.
Lemma pop_ok xs a k : pop_back trivial (vec_of (xs ++ [a]) k) = Ok (vec_of xs (S k)).
Proof.
  unfold pop_back. replace (len (vec_of (xs ++ [a]) k)) with (S (length xs)) by (cbn; rewrite app_length; cbn; lia).
  apply (destruct_end xs [a] k).
Qed.

(** ** Inserting *)
Lemma move_range_in xs ys r by_ : (1 <= by_ <= length ys)%nat -> (by_ <= r)%nat ->
  exists hs, length hs = by_ /\ Forall live hs /\
  move_range trivial (vec_of (xs ++ ys) r) (length xs) (length xs + length ys) (length xs + by_)
  = Ok (Vec (map Obj xs ++ hs ++ map Obj ys ++ repeat Raw (r - by_)) (length xs + length ys + by_)).
Proof.
  intros B R. unfold move_range. replace (len (vec_of (xs ++ ys) r)) with (length xs + length ys)%nat by (cbn; rewrite app_length; reflexivity).
  rewrite (proj2 (Nat.ltb_ge _ _)) by lia. cbv zeta.
  set (n := (length xs + length ys - (length xs + by_))%nat).
  assert (exists y1 y2, ys = y1 ++ y2 /\ length y1 = n /\ length y2 = by_) as (y1 & y2 & -> & L1 & L2).
  { exists (firstn n ys), (skipn n ys). rewrite firstn_skipn, firstn_length, skipn_length. subst n. repeat split; lia. }
  clearbody n. subst n by_. rewrite app_length in *.
  replace (length xs + (length y1 + length y2) - (length xs + length y1))%nat with (length y2) by lia.
  cbn [buf vec_of].
  replace (map Obj (xs ++ y1 ++ y2) ++ repeat Raw r) with ((map Obj xs ++ map Obj y1) ++ map Obj y2 ++ [] ++ repeat Raw (length y2) ++ repeat Raw (r - length y2)).
  2:{ rewrite !map_app, <- !app_assoc. cbn [app]. do 3 f_equal. rewrite <- repeat_plus. f_equal. lia. }
  rewrite construct_moved_raw by (rewrite ?app_length, ?map_length; cbn; lia). cbn [bind app].
  destruct (move_backward_live trivial y1 (map Obj xs) (repeat Moved (length y2)) (map Obj y2 ++ repeat Raw (r - length y2)) (length xs)
    (length xs + (length y1 + length y2) - length y1)) as (hs & H1 & _ & H3 & H4).
  - rewrite map_length. reflexivity.
  - rewrite map_length, repeat_length. lia.
  - destruct y2; [cbn in B; lia | discriminate].
  - apply live_ok, live_moved.
  - exists hs. rewrite repeat_length in H1. split; [lia|]. split; [apply H3, live_moved|].
    rewrite <- app_assoc. rewrite H4. cbn [bind]. rewrite map_app, <- app_assoc. reflexivity.
Qed.
Lemma move_range_out xs ys zs r : (length ys <= r)%nat ->
  move_range trivial (vec_of (xs ++ ys ++ zs) r) (length xs) (length xs + length ys) (length xs + (length ys + length zs))
  = Ok (Vec (map Obj xs ++ repeat Moved (length ys) ++ map Obj zs ++ map Obj ys ++ repeat Raw (r - length ys)) (length xs + (length ys + length zs) + length ys)).
Proof.
  intros R. unfold move_range.
  replace (len (vec_of (xs ++ ys ++ zs) r)) with (length xs + (length ys + length zs))%nat by (cbn; rewrite !app_length; reflexivity).
  rewrite Nat.ltb_irrefl, Nat.sub_diag, Nat.add_0_r. cbv zeta.
  replace (length xs + length ys - length xs)%nat with (length ys) by lia.
  cbn [buf vec_of]. rewrite !map_app, <- !app_assoc. rewrite (raw_split r (length ys)) by lia.
  rewrite construct_moved_raw by (rewrite ?map_length; lia). reflexivity.
Qed.
Lemma nth_split_ref xs1 xs2 (hs : mem A) q i a p e by_ : nth_error (xs1 ++ xs2) i = Some a -> p = length xs1 -> (length xs1 + length xs2 <= e)%nat ->
  length hs = by_ ->
  read_ref (map Obj xs1 ++ hs ++ map Obj xs2 ++ q) (shift_ref (Elem i) p e by_) = Ok a.
Proof.
  intros H -> Le Lh. cbn [shift_ref].
  destruct (Nat.leb_spec (length xs1) i) as [G|G].
  - assert (i < length xs1 + length xs2)%nat by (rewrite <- app_length; apply nth_error_Some; congruence).
    rewrite (proj2 (Nat.ltb_lt i e)) by lia. cbn [andb read_ref]. unfold read, rd.
    rewrite nth_error_app2, map_length by (rewrite map_length; lia).
    rewrite nth_error_app2 by lia. rewrite nth_error_app1 by (rewrite map_length; lia).
    rewrite nth_error_app2 in H by lia. replace (i + by_ - length xs1 - length hs)%nat with (i - length xs1)%nat by lia.
    rewrite nth_error_map, H. reflexivity.
  - cbn [andb read_ref]. unfold read, rd. rewrite nth_error_app1 by (rewrite map_length; lia).
    rewrite nth_error_app1 in H by lia. rewrite nth_error_map, H. reflexivity.
Qed.
Lemma shifted xs1 xs2 (hs : mem A) q x a p e by_ : ref_value (xs1 ++ xs2) x = Some a -> p = length xs1 -> (length xs1 + length xs2 <= e)%nat ->
  length hs = by_ ->
  read_ref (map Obj xs1 ++ hs ++ map Obj xs2 ++ q) (shift_ref x p e by_) = Ok a.
Proof.
  destruct x as [b|i]; cbn [ref_value]; intros H; [cbn; congruence|]. apply nth_split_ref. exact H.
Qed.
Lemma split_at xs p : (p <= length xs)%nat -> exists x1 x2, xs = x1 ++ x2 /\ length x1 = p /\ x1 = firstn p xs /\ x2 = skipn p xs.
Proof.
  intros H. exists (firstn p xs), (skipn p xs). rewrite firstn_skipn, firstn_length. repeat split. lia.
Qed.
Lemma put_split x1 x2 ys p : p = length x1 -> put p ys (x1 ++ x2) = x1 ++ ys ++ x2.
Proof.
  intros ->. unfold put. rewrite firstn_app, firstn_all, Nat.sub_diag, skipn_app, skipn_all, Nat.sub_diag. cbn. rewrite app_nil_r. reflexivity.
Qed.
Definition ins_spare (len k : nat) (n : Z) : nat :=
  if n <=? Z.of_nat k then k - Z.to_nat n else Z.to_nat (grown (Z.of_nat (len + k)) (Z.of_nat len + n)) - len - Z.to_nat n.

Lemma slow_list xs1 xs2 k l cap : Z.of_nat (length xs1 + length l + length xs2) <= cap ->
  (m <- construct_list trivial (repeat Raw (Z.to_nat cap)) (length xs1) l ;;
   swap_out_at trivial (vec_of (xs1 ++ xs2) k) (SBuf m (length xs1) (length xs1 + length l)) (length xs1))
  = Ok (vec_of (xs1 ++ l ++ xs2) (Z.to_nat cap - (length xs1 + length l + length xs2)), length xs1).
Proof.
  intros C. rewrite (raw_split (Z.to_nat cap) (length xs1)) by lia.
  rewrite (raw_split (Z.to_nat cap - length xs1) (length l)) by lia.
  rewrite construct_list_raw by (rewrite repeat_length; reflexivity). cbn [bind].
  replace (Z.to_nat cap - length xs1 - length l)%nat with (length xs2 + (Z.to_nat cap - (length xs1 + length l + length xs2)))%nat by lia.
  apply swap_out_at_ok.
Qed.
Lemma slow_one xs1 xs2 k a cap : Z.of_nat (length xs1 + 1 + length xs2) <= cap ->
  (m <- construct trivial (repeat Raw (Z.to_nat cap)) (length xs1) a ;;
   swap_out_at trivial (vec_of (xs1 ++ xs2) k) (SBuf m (length xs1) (S (length xs1))) (length xs1))
  = Ok (vec_of (xs1 ++ [a] ++ xs2) (Z.to_nat cap - (length xs1 + 1 + length xs2)), length xs1).
Proof.
  intros C. pose proof (slow_list xs1 xs2 k [a] cap C) as E. cbn [length] in E. rewrite <- E. rewrite Nat.add_1_r.
  cbn [construct_list]. destruct (construct trivial (repeat Raw (Z.to_nat cap)) (length xs1) a); reflexivity.
Qed.
Lemma slow_n xs1 xs2 k x a n cap : Z.of_nat (length xs1 + n + length xs2) <= cap -> ref_value (xs1 ++ xs2) x = Some a ->
  (m <- construct_n trivial (repeat Raw (Z.to_nat cap)) (length xs1) n x (Some (buf (vec_of (xs1 ++ xs2) k))) ;;
   swap_out_at trivial (vec_of (xs1 ++ xs2) k) (SBuf m (length xs1) (length xs1 + n)) (length xs1))
  = Ok (vec_of (xs1 ++ repeat a n ++ xs2) (Z.to_nat cap - (length xs1 + n + length xs2)), length xs1).
Proof.
  intros C R. rewrite (raw_split (Z.to_nat cap) (length xs1)) by lia.
  rewrite (raw_split (Z.to_nat cap - length xs1) n) by lia.
  rewrite (construct_n_src trivial n _ _ _ _ a) by (rewrite ?repeat_length; auto; apply (ref_read _ _ _ R)). cbn [bind].
  pose proof (swap_out_at_ok xs1 xs2 k (repeat a n) (Z.to_nat cap - (length xs1 + n + length xs2))) as E.
  rewrite repeat_length in E. rewrite <- E. do 4 f_equal. f_equal. lia.
Qed.

Lemma insert_one_gen (f : vec A -> nat -> ref A -> res (vec A * nat)) xs1 xs2 k x a :
  f = insert trivial ms \/ f = emplace trivial ms ->
  Z.of_nat (length (xs1 ++ xs2) + k) <= ms -> Z.of_nat (length (xs1 ++ xs2)) + 1 <= ms -> ref_value (xs1 ++ xs2) x = Some a ->
  f (vec_of (xs1 ++ xs2) k) (length xs1) x = Ok (vec_of (xs1 ++ [a] ++ xs2) (ins_spare (length (xs1 ++ xs2)) k 1), length xs1)
  /\ Z.of_nat (length (xs1 ++ [a] ++ xs2) + ins_spare (length (xs1 ++ xs2)) k 1) <= ms.
Proof.
  intros F C N R. pose proof MS as [M1 M2]. pose proof (ref_read _ _ _ R) as RR.
  assert (LV : len (vec_of (xs1 ++ xs2) k) = (length xs1 + length xs2)%nat) by (cbn; apply app_length).
  unfold ins_spare. rewrite !app_length in *. cbn [length].
  destruct (Nat.ltb_spec (length xs1 + length xs2) (length xs1 + length xs2 + k)) as [G|G].
  - replace (1 <=? Z.of_nat k) with true by lia. split; [|lia]. change (Z.to_nat 1) with 1%nat.
    assert (xs2 = [] \/ (1 <= length xs2)%nat) as [-> | L2] by (destruct xs2; [auto | right; cbn; lia]).
    + cbn [length] in *. rewrite Nat.add_0_r, app_nil_r in *.
      assert (E : f (vec_of xs1 k) (length xs1) x = (m <- construct trivial (map Obj xs1 ++ repeat Raw k) (length xs1) a ;; Ok (Vec m (S (length xs1)), length xs1))).
      { destruct F as [-> | ->]; unfold insert, emplace; rewrite LV, vec_cap, Nat.ltb_irrefl, (proj2 (Nat.ltb_lt _ _)) by lia;
          rewrite Nat.eqb_refl; cbn [buf vec_of]; rewrite RR; reflexivity. }
      rewrite E. rewrite (raw_split k 1) by lia. cbn [repeat app]. rewrite construct_mid by (rewrite map_length; reflexivity).
      cbn [bind]. unfold vec_of. rewrite map_app, app_length, <- app_assoc. cbn [length map app].
      rewrite Nat.add_1_r. reflexivity.
    + destruct (move_range_in xs1 xs2 k 1) as (hs & H1 & H2 & H3); [lia | lia |].
      assert (E : f (vec_of (xs1 ++ xs2) k) (length xs1) x =
         (m <- assign_slot trivial (map Obj xs1 ++ hs ++ map Obj xs2 ++ repeat Raw (k - 1)) (length xs1) a ;;
          Ok (Vec m (length xs1 + length xs2 + 1), length xs1))).
      { destruct F as [-> | ->]; unfold insert, emplace; rewrite LV, vec_cap, app_length;
          rewrite (proj2 (Nat.ltb_ge (length xs1 + length xs2) _)) by lia;
          rewrite (proj2 (Nat.ltb_lt _ _)) by lia; rewrite (proj2 (Nat.eqb_neq _ _)) by lia.
        - rewrite H3. cbn [bind buf len]. rewrite (shifted _ _ _ _ _ a) by (auto; lia). reflexivity.
        - cbn [vec_of buf]. rewrite RR. cbn [bind]. change (Vec (map Obj (xs1 ++ xs2) ++ repeat Raw k) (length (xs1 ++ xs2))) with (vec_of (xs1 ++ xs2) k).
          rewrite H3. reflexivity. }
      rewrite E. destruct hs as [|h [|? ?]]; try discriminate H1. inversion H2; subst. cbn [app].
      rewrite assign_mid by (rewrite ?map_length; auto; right; assumption). cbn [bind]. unfold vec_of.
      rewrite !map_app, !app_length, <- !app_assoc. cbn [map app length]. do 3 f_equal. lia.
  - assert (k = 0%nat) by lia. subst k. rewrite Nat.add_0_r in *. replace (1 <=? Z.of_nat 0) with false by lia.
    destruct (recommend_ok (length xs1 + length xs2) (Z.of_nat (length xs1 + length xs2) + 1)) as [E B]; [lia | lia |].
    set (g := grown _ _) in *.
    assert (EE : f (vec_of (xs1 ++ xs2) 0) (length xs1) x = (m <- construct trivial (repeat Raw (Z.to_nat g)) (length xs1) a ;;
              swap_out_at trivial (vec_of (xs1 ++ xs2) 0) (SBuf m (length xs1) (S (length xs1))) (length xs1))).
    { destruct F as [-> | ->]; unfold insert, emplace; rewrite LV, vec_cap, app_length, Nat.add_0_r;
        rewrite (proj2 (Nat.ltb_ge (length xs1 + length xs2) (length xs1))) by lia; rewrite Nat.ltb_irrefl;
        rewrite sz_small by lia; rewrite E; cbn [bind buf vec_of split_buffer sbuf send sbegin]; rewrite RR; reflexivity. }
    rewrite EE, slow_one by lia. change (Z.to_nat 1) with 1%nat. split; [|lia]. do 3 f_equal. lia.
Qed.
Lemma insert_one_throw (f : vec A -> nat -> ref A -> res (vec A * nat)) xs k p x a :
  f = insert trivial ms \/ f = emplace trivial ms -> (p <= length xs)%nat ->
  Z.of_nat (length xs + k) <= ms -> ms < Z.of_nat (length xs) + 1 -> ref_value xs x = Some a ->
  f (vec_of xs k) p x = Throw.
Proof.
  intros F Pp C N R. pose proof MS as [M1 M2].
  destruct F as [-> | ->]; unfold insert, emplace; rewrite vec_cap; replace (len (vec_of xs k)) with (length xs) by reflexivity;
    rewrite (proj2 (Nat.ltb_ge _ p)) by lia; rewrite (proj2 (Nat.ltb_ge _ _)) by lia; rewrite sz_small by lia;
    rewrite recommend_throw by lia; reflexivity.
Qed.
Lemma construct_end xs k n x a : (n <= k)%nat -> ref_value xs x = Some a ->
  construct_at_end trivial (vec_of xs k) n x = Ok (vec_of (xs ++ repeat a n) (k - n)).
Proof.
  intros N R. unfold construct_at_end. cbn [buf len vec_of]. rewrite (raw_split k n) by lia.
  rewrite (construct_n_raw trivial n _ _ _ _ a) by (rewrite ?map_length; auto; apply (ref_read _ _ _ R)). cbn [bind].
  unfold vec_of. rewrite map_app, app_length, repeat_length, <- app_assoc. reflexivity.
Qed.
Lemma construct_end_list xs k l : (length l <= k)%nat ->
  construct_at_end_list trivial (vec_of xs k) l = Ok (vec_of (xs ++ l) (k - length l)).
Proof.
  intros N. unfold construct_at_end_list. cbn [buf len vec_of]. rewrite (raw_split k (length l)) by lia.
  rewrite construct_list_raw by (rewrite map_length; reflexivity). cbn [bind].
  unfold vec_of. rewrite map_app, app_length, <- app_assoc. reflexivity.
Qed.

Lemma repeat_len (a : A) n : length (repeat a n) = n.
Proof. apply repeat_length. Qed.
Lemma shifted_fill xs1 xs2 x a p e by_ (zs : mem A) ss q n : ref_value (xs1 ++ xs2) x = Some a -> p = length xs1 -> (length xs1 + length xs2 <= e)%nat ->
  length ss = n -> (n + length zs)%nat = by_ ->
  forall j, (j <= n)%nat -> read_ref (map Obj xs1 ++ map Obj (repeat a j) ++ skipn j ss ++ zs ++ map Obj xs2 ++ q) (shift_ref x p e by_) = Ok a.
Proof.
  intros R P1 Le Ls Lz j Hj.
  replace (map Obj xs1 ++ map Obj (repeat a j) ++ skipn j ss ++ zs ++ map Obj xs2 ++ q)
    with (map Obj xs1 ++ (map Obj (repeat a j) ++ skipn j ss ++ zs) ++ map Obj xs2 ++ q) by (rewrite <- !app_assoc; reflexivity).
  apply shifted; auto. rewrite !app_length, map_length, repeat_length, skipn_length. lia.
Qed.
Lemma insert_n_ok xs1 xs2 k n x a : Z.of_nat (length (xs1 ++ xs2) + k) <= ms -> 0 <= n -> Z.of_nat (length (xs1 ++ xs2)) + n <= ms ->
  ref_value (xs1 ++ xs2) x = Some a ->
  insert_n trivial ms (vec_of (xs1 ++ xs2) k) (length xs1) n x
    = Ok (vec_of (xs1 ++ repeat a (Z.to_nat n) ++ xs2) (ins_spare (length (xs1 ++ xs2)) k n), length xs1)
  /\ Z.of_nat (length (xs1 ++ repeat a (Z.to_nat n) ++ xs2) + ins_spare (length (xs1 ++ xs2)) k n) <= ms.
Proof.
  intros C N0 N R. pose proof MS as [M1 M2].
  assert (LV : len (vec_of (xs1 ++ xs2) k) = (length xs1 + length xs2)%nat) by (cbn; apply app_length).
  unfold ins_spare. rewrite !app_length in *. rewrite repeat_length.
  unfold insert_n. rewrite LV, vec_cap, app_length. rewrite (proj2 (Nat.ltb_ge _ (length xs1))) by lia.
  replace (length xs1 + length xs2 + k - (length xs1 + length xs2))%nat with k by lia.
  replace (length xs1 + length xs2 - length xs1)%nat with (length xs2) by lia.
  destruct (Z.ltb_spec 0 n) as [G|G].
  2:{ assert (n = 0) by lia. subst n. change (Z.to_nat 0) with 0%nat. replace (0 <=? Z.of_nat k) with true by lia.
      rewrite Nat.sub_0_r. cbn [repeat app]. split; [reflexivity | lia]. }
  destruct (Z.leb_spec n (Z.of_nat k)) as [K|K].
  - split; [|lia]. cbv zeta. set (w := Z.to_nat n). assert (1 <= w <= k)%nat by lia.
    destruct (Nat.ltb_spec (length xs2) w) as [S1|S1].
    + rewrite (construct_end _ _ _ _ a) by (auto; lia). cbn [bind].
      replace (w - (w - length xs2))%nat with (length xs2) by lia.
      rewrite <- app_assoc.
      destruct (Nat.ltb_spec 0 (length xs2)) as [Z2|Z2].
      * pose proof (move_range_out xs1 xs2 (repeat a (w - length xs2)) (k - (w - length xs2)) ltac:(lia)) as E.
        rewrite repeat_length in E. replace (length xs2 + (w - length xs2))%nat with w in E by lia. rewrite E. cbn [bind buf len].
        rewrite (fill_n_live trivial (length xs2) _ _ _ _ _ a).
        -- cbn [bind]. unfold vec_of. rewrite !map_app, !app_length, repeat_length, <- !app_assoc.
           replace (map Obj (repeat a w)) with (map Obj (repeat a (length xs2)) ++ map Obj (repeat a (w - length xs2))).
           2:{ rewrite <- map_app, <- repeat_app. do 2 f_equal. lia. }
           rewrite <- !app_assoc. replace (k - (w - length xs2) - length xs2)%nat with (k - w)%nat by lia.
           replace (length xs1 + w + length xs2)%nat with (length xs1 + (w + length xs2))%nat by lia. reflexivity.
        -- rewrite map_length; reflexivity.
        -- apply repeat_length.
        -- apply live_ok, live_moved.
        -- intros j Hj. apply (shifted_fill xs1 xs2 x a (length xs1) _ w (map Obj (repeat a (w - length xs2))) (repeat Moved (length xs2)) _ (length xs2)); auto; rewrite ?repeat_length; try lia.
           rewrite map_length, repeat_length. lia.
      * destruct xs2; [|cbn in Z2; lia]. cbn [app length] in *. rewrite Nat.sub_0_r, app_nil_r. reflexivity.
    + cbn [bind]. replace (w - (w - length xs2))%nat with w by lia. rewrite (proj2 (Nat.ltb_lt 0 w)) by lia.
      destruct (move_range_in xs1 xs2 k w) as (hs & H1 & H2 & H3); [lia | lia |].
      rewrite H3. cbn [bind buf len].
      rewrite (fill_n_live trivial w _ _ _ _ _ a).
      * cbn [bind]. unfold vec_of. rewrite !map_app, !app_length, repeat_length, <- !app_assoc. do 3 f_equal. lia.
      * rewrite map_length; reflexivity.
      * exact H1.
      * apply live_ok, H2.
      * intros j Hj. apply (shifted_fill xs1 xs2 x a (length xs1) _ w [] hs _ w); auto; cbn; lia.
  - rewrite sz_small by lia.
    destruct (recommend_ok (length xs1 + length xs2 + k) (Z.of_nat (length xs1 + length xs2) + n)) as [E B]; [lia | lia |].
    rewrite E. cbn [bind]. set (g := grown _ _) in *. cbv zeta. cbn [split_buffer sbuf send sbegin].
    rewrite (slow_n xs1 xs2 k x a (Z.to_nat n) g) by (auto; lia). split; [|lia]. do 3 f_equal. lia.
Qed.
Lemma insert_n_throw xs k p n x a : (p <= length xs)%nat -> Z.of_nat (length xs + k) <= ms -> 0 <= n < 2 ^ 63 -> ms < Z.of_nat (length xs) + n ->
  ref_value xs x = Some a -> insert_n trivial ms (vec_of xs k) p n x = Throw.
Proof.
  intros Pp C N0 N R. pose proof MS as [M1 M2]. unfold insert_n. rewrite vec_cap. replace (len (vec_of xs k)) with (length xs) by reflexivity.
  rewrite (proj2 (Nat.ltb_ge _ p)) by lia. replace (0 <? n) with true by lia.
  replace (n <=? _) with false by lia. rewrite sz_small by lia. rewrite recommend_throw by lia. reflexivity.
Qed.
Lemma insert_range_ok xs1 xs2 k l : Z.of_nat (length (xs1 ++ xs2) + k) <= ms -> Z.of_nat (length (xs1 ++ xs2)) + Z.of_nat (length l) <= ms ->
  insert_range trivial ms (vec_of (xs1 ++ xs2) k) (length xs1) l
    = Ok (vec_of (xs1 ++ l ++ xs2) (ins_spare (length (xs1 ++ xs2)) k (Z.of_nat (length l))), length xs1)
  /\ Z.of_nat (length (xs1 ++ l ++ xs2) + ins_spare (length (xs1 ++ xs2)) k (Z.of_nat (length l))) <= ms.
Proof.
  intros C N. pose proof MS as [M1 M2].
  assert (LV : len (vec_of (xs1 ++ xs2) k) = (length xs1 + length xs2)%nat) by (cbn; apply app_length).
  unfold ins_spare. rewrite !app_length in *. rewrite Nat2Z.id.
  unfold insert_range. rewrite LV, vec_cap, app_length. rewrite (proj2 (Nat.ltb_ge _ (length xs1))) by lia.
  replace (length xs1 + length xs2 + k - (length xs1 + length xs2))%nat with k by lia.
  replace (length xs1 + length xs2 - length xs1)%nat with (length xs2) by lia.
  destruct (Nat.ltb_spec 0 (length l)) as [G|G].
  2:{ destruct l; [|cbn in G; lia]. cbn [length app]. replace (Z.of_nat 0 <=? Z.of_nat k) with true by lia.
      rewrite Nat.sub_0_r. split; [reflexivity | lia]. }
  destruct (Nat.leb_spec (length l) k) as [K|K].
  - replace (Z.of_nat (length l) <=? Z.of_nat k) with true by lia. split; [|lia]. cbv zeta.
    destruct (Nat.ltb_spec (length xs2) (length l)) as [S1|S1].
    + rewrite construct_end_list by (rewrite skipn_length; lia). cbn [bind].
      replace (Nat.min (length l) (length xs2)) with (length xs2) by lia.
      rewrite <- app_assoc.
      destruct (Nat.ltb_spec 0 (length xs2)) as [Z2|Z2].
      * pose proof (move_range_out xs1 xs2 (skipn (length xs2) l) (k - length (skipn (length xs2) l))) as E.
        rewrite skipn_length in E. rewrite skipn_length. replace (length xs2 + (length l - length xs2))%nat with (length l) in E by lia.
        rewrite E by lia. cbn [bind buf len].
        rewrite assign_list_live.
        -- cbn [bind]. unfold vec_of. rewrite !map_app, !app_length, <- !app_assoc.
           replace (map Obj l) with (map Obj (firstn (length xs2) l) ++ map Obj (skipn (length xs2) l)) by (rewrite <- map_app, firstn_skipn; reflexivity).
           rewrite <- !app_assoc. replace (k - (length l - length xs2) - length xs2)%nat with (k - length l)%nat by lia.
           replace (length xs1 + length l + length xs2)%nat with (length xs1 + (length l + length xs2))%nat by lia. reflexivity.
        -- rewrite map_length; reflexivity.
        -- rewrite repeat_length, firstn_length. lia.
        -- apply live_ok, live_moved.
      * destruct xs2; [|cbn in Z2; lia]. cbn [app length skipn] in *. rewrite app_nil_r. reflexivity.
    + cbn [bind]. replace (Nat.min (length l) (length xs2)) with (length l) by lia. rewrite (proj2 (Nat.ltb_lt 0 (length l))) by lia.
      destruct (move_range_in xs1 xs2 k (length l)) as (hs & H1 & H2 & H3); [lia | lia |].
      rewrite H3. cbn [bind buf len]. rewrite firstn_all.
      rewrite assign_list_live.
      * cbn [bind]. unfold vec_of. rewrite !map_app, !app_length, <- !app_assoc. do 3 f_equal. lia.
      * rewrite map_length; reflexivity.
      * exact H1.
      * apply live_ok, H2.
  - replace (Z.of_nat (length l) <=? Z.of_nat k) with false by lia. rewrite sz_small by lia.
    destruct (recommend_ok (length xs1 + length xs2 + k) (Z.of_nat (length xs1 + length xs2) + Z.of_nat (length l))) as [E B]; [lia | lia |].
    rewrite E. cbn [bind]. set (g := grown _ _) in *. cbv zeta. cbn [split_buffer sbuf send sbegin].
    rewrite (slow_list xs1 xs2 k l g) by lia. split; [|lia]. do 3 f_equal. lia.
Qed.
Lemma insert_range_throw xs k p l : (p <= length xs)%nat -> Z.of_nat (length xs + k) <= ms -> Z.of_nat (length l) < 2 ^ 63 -> ms < Z.of_nat (length xs) + Z.of_nat (length l) ->
  insert_range trivial ms (vec_of xs k) p l = Throw.
Proof.
  intros Pp C N0 N. pose proof MS as [M1 M2]. unfold insert_range. rewrite vec_cap. replace (len (vec_of xs k)) with (length xs) by reflexivity.
  rewrite (proj2 (Nat.ltb_ge _ p)) by lia. rewrite (proj2 (Nat.ltb_lt 0 _)) by lia.
  rewrite (proj2 (Nat.leb_gt _ _)) by lia. rewrite sz_small by lia. rewrite recommend_throw by lia. reflexivity.
Qed.

(** ** Erasing *)
Lemma erase_range_ok x1 ds x2 k p q : p = length x1 -> q = (length x1 + length ds)%nat ->
  erase_range trivial (vec_of (x1 ++ ds ++ x2) k) p q = Ok (vec_of (x1 ++ x2) (length ds + k), p).
Proof.
  intros -> ->. unfold erase_range.
  replace (len (vec_of (x1 ++ ds ++ x2) k)) with (length x1 + (length ds + length x2))%nat by (cbn; rewrite !app_length; reflexivity).
  rewrite (proj2 (Nat.ltb_ge _ (length x1))) by lia. rewrite (proj2 (Nat.ltb_ge _ (length x1 + length ds))) by lia. cbn [orb].
  destruct (Nat.eqb_spec (length x1) (length x1 + length ds)) as [G|G].
  - destruct ds; [|cbn in G; lia]. reflexivity.
  - replace (length x1 + (length ds + length x2) - (length x1 + length ds))%nat with (length x2) by lia.
    destruct (move_forward_live trivial x2 (map Obj x1) (map Obj ds) (repeat Raw k) (length x1 + length ds) (length x1)) as (hs & H1 & _ & H3 & H4).
    + rewrite map_length; reflexivity.
    + rewrite !map_length; reflexivity.
    + destruct ds; [cbn in G; lia | discriminate].
    + apply live_ok, live_obj.
    + cbn [buf vec_of]. rewrite !map_app, <- !app_assoc, H4. cbn [bind].
      rewrite map_length in H1.
      pose proof (destruct_end_gen (x1 ++ x2) hs k (H3 (live_obj ds))) as D.
      rewrite map_app, app_length, <- app_assoc in D.
      replace (length x1 + (length ds + length x2))%nat with (length x1 + length x2 + length hs)%nat by lia.
      rewrite D, H1. reflexivity.
Qed.
Lemma erase_ok x1 d x2 k p : p = length x1 -> erase trivial (vec_of (x1 ++ d :: x2) k) p = Ok (vec_of (x1 ++ x2) (S k), p).
Proof.
  intros ->. pose proof (erase_range_ok x1 [d] x2 k _ _ eq_refl eq_refl) as E.
  unfold erase_range in E. unfold erase. cbn [app length] in *.
  replace (len (vec_of (x1 ++ d :: x2) k)) with (length x1 + S (length x2))%nat in * by (cbn; rewrite !app_length; reflexivity).
  rewrite (proj2 (Nat.leb_gt _ _)) by lia.
  rewrite (proj2 (Nat.ltb_ge _ (length x1))) in E by lia. rewrite (proj2 (Nat.ltb_ge _ (length x1 + 1))) in E by lia. cbn [orb] in E.
  rewrite (proj2 (Nat.eqb_neq _ _)) in E by lia. exact E.
Qed.
Lemma filter_len (f : A -> bool) xs : (length (filter f xs) <= length xs)%nat.
Proof. induction xs as [|x xs IH]; cbn; [lia | destruct (f x); cbn; lia]. Qed.
Lemma erase_if_ok xs k f : Z.of_nat (length xs + k) <= ms -> erase_if trivial (vec_of xs k) f =
  Ok (vec_of (filter (fun a => negb (f a)) xs) (length xs - length (filter (fun a => negb (f a)) xs) + k), Z.of_nat (length (filter f xs))).
Proof.
  intros C. pose proof MS as [M1 M2]. unfold erase_if. cbn [buf len vec_of].
  pose proof (read_all_obj xs [] (repeat Raw k) 0 eq_refl) as E. cbn [app] in E. rewrite E. cbn [bind]. cbv zeta.
  set (keep := filter (fun a => negb (f a)) xs).
  assert (LK : (length keep <= length xs)%nat) by apply filter_len.
  assert (LC : (length (filter f xs) + length keep = length xs)%nat).
  { subst keep. clear. induction xs as [|x xs IH]; [reflexivity|]. cbn [filter]. destruct (f x); cbn [negb length]; lia. }
  rewrite skipn_app, skipn_all2 by (rewrite map_length; lia). rewrite map_length, Nat.sub_diag. cbn [skipn app].
  assert (EE : erase_range trivial (Vec (map Obj keep ++ repeat Moved (length xs - length keep) ++ repeat Raw k) (length xs)) (length keep) (length xs)
    = Ok (vec_of keep (length xs - length keep + k), length keep)).
  { unfold erase_range. cbn [len buf]. rewrite (proj2 (Nat.ltb_ge _ (length keep))) by lia. rewrite Nat.ltb_irrefl. cbn [orb].
    destruct (Nat.eqb_spec (length keep) (length xs)) as [G|G].
    - rewrite <- G, Nat.sub_diag. reflexivity.
    - rewrite Nat.sub_diag. cbn [move_forward bind]. rewrite Nat.add_0_r.
      pose proof (destruct_end_gen keep (repeat Moved (length xs - length keep)) k (live_moved _)) as D.
      rewrite repeat_length in D. replace (length keep + (length xs - length keep))%nat with (length xs) in D by lia.
      rewrite D. reflexivity. }
  rewrite EE. cbn [bind fst]. cbn [len vec_of]. rewrite sz_small by lia. do 3 f_equal. lia.
Qed.

(** ** append, resize *)
Lemma append_ok xs k n x a : Z.of_nat (length xs + k) <= ms -> 0 <= n -> Z.of_nat (length xs) + n <= ms -> ref_value xs x = Some a ->
  append trivial ms (vec_of xs k) n x = Ok (vec_of (xs ++ repeat a (Z.to_nat n)) (ins_spare (length xs) k n))
  /\ Z.of_nat (length (xs ++ repeat a (Z.to_nat n)) + ins_spare (length xs) k n) <= ms.
Proof.
  intros C N0 N R. pose proof MS as [M1 M2]. unfold append, ins_spare. rewrite vec_cap. replace (len (vec_of xs k)) with (length xs) by reflexivity.
  replace (length xs + k - length xs)%nat with k by lia. rewrite app_length, repeat_length.
  destruct (Z.leb_spec n (Z.of_nat k)) as [K|K].
  - rewrite (construct_end _ _ _ _ a) by (auto; lia). split; [reflexivity | lia].
  - rewrite sz_small by lia.
    destruct (recommend_ok (length xs + k) (Z.of_nat (length xs) + n)) as [E B]; [lia | lia |].
    rewrite E. cbn [bind]. set (g := grown _ _) in *. cbv zeta. cbn [split_buffer sbuf send sbegin].
    split; [|lia].
    rewrite (raw_split (Z.to_nat g) (length xs)) by lia.
    rewrite (raw_split (Z.to_nat g - length xs) (Z.to_nat n)) by lia.
    rewrite (construct_n_src trivial (Z.to_nat n) _ _ _ _ a) by (rewrite ?repeat_length; auto; apply (ref_read _ _ _ R)). cbn [bind].
    pose proof (swap_out_ok xs k (repeat a (Z.to_nat n)) (Z.to_nat g - length xs - Z.to_nat n)) as S1.
    rewrite repeat_length in S1. exact S1.
Qed.
Lemma append_throw xs k n x : Z.of_nat (length xs + k) <= ms -> 0 <= n < 2 ^ 63 -> ms < Z.of_nat (length xs) + n ->
  append trivial ms (vec_of xs k) n x = Throw.
Proof.
  intros C N0 N. pose proof MS as [M1 M2]. unfold append. rewrite vec_cap. replace (len (vec_of xs k)) with (length xs) by reflexivity.
  replace (n <=? _) with false by lia. rewrite sz_small by lia. rewrite recommend_throw by lia. reflexivity.
Qed.
Definition fit_spare (len k : nat) (n : Z) : nat :=
  if n <=? Z.of_nat len then (len - Z.to_nat n + k)%nat else ins_spare len k (n - Z.of_nat len).
Lemma resize_ok xs k n x a : Z.of_nat (length xs + k) <= ms -> 0 <= n <= ms -> ref_value xs x = Some a ->
  resize_ref trivial ms (vec_of xs k) n x = Ok (vec_of (fit (Z.to_nat n) a xs) (fit_spare (length xs) k n))
  /\ Z.of_nat (length (fit (Z.to_nat n) a xs) + fit_spare (length xs) k n) <= ms.
Proof.
  intros C N R. unfold resize_ref, fit, fit_spare. replace (len (vec_of xs k)) with (length xs) by reflexivity.
  destruct (Z.ltb_spec (Z.of_nat (length xs)) n) as [G|G].
  - replace (n <=? Z.of_nat (length xs)) with false by lia. rewrite firstn_all2 by lia.
    replace (Z.to_nat n - length xs)%nat with (Z.to_nat (n - Z.of_nat (length xs))) by lia. apply append_ok; auto; lia.
  - replace (n <=? Z.of_nat (length xs)) with true by lia. replace (Z.to_nat n - length xs)%nat with 0%nat by lia.
    cbn [repeat]. rewrite app_nil_r, firstn_length.
    destruct (Z.ltb_spec n (Z.of_nat (length xs))) as [H|H].
    + split; [|lia]. pose proof (destruct_end (firstn (Z.to_nat n) xs) (skipn (Z.to_nat n) xs) k) as D.
      rewrite firstn_skipn, skipn_length, firstn_length in D. replace (Nat.min (Z.to_nat n) (length xs)) with (Z.to_nat n) in D by lia.
      exact D.
    + rewrite firstn_all2 by lia. replace (length xs - Z.to_nat n + k)%nat with k by lia. split; [reflexivity | lia].
Qed.
Lemma resize_throw xs k n x : Z.of_nat (length xs + k) <= ms -> ms < n < 2 ^ 63 -> resize_ref trivial ms (vec_of xs k) n x = Throw.
Proof.
  intros C N. unfold resize_ref. replace (len (vec_of xs k)) with (length xs) by reflexivity.
  replace (_ <? n) with true by lia. apply append_throw; lia.
Qed.

(** ** assign *)
Lemma firstn_len_split xs l : (length l <= length xs)%nat -> exists x1 x2, xs = x1 ++ x2 /\ length x1 = length l.
Proof. intros H. exists (firstn (length l) xs), (skipn (length l) xs). rewrite firstn_skipn, firstn_length. split; [reflexivity | lia]. Qed.
Definition new_spare (len k n : nat) : nat :=
  if (n <=? len + k)%nat then len + k - n else Z.to_nat (grown 0 (Z.of_nat n)) - n.
Lemma valloc n : 0 <= n <= ms -> @vallocate A ms n = Ok (vec_of [] (Z.to_nat n)).
Proof. intros H. unfold vallocate. replace (ms <? n) with false by lia. reflexivity. Qed.
Lemma assign_ok xs k l : Z.of_nat (length xs + k) <= ms -> Z.of_nat (length l) <= ms ->
  assign trivial ms (vec_of xs k) l = Ok (vec_of l (new_spare (length xs) k (length l)))
  /\ Z.of_nat (length l + new_spare (length xs) k (length l)) <= ms.
Proof.
  intros C N. unfold assign, new_spare. rewrite vec_cap.
  destruct (Nat.leb_spec (length l) (length xs + k)) as [G|G].
  - split; [|lia]. replace (len (vec_of xs k)) with (length xs) by reflexivity. cbn [buf vec_of].
    destruct (Nat.ltb_spec (length xs) (length l)) as [H|H].
    + pose proof (assign_list_live trivial (firstn (length xs) l) [] (map Obj xs) (repeat Raw k) 0 eq_refl) as E.
      cbn [app] in E. rewrite E by (try apply live_ok, live_obj; rewrite map_length, firstn_length; lia). cbn [bind]. cbv zeta.
      pose proof (construct_end_list (firstn (length xs) l) k (skipn (length xs) l)) as D. rewrite skipn_length, firstn_skipn in D.
      unfold vec_of in D at 1. rewrite firstn_length in D. replace (Nat.min (length xs) (length l)) with (length xs) in D by lia.
      rewrite D by lia. do 2 f_equal. lia.
    + rewrite firstn_all2 by lia. destruct (firstn_len_split xs l) as (x1 & x2 & -> & L1); [lia|].
      rewrite map_app, <- app_assoc.
      pose proof (assign_list_live trivial l [] (map Obj x1) (map Obj x2 ++ repeat Raw k) 0 eq_refl) as E. cbn [app] in E.
      rewrite E by (try apply live_ok, live_obj; rewrite map_length; lia). cbn [bind]. cbv zeta.
      pose proof (destruct_end l x2 k) as D. unfold vec_of in D at 1. rewrite map_app, <- app_assoc, app_length in D.
      rewrite app_length, L1, D. do 2 f_equal. lia.
  - rewrite vdealloc_ok. cbn [bind].
    destruct (recommend_ok 0 (Z.of_nat (length l))) as [E B]; [cbn; lia | lia |]. rewrite E. cbn [bind].
    change (Z.of_nat 0) with 0 in *. rewrite valloc by lia. cbn [bind]. rewrite construct_end_list by lia. split; [reflexivity | lia].
Qed.
Lemma assign_throw xs k l : Z.of_nat (length xs + k) <= ms -> ms < Z.of_nat (length l) -> assign trivial ms (vec_of xs k) l = Throw.
Proof.
  intros C N. unfold assign. rewrite vec_cap. rewrite (proj2 (Nat.leb_gt _ _)) by lia. rewrite vdealloc_ok. cbn [bind].
  rewrite recommend_throw by lia. reflexivity.
Qed.
Lemma fill_ref xs1 xs2 x a n q : ref_value (xs1 ++ xs2) x = Some a -> length xs1 = n ->
  forall j, (j <= n)%nat -> read_ref ([] ++ map Obj (repeat a j) ++ skipn j (map Obj xs1) ++ map Obj xs2 ++ q) x = Ok a.
Proof.
  intros R L j Hj. cbn [app].
  replace (map Obj (repeat a j) ++ skipn j (map Obj xs1) ++ map Obj xs2 ++ q) with (map Obj (repeat a j ++ skipn j xs1 ++ xs2) ++ q)
    by (rewrite !map_app, <- !app_assoc, skipn_map; reflexivity).
  apply ref_read. destruct x as [b|i]; cbn in *; [exact R|].
  destruct (Nat.ltb_spec i j) as [H|H].
  - rewrite nth_error_app1 by (rewrite repeat_length; lia). rewrite nth_error_repeat by lia. reflexivity.
  - rewrite nth_error_app2 by (rewrite repeat_length; lia). rewrite repeat_length. rewrite <- R.
    rewrite <- (firstn_skipn j xs1) at 2. rewrite <- app_assoc. rewrite (nth_error_app2 (firstn j xs1)) by (rewrite firstn_length; lia).
    rewrite firstn_length. replace (Nat.min j (length xs1)) with j by lia. reflexivity.
Qed.
Lemma assign_n_in xs k n u a : Z.of_nat (length xs + k) <= ms -> 0 <= n <= Z.of_nat (length xs + k) -> ref_value xs u = Some a ->
  assign_n trivial ms (vec_of xs k) n u = Ok (vec_of (repeat a (Z.to_nat n)) (length xs + k - Z.to_nat n)).
Proof.
  intros C N R. unfold assign_n. rewrite vec_cap. replace (n <=? _) with true by lia.
  replace (len (vec_of xs k)) with (length xs) by reflexivity. set (w := Z.to_nat n). assert (w <= length xs + k)%nat by lia.
  cbn [buf vec_of].
  destruct (Nat.ltb_spec (length xs) w) as [H1|H1].
  - replace (Nat.min w (length xs)) with (length xs) by lia.
    pose proof (fill_n_live trivial (length xs) [] (map Obj xs) (repeat Raw k) 0 u a eq_refl) as E. cbn [app length] in E.
    rewrite E.
    + cbn [bind]. cbv zeta. pose proof (construct_end (repeat a (length xs)) k (w - length xs) u a) as D.
      unfold vec_of in D at 1. rewrite repeat_length in D. rewrite D.
      * rewrite <- repeat_app. replace (length xs + (w - length xs))%nat with w by lia. do 2 f_equal. lia.
      * lia.
      * destruct u as [b|i]; cbn in *; [exact R|]. apply nth_error_repeat. apply nth_error_Some. congruence.
    + apply map_length.
    + apply live_ok, live_obj.
    + intros j Hj. pose proof (fill_ref xs [] u a (length xs) (repeat Raw k)) as F. cbn [app map] in F. apply F; auto.
      rewrite app_nil_r. exact R.
  - replace (Nat.min w (length xs)) with w by lia.
    assert (exists x1 x2, xs = x1 ++ x2 /\ length x1 = w) as (x1 & x2 & -> & L1).
    { exists (firstn w xs), (skipn w xs). rewrite firstn_skipn, firstn_length. split; [reflexivity | lia]. }
    rewrite map_app, <- app_assoc.
    pose proof (fill_n_live trivial w [] (map Obj x1) (map Obj x2 ++ repeat Raw k) 0 u a eq_refl) as E. cbn [app] in E.
    rewrite E.
    + cbn [bind]. cbv zeta. pose proof (destruct_end (repeat a w) x2 k) as D. unfold vec_of in D at 1.
      rewrite map_app, <- app_assoc, app_length, repeat_length in D. rewrite app_length, L1, D. do 2 f_equal. lia.
    + rewrite map_length. exact L1.
    + apply live_ok, live_obj.
    + intros j Hj. apply (fill_ref x1 x2 u a w (repeat Raw k) R L1 j Hj).
Qed.
Lemma assign_n_ok xs k n a : Z.of_nat (length xs + k) <= ms -> 0 <= n <= ms ->
  assign_n trivial ms (vec_of xs k) n (Val a) = Ok (vec_of (repeat a (Z.to_nat n)) (new_spare (length xs) k (Z.to_nat n)))
  /\ Z.of_nat (length (repeat a (Z.to_nat n)) + new_spare (length xs) k (Z.to_nat n)) <= ms.
Proof.
  intros C N. unfold new_spare. rewrite repeat_length.
  destruct (Nat.leb_spec (Z.to_nat n) (length xs + k)) as [G|G].
  - split; [|lia]. apply assign_n_in; auto; lia.
  - unfold assign_n. rewrite vec_cap. replace (n <=? _) with false by lia. rewrite vdealloc_ok. cbn [bind].
    destruct (recommend_ok 0 n) as [E B]; [cbn; lia | lia |]. rewrite E. cbn [bind]. change (Z.of_nat 0) with 0 in *.
    rewrite Z2Nat.id by lia.
    rewrite valloc by lia. cbn [bind]. rewrite (construct_end _ _ _ _ a) by (auto; lia). split; [reflexivity | lia].
Qed.
Lemma assign_n_throw xs k n u : Z.of_nat (length xs + k) <= ms -> ms < n -> assign_n trivial ms (vec_of xs k) n u = Throw.
Proof.
  intros C N. unfold assign_n. rewrite vec_cap. replace (n <=? _) with false by lia. rewrite vdealloc_ok. cbn [bind].
  rewrite recommend_throw by lia. reflexivity.
Qed.
Lemma assign_n_alias xs k n i : Z.of_nat (length xs + k) < n <= ms -> assign_n trivial ms (vec_of xs k) n (Elem i) = UB.
Proof.
  intros N. unfold assign_n. rewrite vec_cap. replace (n <=? _) with false by lia. rewrite vdealloc_ok. cbn [bind].
  destruct (recommend_ok 0 n) as [E B]; [cbn; lia | lia |]. rewrite E. cbn [bind]. change (Z.of_nat 0) with 0 in *. rewrite valloc by lia. reflexivity.
Qed.
Lemma emplace_all_ok l : forall xs k, Z.of_nat (length xs + k) <= ms ->
  if Z.of_nat (length xs + length l) <=? ms then
    exists r, emplace_all trivial ms (vec_of xs k) l = Ok (vec_of (xs ++ l) r) /\ Z.of_nat (length (xs ++ l) + r) <= ms
  else emplace_all trivial ms (vec_of xs k) l = Throw.
Proof.
  induction l as [|a l IH]; intros xs k C.
  - cbn [length emplace_all]. rewrite Nat.add_0_r. replace (_ <=? ms) with true by lia. rewrite app_nil_r. exists k. split; [reflexivity | exact C].
  - cbn [length emplace_all].
    destruct (Z.leb_spec (Z.of_nat (length xs) + 1) ms) as [G|G].
    + destruct (push_ok xs k (Val a) a C G eq_refl) as [E B]. rewrite E. cbn [bind].
      specialize (IH _ _ B). rewrite app_length in IH. cbn [length] in IH. rewrite <- app_assoc in IH.
      replace (length xs + 1 + length l)%nat with (length xs + S (length l))%nat in IH by lia. exact IH.
    + rewrite (push_throw xs k (Val a) a C) by (auto; lia). replace (_ <=? ms) with false by lia. reflexivity.
Qed.

(** ** split_buffer *)
Definition sides_ok (pre post : mem A) : Prop := trivial = true \/ (exists i, pre = repeat Raw i) /\ (exists j, post = repeat Raw j).
Lemma realloc_ok xs pre post c start : sides_ok pre post -> Z.of_nat (start + length xs) <= c ->
  sb_realloc trivial (SBuf (pre ++ map Obj xs ++ post) (length pre) (length pre + length xs)) c start
  = Ok (SBuf (repeat Raw start ++ map Obj xs ++ repeat Raw (Z.to_nat c - start - length xs)) start (start + length xs)).
Proof.
  intros D C. unfold sb_realloc, sb_size, split_buffer. cbn [sbuf sbegin send]. cbv zeta.
  replace (length pre + length xs - length pre)%nat with (length xs) by lia.
  rewrite (raw_split (Z.to_nat c) start) by lia. rewrite (raw_split (Z.to_nat c - start) (length xs)) by lia.
  rewrite construct_forward_raw by (rewrite ?repeat_length; reflexivity). cbn [bind].
  pose proof (destroy_down_live trivial (repeat Moved (length xs)) pre post (live_moved _)) as E. rewrite repeat_length in E. rewrite E. cbn [bind].
  assert (F : deallocate trivial (pre ++ repeat Raw (length xs) ++ post) = Ok tt).
  { destruct D as [D | [(i & ->) (j & ->)]].
    - unfold deallocate. rewrite D. reflexivity.
    - rewrite <- !repeat_plus. apply dealloc_raw. }
  rewrite F. cbn [bind]. rewrite repeat_length. reflexivity.
Qed.
Lemma sb_input_ok l : forall xs k, Z.of_nat (length xs + length l) < 2 ^ 63 ->
  exists r, sb_construct_input trivial (SBuf (map Obj xs ++ repeat Raw k) 0 (length xs)) l
  = Ok (SBuf (map Obj (xs ++ l) ++ repeat Raw r) 0 (length xs + length l)).
Proof.
  induction l as [|a l IH]; intros xs k C.
  - exists k. rewrite app_nil_r, Nat.add_0_r. reflexivity.
  - cbn [sb_construct_input length] in *. unfold sb_capacity. cbn [sbuf send].
    rewrite app_length, map_length, repeat_length.
    assert (exists r, (if (length xs =? length xs + k)%nat then
        sb_realloc trivial (SBuf (map Obj xs ++ repeat Raw k) 0 (length xs)) (Z.max (sz (2 * Z.of_nat (length xs + k))) 8) 0
        else Ok (SBuf (map Obj xs ++ repeat Raw k) 0 (length xs))) = Ok (SBuf (map Obj xs ++ Raw :: repeat Raw r) 0 (length xs))) as (r & E).
    { destruct (Nat.eqb_spec (length xs) (length xs + k)) as [G|G].
      - assert (k = 0%nat) by lia. subst k. rewrite Nat.add_0_r. rewrite sz_small by lia.
        set (c := Z.max (2 * Z.of_nat (length xs)) 8).
        pose proof (realloc_ok xs [] (repeat Raw 0) c 0) as E. cbn [app length Nat.add repeat] in E.
        cbn [repeat]. rewrite E by (try lia; right; split; exists 0%nat; reflexivity).
        exists (Z.to_nat c - 0 - length xs - 1)%nat. do 3 f_equal.
        change (Raw :: repeat Raw (Z.to_nat c - 0 - length xs - 1)) with (repeat (@Raw A) (S (Z.to_nat c - 0 - length xs - 1))). f_equal. lia.
      - exists (k - 1)%nat. do 3 f_equal. change (Raw :: repeat Raw (k - 1)) with (repeat (@Raw A) (S (k - 1))). f_equal. lia. }
    rewrite E. cbn [bind sbuf send sbegin]. rewrite construct_mid by (rewrite map_length; reflexivity). cbn [bind].
    destruct (IH (xs ++ [a]) r) as (q & Q).
    + rewrite app_length. cbn [length]. lia.
    + rewrite map_app, app_length, <- !app_assoc in Q. cbn [map app length] in Q. rewrite Nat.add_1_r in Q. exists q. rewrite Q. do 2 f_equal. lia.
Qed.
Lemma rotate_ok x1 x2 l k : rotate trivial (vec_of (x1 ++ x2 ++ l) k) (length x1) (length x1 + length x2) = Ok (vec_of (x1 ++ l ++ x2) k, (length x1 + length l)%nat).
Proof.
  unfold rotate. replace (len (vec_of (x1 ++ x2 ++ l) k)) with (length x1 + (length x2 + length l))%nat by (cbn; rewrite !app_length; reflexivity).
  replace (length x1 + length x2 - length x1)%nat with (length x2) by lia.
  replace (length x1 + (length x2 + length l) - (length x1 + length x2))%nat with (length l) by lia.
  cbn [buf vec_of]. rewrite !map_app, <- !app_assoc.
  rewrite read_all_obj by (rewrite map_length; reflexivity). cbn [bind].
  rewrite (app_assoc (map Obj x1)). rewrite read_all_obj by (rewrite app_length, !map_length; reflexivity). cbn [bind].
  rewrite <- app_assoc, (app_assoc (map Obj x2)).
  rewrite assign_list_live.
  - cbn [bind]. unfold vec_of. rewrite !map_app, !app_length, <- !app_assoc. do 3 f_equal. lia.
  - rewrite map_length; reflexivity.
  - rewrite !app_length, !map_length. lia.
  - apply live_ok. apply Forall_app. split; apply live_obj.
Qed.
Lemma insert_input_ok x1 x2 k l : Z.of_nat (length (x1 ++ x2) + k) <= ms -> Z.of_nat (length l) < 2 ^ 63 ->
  if Z.of_nat (length (x1 ++ x2)) + Z.of_nat (length l) <=? ms then
    exists r, insert_input trivial ms (vec_of (x1 ++ x2) k) (length x1) l = Ok (vec_of (x1 ++ l ++ x2) r, length x1) /\ Z.of_nat (length (x1 ++ l ++ x2) + r) <= ms
      /\ ((length l <= k)%nat -> r = (k - length l)%nat)
  else insert_input trivial ms (vec_of (x1 ++ x2) k) (length x1) l = Throw.
Proof.
  intros C L63. pose proof MS as [M1 M2].
  assert (LV : len (vec_of (x1 ++ x2) k) = (length x1 + length x2)%nat) by (cbn; apply app_length).
  unfold insert_input. rewrite LV, vec_cap. rewrite app_length in *.
  rewrite (proj2 (Nat.ltb_ge _ (length x1))) by lia. cbv zeta.
  replace (length x1 + length x2 + k - (length x1 + length x2))%nat with k by lia.
  rewrite construct_end_list by (rewrite firstn_length; lia). cbn [bind].
  set (l1 := firstn k l). set (l2 := skipn k l). assert (El : l = l1 ++ l2) by (symmetry; apply firstn_skipn).
  assert (L1 : length l1 = Nat.min k (length l)) by apply firstn_length.
  assert (L2 : length l2 = (length l - k)%nat) by apply skipn_length.
  destruct (sb_input_ok l2 [] 0) as (r & E); [cbn; lia|]. cbn [map app repeat length Nat.add] in E. rewrite E. cbn [bind].
  unfold sb_size. cbn [sbuf sbegin send]. rewrite Nat.sub_0_r.
  pose proof (read_all_obj l2 [] (repeat Raw r) 0 eq_refl) as RA. cbn [app] in RA.
  rewrite vec_cap.
  replace (len (vec_of ((x1 ++ x2) ++ l1) (k - length l1))) with (length x1 + length x2 + length l1)%nat by (cbn; rewrite !app_length; reflexivity).
  rewrite !app_length.
  assert (LL : length l = (length l1 + length l2)%nat) by (rewrite El, app_length; reflexivity).
  clearbody l1 l2. subst l. clear E.
  destruct l2 as [|b l3].
  - cbn [bind length] in *. replace (Z.of_nat (length x1 + length x2) + Z.of_nat (length (l1 ++ []))) with (Z.of_nat (length x1 + length x2 + length l1)) by (rewrite app_nil_r; lia).
    replace (_ <=? ms) with true by lia.
    rewrite <- app_assoc, rotate_ok. cbn [bind fst snd]. rewrite RA. cbn [bind].
    rewrite app_nil_r in *. exists (k - length l1)%nat.
    assert (I : insert_range trivial ms (vec_of (x1 ++ l1 ++ x2) (k - length l1)) (length x1 + length l1) [] = Ok (vec_of (x1 ++ l1 ++ x2) (k - length l1), (length x1 + length l1)%nat)).
    { unfold insert_range. replace (len (vec_of (x1 ++ l1 ++ x2) (k - length l1))) with (length x1 + (length l1 + length x2))%nat by (cbn; rewrite !app_length; reflexivity).
      rewrite (proj2 (Nat.ltb_ge _ (length x1 + length l1))) by lia. reflexivity. }
    rewrite I. cbn [bind fst]. split; [reflexivity | lia].
  - cbv iota. remember (b :: l3) as l2 eqn:El2. assert (0 < length l2)%nat by (subst l2; cbn; lia). clear El2.
    assert (k = length l1) by lia. subst k. rewrite Nat.sub_diag, Nat.add_0_r.
    rewrite app_length.
    destruct (Z.leb_spec (Z.of_nat (length x1 + length x2) + Z.of_nat (length l1 + length l2)) ms) as [G|G].
    + rewrite sz_small by lia.
      destruct (recommend_ok (length x1 + length x2 + length l1) (Z.of_nat (length x1 + length x2 + length l1) + Z.of_nat (length l2))) as [E B]; [lia | lia |].
      rewrite E. cbn [bind]. set (g := grown _ _) in *.
      rewrite reserve_ok by (rewrite ?app_length; lia). cbn [bind]. rewrite !app_length.
      set (k2 := if _ <? g then _ else _).
      assert (K2 : (length l2 <= k2)%nat /\ Z.of_nat (length x1 + length x2 + length l1 + k2) <= ms).
      { subst k2. destruct (Z.ltb_spec (Z.of_nat (length x1 + length x2 + length l1 + 0)) g); lia. }
      rewrite <- app_assoc, rotate_ok. cbn [bind fst snd]. rewrite RA. cbn [bind].
      pose proof (insert_range_ok (x1 ++ l1) x2 k2 l2) as I. rewrite !app_length in I. rewrite <- !app_assoc in I.
      destruct I as [I1 I2]; [lia | lia |]. rewrite I1. cbn [bind fst].
      rewrite <- app_assoc. eexists. split; [reflexivity|]. rewrite !app_length in *. split; [lia|]. lia.
    + rewrite sz_small by lia. rewrite recommend_throw by lia. reflexivity.
Qed.

(** ** All operations *)
Lemma emplace_all_stable l : forall xs k, Z.of_nat (length xs + k) <= ms -> (length l <= k)%nat ->
  emplace_all trivial ms (vec_of xs k) l = Ok (vec_of (xs ++ l) (k - length l)).
Proof.
  induction l as [|a l IH]; intros xs k C L.
  - cbn [emplace_all length]. rewrite app_nil_r, Nat.sub_0_r. reflexivity.
  - cbn [emplace_all length] in *. destruct (push_ok xs k (Val a) a C) as [E B]; [lia | reflexivity |].
    rewrite E. cbn [bind]. unfold push_spare in *. rewrite (proj2 (Nat.ltb_lt 0 k)) in * by lia.
    rewrite IH by lia. rewrite <- app_assoc. cbn [app]. do 2 f_equal. lia.
Qed.
Lemma cut_split (x1 ds x2 : list A) p q : p = length x1 -> q = (length x1 + length ds)%nat -> cut p q (x1 ++ ds ++ x2) = x1 ++ x2.
Proof.
  intros -> ->. unfold cut. rewrite firstn_app, firstn_all, Nat.sub_diag. cbn [firstn]. rewrite app_nil_r.
  rewrite app_assoc, skipn_app. rewrite skipn_all2 by (rewrite app_length; lia). rewrite app_length, Nat.sub_diag. reflexivity.
Qed.
Lemma split3 xs (p q : nat) : (p <= q <= length xs)%nat -> exists x1 ds x2 : list A, xs = x1 ++ ds ++ x2 /\ p = length x1 /\ q = (length x1 + length ds)%nat.
Proof.
  intros H. exists (firstn p xs), (firstn (q - p) (skipn p xs)), (skipn (q - p) (skipn p xs)).
  rewrite !firstn_skipn, !firstn_length, skipn_length. repeat split; lia.
Qed.
Definition step_ok (dflt : A) (o : vop A) (v : vec A) (xs : list A) : Prop :=
  match lstep ms dflt o xs with
  | Ok ys => exists w, vstep trivial ms dflt o v = Ok w /\ holds ms w ys /\
      (keeps_storage o = true -> (length ys <= capacity v)%nat -> capacity w = capacity v)
  | Throw => vstep trivial ms dflt o v = Throw
  | _ => True
  end.
Lemma step_done (dflt : A) o v xs ys r : lstep ms dflt o xs = Ok ys -> vstep trivial ms dflt o v = Ok (vec_of ys r) -> Z.of_nat (length ys + r) <= ms ->
  (keeps_storage o = true -> (length ys <= capacity v)%nat -> (length ys + r = capacity v)%nat) -> step_ok dflt o v xs.
Proof.
  intros L V B K. unfold step_ok. rewrite L. exists (vec_of ys r). split; [exact V|]. split; [apply holds_mk; exact B|].
  rewrite vec_cap. exact K.
Qed.
Lemma step_throw (dflt : A) o v xs : lstep ms dflt o xs = Throw -> vstep trivial ms dflt o v = Throw -> step_ok dflt o v xs.
Proof. intros L V. unfold step_ok. rewrite L. exact V. Qed.
Lemma step_ub (dflt : A) o v xs : lstep ms dflt o xs = UB -> step_ok dflt o v xs.
Proof. intros L. unfold step_ok. rewrite L. exact I. Qed.
Lemma ins_keep len k n added : 0 <= n -> added = Z.to_nat n -> (len + added <= len + k)%nat -> (len + added + ins_spare len k n = len + k)%nat.
Proof. intros H -> L. unfold ins_spare. replace (n <=? Z.of_nat k) with true by lia. lia. Qed.

Lemma step_all (dflt : A) o v xs : holds ms v xs -> step_ok dflt o v xs.
Proof.
  intros H. apply holds_inv in H. destruct H as (k & -> & C). pose proof MS as [M1 M2].
  assert (Lx : Z.of_nat (length xs) <= ms) by lia.
  destruct o as [x| |p x|p x|p n x|p l|p l|p|p q|f|n x|n|n x|l|l|n a|n| |].
  - (* push *)
    destruct (ref_value xs x) as [a|] eqn:R; [|apply step_ub; cbn; unfold known; rewrite R; reflexivity].
    destruct (Z.leb_spec (Z.of_nat (length xs) + 1) ms) as [G|G].
    + destruct (push_ok xs k x a C G R) as [E B]. eapply step_done; [| exact E | exact B |].
      * cbn. unfold known, limit. rewrite R. replace (_ <=? ms) with true by lia. reflexivity.
      * intros _. rewrite vec_cap, app_length. cbn [length]. unfold push_spare. intros L. rewrite (proj2 (Nat.ltb_lt 0 k)) by lia. lia.
    + apply step_throw; [cbn; unfold known, limit; rewrite R; replace (_ <=? ms) with false by lia; reflexivity|].
      cbn [vstep]. apply (push_throw xs k x a); auto; lia.
  - (* pop *)
    destruct xs as [|a xs _] using rev_ind; [apply step_ub; reflexivity|].
    apply (step_done _ _ _ _ xs (S k)).
    + cbn [lstep]. rewrite removelast_last. destruct xs; reflexivity.
    + apply pop_ok.
    + rewrite app_length in C. cbn in C. lia.
    + intros _. rewrite vec_cap, app_length. cbn. lia.
  - (* insert *)
    destruct (Nat.leb_spec p (length xs)) as [P|P]; [|apply step_ub; cbn; unfold within; rewrite (proj2 (Nat.leb_gt _ _)) by lia; reflexivity].
    destruct (ref_value xs x) as [a|] eqn:R; [|apply step_ub; cbn; unfold within, known; rewrite (proj2 (Nat.leb_le _ _)), R by lia; reflexivity].
    destruct (Z.leb_spec (Z.of_nat (length xs) + 1) ms) as [G|G].
    + destruct (split_at xs p P) as (x1 & x2 & -> & <- & _).
      destruct (insert_one_gen (insert trivial ms) x1 x2 k x a) as [E B]; auto.
      eapply step_done; [| cbn [vstep]; rewrite E; reflexivity | exact B |].
      * cbn [lstep]. unfold within, known, limit. rewrite (proj2 (Nat.leb_le _ _)), R by lia. replace (_ <=? ms) with true by lia.
        rewrite put_split by reflexivity. reflexivity.
      * intros _. rewrite vec_cap. cbn [fst]. rewrite !app_length. cbn [length]. intros L.
        pose proof (ins_keep (length x1 + length x2) k 1 1). lia.
    + apply step_throw; [cbn [lstep]; unfold within, known, limit; rewrite (proj2 (Nat.leb_le _ _)), R by lia; replace (_ <=? ms) with false by lia; reflexivity|].
      cbn [vstep]. rewrite (insert_one_throw (insert trivial ms) xs k p x a) by (auto; lia). reflexivity.
  - (* emplace *)
    destruct (Nat.leb_spec p (length xs)) as [P|P]; [|apply step_ub; cbn; unfold within; rewrite (proj2 (Nat.leb_gt _ _)) by lia; reflexivity].
    destruct (ref_value xs x) as [a|] eqn:R; [|apply step_ub; cbn; unfold within, known; rewrite (proj2 (Nat.leb_le _ _)), R by lia; reflexivity].
    destruct (Z.leb_spec (Z.of_nat (length xs) + 1) ms) as [G|G].
    + destruct (split_at xs p P) as (x1 & x2 & -> & <- & _).
      destruct (insert_one_gen (emplace trivial ms) x1 x2 k x a) as [E B]; auto.
      eapply step_done; [| cbn [vstep]; rewrite E; reflexivity | exact B |].
      * cbn [lstep]. unfold within, known, limit. rewrite (proj2 (Nat.leb_le _ _)), R by lia. replace (_ <=? ms) with true by lia.
        rewrite put_split by reflexivity. reflexivity.
      * intros _. rewrite vec_cap. cbn [fst]. rewrite !app_length. cbn [length]. intros L.
        pose proof (ins_keep (length x1 + length x2) k 1 1). lia.
    + apply step_throw; [cbn [lstep]; unfold within, known, limit; rewrite (proj2 (Nat.leb_le _ _)), R by lia; replace (_ <=? ms) with false by lia; reflexivity|].
      cbn [vstep]. rewrite (insert_one_throw (emplace trivial ms) xs k p x a) by (auto; lia). reflexivity.
  - (* insert n *)
    destruct (count_ok n) eqn:CN; [|apply step_ub; cbn [lstep]; rewrite CN; reflexivity]. unfold count_ok in CN.
    destruct (Nat.leb_spec p (length xs)) as [P|P]; [|apply step_ub; cbn [lstep]; unfold within, count_ok; rewrite CN, (proj2 (Nat.leb_gt _ _)) by lia; reflexivity].
    destruct (ref_value xs x) as [a|] eqn:R; [|apply step_ub; cbn [lstep]; unfold within, known, count_ok; rewrite CN, (proj2 (Nat.leb_le _ _)), R by lia; reflexivity].
    destruct (Z.leb_spec (Z.of_nat (length xs) + n) ms) as [G|G].
    + destruct (split_at xs p P) as (x1 & x2 & -> & <- & _).
      destruct (insert_n_ok x1 x2 k n x a) as [E B]; auto; [lia|].
      eapply step_done; [| cbn [vstep]; rewrite E; reflexivity | exact B |].
      * cbn [lstep]. unfold within, known, limit, count_ok. rewrite CN, (proj2 (Nat.leb_le _ _)), R by lia. replace (_ <=? ms) with true by lia.
        rewrite put_split by reflexivity. reflexivity.
      * intros _. rewrite vec_cap. cbn [fst]. rewrite !app_length, repeat_length. intros L.
        pose proof (ins_keep (length x1 + length x2) k n (Z.to_nat n)). lia.
    + apply step_throw; [cbn [lstep]; unfold within, known, limit, count_ok; rewrite CN, (proj2 (Nat.leb_le _ _)), R by lia; replace (_ <=? ms) with false by lia; reflexivity|].
      cbn [vstep]. rewrite (insert_n_throw xs k p n x a) by (auto; lia). reflexivity.
  - (* insert range *)
    destruct (count_ok (Z.of_nat (length l))) eqn:CN; [|apply step_ub; cbn [lstep]; rewrite CN; reflexivity]. unfold count_ok in CN.
    destruct (Nat.leb_spec p (length xs)) as [P|P]; [|apply step_ub; cbn [lstep]; unfold within, count_ok; rewrite CN, (proj2 (Nat.leb_gt _ _)) by lia; reflexivity].
    destruct (Z.leb_spec (Z.of_nat (length xs) + Z.of_nat (length l)) ms) as [G|G].
    + destruct (split_at xs p P) as (x1 & x2 & -> & <- & _).
      destruct (insert_range_ok x1 x2 k l) as [E B]; auto.
      eapply step_done; [| cbn [vstep]; rewrite E; reflexivity | exact B |].
      * cbn [lstep]. unfold within, limit, count_ok. rewrite CN, (proj2 (Nat.leb_le _ _)) by lia. replace (_ <=? ms) with true by lia.
        rewrite put_split by reflexivity. reflexivity.
      * intros _. rewrite vec_cap. cbn [fst]. rewrite !app_length. intros L.
        pose proof (ins_keep (length x1 + length x2) k (Z.of_nat (length l)) (length l)). lia.
    + apply step_throw; [cbn [lstep]; unfold within, limit, count_ok; rewrite CN, (proj2 (Nat.leb_le _ _)) by lia; replace (_ <=? ms) with false by lia; reflexivity|].
      cbn [vstep]. rewrite (insert_range_throw xs k p l) by lia. reflexivity.
  - (* insert input *)
    destruct (count_ok (Z.of_nat (length l))) eqn:CN; [|apply step_ub; cbn [lstep]; rewrite CN; reflexivity]. unfold count_ok in CN.
    destruct (Nat.leb_spec p (length xs)) as [P|P]; [|apply step_ub; cbn [lstep]; unfold within, count_ok; rewrite CN, (proj2 (Nat.leb_gt _ _)) by lia; reflexivity].
    destruct (split_at xs p P) as (x1 & x2 & -> & <- & _).
    pose proof (insert_input_ok x1 x2 k l C ltac:(lia)) as HI.
    destruct (Z.leb_spec (Z.of_nat (length (x1 ++ x2)) + Z.of_nat (length l)) ms) as [G|G].
    + destruct HI as (r & E & B & K).
      eapply step_done; [| cbn [vstep]; rewrite E; reflexivity | exact B |].
      * cbn [lstep]. unfold within, limit, count_ok. rewrite CN, (proj2 (Nat.leb_le _ _)) by lia. replace (_ <=? ms) with true by lia.
        rewrite put_split by reflexivity. reflexivity.
      * intros _. rewrite vec_cap. cbn [fst]. rewrite !app_length. intros L. lia.
    + apply step_throw; [cbn [lstep]; unfold within, limit, count_ok; rewrite CN, (proj2 (Nat.leb_le _ _)) by lia; replace (_ <=? ms) with false by lia; reflexivity|].
      cbn [vstep]. rewrite HI. reflexivity.
  - (* erase *)
    destruct (Nat.ltb_spec p (length xs)) as [P|P]; [|apply step_ub; cbn [lstep]; rewrite (proj2 (Nat.ltb_ge _ _)) by lia; reflexivity].
    destruct (split3 xs p (p + 1)) as (x1 & [|d [|? ?]] & x2 & -> & Hp & Hq); [lia | cbn in Hq; lia | | cbn in Hq; lia].
    apply (step_done _ _ _ _ (x1 ++ x2) (S k)).
    + cbn [lstep]. rewrite (proj2 (Nat.ltb_lt _ _)) by lia. rewrite cut_split by lia. reflexivity.
    + cbn [vstep app]. rewrite erase_ok by exact Hp. reflexivity.
    + rewrite !app_length in *. cbn in C. lia.
    + intros _. rewrite vec_cap, !app_length. cbn. lia.
  - (* erase range *)
    destruct ((p <=? q)%nat && (q <=? length xs)%nat) eqn:P; [|apply step_ub; cbn [lstep]; rewrite P; reflexivity].
    destruct (split3 xs p q) as (x1 & ds & x2 & -> & Hp & Hq); [lia|].
    apply (step_done _ _ _ _ (x1 ++ x2) (length ds + k)).
    + cbn [lstep]. rewrite P. rewrite cut_split by assumption. reflexivity.
    + cbn [vstep]. rewrite erase_range_ok by assumption. reflexivity.
    + rewrite !app_length in *. lia.
    + intros _. rewrite vec_cap, !app_length. lia.
  - (* erase if *)
    pose proof (filter_len (fun a => negb (f a)) xs) as F.
    eapply step_done; [reflexivity | cbn [vstep]; rewrite erase_if_ok by exact C; reflexivity | cbn [fst]; lia |].
    intros _. rewrite vec_cap. cbn [fst]. lia.
  - (* append *)
    destruct (count_ok n) eqn:CN; [|apply step_ub; cbn [lstep]; rewrite CN; reflexivity]. unfold count_ok in CN.
    destruct (ref_value xs x) as [a|] eqn:R; [|apply step_ub; cbn [lstep]; unfold known, count_ok; rewrite CN, R; reflexivity].
    destruct (Z.leb_spec (Z.of_nat (length xs) + n) ms) as [G|G].
    + destruct (append_ok xs k n x a) as [E B]; auto; [lia|]. eapply step_done; [| exact E | exact B |].
      * cbn [lstep]. unfold known, limit, count_ok. rewrite CN, R. replace (_ <=? ms) with true by lia. reflexivity.
      * intros _. rewrite vec_cap, app_length, repeat_length. intros L. pose proof (ins_keep (length xs) k n (Z.to_nat n)). lia.
    + apply step_throw; [cbn [lstep]; unfold known, limit, count_ok; rewrite CN, R; replace (_ <=? ms) with false by lia; reflexivity|].
      cbn [vstep]. apply append_throw; lia.
  - (* resize *)
    destruct (count_ok n) eqn:CN; [|apply step_ub; cbn [lstep]; rewrite CN; reflexivity]. unfold count_ok in CN.
    destruct (Z.leb_spec n ms) as [G|G].
    + destruct (resize_ok xs k n (Val dflt) dflt) as [E B]; auto; [lia|]. eapply step_done; [| exact E | exact B |].
      * cbn [lstep]. unfold limit, count_ok. rewrite CN. replace (_ <=? ms) with true by lia. reflexivity.
      * intros _. rewrite vec_cap. unfold fit, fit_spare. rewrite app_length, firstn_length, repeat_length. intros L.
        destruct (Z.leb_spec n (Z.of_nat (length xs))); [lia|].
        pose proof (ins_keep (length xs) k (n - Z.of_nat (length xs)) (Z.to_nat n - length xs)). lia.
    + apply step_throw; [cbn [lstep]; unfold limit, count_ok; rewrite CN; replace (_ <=? ms) with false by lia; reflexivity|].
      cbn [vstep]. apply resize_throw; lia.
  - (* resize value *)
    destruct (count_ok n) eqn:CN; [|apply step_ub; cbn [lstep]; rewrite CN; reflexivity]. unfold count_ok in CN.
    destruct (ref_value xs x) as [a|] eqn:R; [|apply step_ub; cbn [lstep]; unfold known, count_ok; rewrite CN, R; reflexivity].
    destruct (Z.leb_spec n ms) as [G|G].
    + destruct (resize_ok xs k n x a) as [E B]; auto; [lia|]. eapply step_done; [| exact E | exact B |].
      * cbn [lstep]. unfold known, limit, count_ok. rewrite CN, R. replace (_ <=? ms) with true by lia. reflexivity.
      * intros _. rewrite vec_cap. unfold fit, fit_spare. rewrite app_length, firstn_length, repeat_length. intros L.
        destruct (Z.leb_spec n (Z.of_nat (length xs))); [lia|].
        pose proof (ins_keep (length xs) k (n - Z.of_nat (length xs)) (Z.to_nat n - length xs)). lia.
    + apply step_throw; [cbn [lstep]; unfold known, limit, count_ok; rewrite CN, R; replace (_ <=? ms) with false by lia; reflexivity|].
      cbn [vstep]. apply resize_throw; lia.
  - (* assign *)
    destruct (Z.leb_spec (Z.of_nat (length l)) ms) as [G|G].
    + destruct (assign_ok xs k l C G) as [E B]. eapply step_done; [| exact E | exact B |].
      * cbn [lstep]. replace (_ <=? ms) with true by lia. reflexivity.
      * intros _. rewrite vec_cap. unfold new_spare. intros L. rewrite (proj2 (Nat.leb_le _ _)) by lia. lia.
    + apply step_throw; [cbn [lstep]; replace (_ <=? ms) with false by lia; reflexivity|]. cbn [vstep]. apply assign_throw; lia.
  - (* assign input *)
    pose proof (emplace_all_ok l [] (length xs + k) ltac:(cbn; lia)) as HE. cbn [length Nat.add app] in HE.
    destruct (Z.leb_spec (Z.of_nat (length l)) ms) as [G|G].
    + destruct HE as (r & E & B). apply (step_done _ _ _ _ l r).
      * cbn [lstep]. replace (_ <=? ms) with true by lia. reflexivity.
      * cbn [vstep]. unfold assign_input. rewrite clear_ok. exact E.
      * exact B.
      * intros _. rewrite vec_cap. intros L. rewrite emplace_all_stable in E by (cbn; lia). cbn [app] in E.
        apply (f_equal (fun z => match z with Ok v => capacity v | _ => 0%nat end)) in E. rewrite !vec_cap in E. lia.
    + apply step_throw; [cbn [lstep]; replace (_ <=? ms) with false by lia; reflexivity|].
      cbn [vstep]. unfold assign_input. rewrite clear_ok. exact HE.
  - (* assign n *)
    destruct (Z.leb_spec 0 n) as [N0|N0]; [|apply step_ub; cbn [lstep]; replace (0 <=? n) with false by lia; reflexivity].
    destruct (Z.leb_spec n ms) as [G|G].
    + destruct (assign_n_ok xs k n a C) as [E B]; [lia|]. eapply step_done; [| exact E | exact B |].
      * cbn [lstep]. replace (0 <=? n) with true by lia. replace (n <=? ms) with true by lia. reflexivity.
      * intros _. rewrite vec_cap, repeat_length. unfold new_spare. intros L. rewrite (proj2 (Nat.leb_le _ _)) by lia. lia.
    + apply step_throw; [cbn [lstep]; replace (0 <=? n) with true by lia; replace (n <=? ms) with false by lia; reflexivity|].
      cbn [vstep]. apply assign_n_throw; lia.
  - (* reserve *)
    destruct (Z.leb_spec 0 n) as [N0|N0]; [|apply step_ub; cbn [lstep]; replace (0 <=? n) with false by lia; reflexivity].
    destruct (Z.leb_spec n ms) as [G|G].
    + eapply step_done; [| cbn [vstep]; apply reserve_ok; assumption | |].
      * cbn [lstep]. replace (0 <=? n) with true by lia. replace (n <=? ms) with true by lia. reflexivity.
      * destruct (Z.ltb_spec (Z.of_nat (length xs + k)) n); lia.
      * discriminate.
    + apply step_throw; [cbn [lstep]; replace (0 <=? n) with true by lia; replace (n <=? ms) with false by lia; reflexivity|].
      cbn [vstep]. apply reserve_throw; lia.
  - (* shrink *)
    eapply step_done; [reflexivity | cbn [vstep]; apply shrink_ok | lia | discriminate].
  - (* clear *)
    eapply step_done; [reflexivity | cbn [vstep]; apply clear_ok | cbn; lia |].
    intros _ _. rewrite vec_cap. reflexivity.
Qed.
Lemma run_all (dflt : A) os : forall v xs, holds ms v xs ->
  match run (lstep ms dflt) os xs with
  | Ok ys => exists w, run (vstep trivial ms dflt) os v = Ok w /\ holds ms w ys
  | Throw => run (vstep trivial ms dflt) os v = Throw
  | _ => True
  end.
Proof.
  induction os as [|o os IH]; intros v xs H; cbn [run].
  - exists v. auto.
  - pose proof (step_all dflt o v xs H) as St. unfold step_ok in St.
    destruct (lstep ms dflt o xs) as [ys| | |]; cbn [bind]; [|exact I| |exact I].
    + destruct St as (w & E & Hw & _). rewrite E. cbn [bind]. apply IH. exact Hw.
    + rewrite St. reflexivity.
Qed.

(** ** Positions *)
Lemma insert_at (f : vec A -> nat -> ref A -> res (vec A * nat)) v xs p x a : f = insert trivial ms \/ f = emplace trivial ms ->
  holds ms v xs -> (p <= length xs)%nat -> Z.of_nat (length xs) + 1 <= ms -> ref_value xs x = Some a ->
  exists w, f v p x = Ok (w, p) /\ holds ms w (put p [a] xs) /\ index w p = Ok a.
Proof.
  intros F H P N R. apply holds_inv in H. destruct H as (k & -> & C). destruct (split_at xs p P) as (x1 & x2 & -> & <- & _).
  destruct (insert_one_gen f x1 x2 k x a F C N R) as [E B]. eexists. split; [exact E|]. rewrite put_split by reflexivity.
  split; [apply holds_mk; exact B|]. unfold index, vec_of. cbn [buf]. rewrite map_app, <- app_assoc. cbn [map app].
  apply read_mid. rewrite map_length. reflexivity.
Qed.
Lemma insert_many_at v xs p n x a : holds ms v xs -> (p <= length xs)%nat -> 0 <= n -> Z.of_nat (length xs) + n <= ms -> ref_value xs x = Some a ->
  exists w, insert_n trivial ms v p n x = Ok (w, p) /\ holds ms w (put p (repeat a (Z.to_nat n)) xs).
Proof.
  intros H P N0 N R. apply holds_inv in H. destruct H as (k & -> & C). destruct (split_at xs p P) as (x1 & x2 & -> & <- & _).
  destruct (insert_n_ok x1 x2 k n x a C N0 N R) as [E B]. eexists. split; [exact E|]. rewrite put_split by reflexivity. apply holds_mk; exact B.
Qed.
Lemma insert_list_at (f : vec A -> nat -> list A -> res (vec A * nat)) v xs p l : f = insert_range trivial ms \/ f = insert_input trivial ms ->
  holds ms v xs -> (p <= length xs)%nat -> Z.of_nat (length xs) + Z.of_nat (length l) <= ms ->
  exists w, f v p l = Ok (w, p) /\ holds ms w (put p l xs).
Proof.
  intros F H P N. apply holds_inv in H. destruct H as (k & -> & C). destruct (split_at xs p P) as (x1 & x2 & -> & <- & _).
  rewrite put_split by reflexivity. pose proof MS as [M1 M2]. destruct F as [-> | ->].
  - destruct (insert_range_ok x1 x2 k l C N) as [E B]. eexists. split; [exact E|]. apply holds_mk; exact B.
  - pose proof (insert_input_ok x1 x2 k l C ltac:(lia)) as HI. replace (_ <=? ms) with true in HI by lia.
    destruct HI as (r & E & B & _). eexists. split; [exact E|]. apply holds_mk; exact B.
Qed.
Lemma erase_at v xs p : holds ms v xs -> (p < length xs)%nat -> exists w, erase trivial v p = Ok (w, p) /\ holds ms w (cut p (p + 1) xs) /\ capacity w = capacity v.
Proof.
  intros H P. apply holds_inv in H. destruct H as (k & -> & C).
  destruct (split3 xs p (p + 1)) as (x1 & [|d [|? ?]] & x2 & -> & Hp & Hq); [lia | cbn in Hq; lia | | cbn in Hq; lia].
  cbn [app]. rewrite erase_ok by exact Hp. eexists. split; [reflexivity|]. rewrite (cut_split x1 [d] x2) by lia.
  rewrite !vec_cap, !app_length in *. cbn in *. split; [|lia]. apply holds_mk. rewrite app_length. lia.
Qed.
Lemma erase_range_at v xs p q : holds ms v xs -> (p <= q <= length xs)%nat -> exists w, erase_range trivial v p q = Ok (w, p) /\ holds ms w (cut p q xs) /\ capacity w = capacity v.
Proof.
  intros H P. apply holds_inv in H. destruct H as (k & -> & C).
  destruct (split3 xs p q P) as (x1 & ds & x2 & -> & Hp & Hq).
  rewrite erase_range_ok by assumption. eexists. split; [reflexivity|]. rewrite (cut_split x1 ds x2) by assumption.
  rewrite !vec_cap, !app_length in *. split; [|lia]. apply holds_mk. rewrite app_length. lia.
Qed.
Lemma erase_if_count v xs f : holds ms v xs -> exists w, erase_if trivial v f = Ok (w, Z.of_nat (length (filter f xs))) /\ holds ms w (filter (fun a => negb (f a)) xs).
Proof.
  intros H. apply holds_inv in H. destruct H as (k & -> & C). rewrite erase_if_ok by exact C. eexists. split; [reflexivity|].
  apply holds_mk. pose proof (filter_len (fun a => negb (f a)) xs). lia.
Qed.

(** ** Capacity *)
Lemma reserve_cap v xs n : holds ms v xs -> n <= ms ->
  exists w, reserve trivial ms v n = Ok w /\ holds ms w xs /\ Z.of_nat (capacity w) = Z.max n (Z.of_nat (capacity v)).
Proof.
  intros H N. apply holds_inv in H. destruct H as (k & -> & C). rewrite reserve_ok by assumption. eexists. split; [reflexivity|].
  rewrite !vec_cap. destruct (Z.ltb_spec (Z.of_nat (length xs + k)) n); (split; [apply holds_mk; lia | lia]).
Qed.
Lemma shrink_cap v xs : holds ms v xs -> exists w, shrink_to_fit trivial v = Ok w /\ holds ms w xs /\ capacity w = length xs.
Proof.
  intros H. apply holds_inv in H. destruct H as (k & -> & C). rewrite shrink_ok. eexists. split; [reflexivity|].
  rewrite vec_cap. split; [apply holds_mk; lia | lia].
Qed.
Lemma push_cap v xs x a : holds ms v xs -> ref_value xs x = Some a -> Z.of_nat (length xs) + 1 <= ms ->
  exists w, push_back trivial ms v x = Ok w /\ holds ms w (xs ++ [a]) /\
    Z.of_nat (capacity w) = if (length xs <? capacity v)%nat then Z.of_nat (capacity v) else grown_capacity ms (Z.of_nat (capacity v)) (Z.of_nat (length xs) + 1).
Proof.
  intros H R N. apply holds_inv in H. destruct H as (k & -> & C). destruct (push_ok xs k x a C N R) as [E B].
  eexists. split; [exact E|]. split; [apply holds_mk; exact B|]. rewrite !vec_cap, app_length in *. cbn [length] in *. unfold push_spare in *.
  destruct (Nat.ltb_spec 0 k).
  - rewrite (proj2 (Nat.ltb_lt _ _)) by lia. lia.
  - rewrite (proj2 (Nat.ltb_ge _ _)) by lia. assert (k = 0%nat) by lia. subst k. rewrite Nat.add_0_r in *.
    destruct (recommend_ok (length xs) (Z.of_nat (length xs) + 1)) as [_ B2]; [lia | lia |].
    unfold grown in *. unfold grown_capacity. lia.
Qed.
Definition cap_inv (n cap r : nat) : Prop :=
  (cap = 0 /\ r = 0 \/ exists e, r = S e /\ cap = 2 ^ e /\ (e = 0 \/ 2 ^ (e - 1) < n))%nat.
Lemma push_count_gen l : forall xs k r, cap_inv (length xs) (length xs + k) r -> 2 * Z.of_nat (length xs + length l) <= ms ->
  Z.of_nat (length xs + k) <= ms ->
  exists k' r', push_counted trivial ms (vec_of xs k) l = Ok (vec_of (xs ++ l) k', r') /\
    Z.of_nat (length (xs ++ l) + k') <= ms /\ cap_inv (length (xs ++ l)) (length (xs ++ l) + k') (r + r').
Proof.
  induction l as [|a l IH]; intros xs k r Hi N C.
  - exists k, 0%nat. cbn [push_counted]. rewrite app_nil_r, Nat.add_0_r. auto.
  - cbn [push_counted length] in *. destruct (push_ok xs k (Val a) a C) as [E B]; [lia | reflexivity |]. rewrite E. cbn [bind].
    rewrite !vec_cap. rewrite app_length in *. cbn [length] in *.
    assert (Hi2 : cap_inv (length xs + 1) (length xs + 1 + push_spare (length xs) k)
      (r + (if (length xs + k =? length xs + 1 + push_spare (length xs) k)%nat then 0 else 1))).
    { unfold push_spare in *. destruct (Nat.ltb_spec 0 k) as [K|K].
      - replace (length xs + 1 + (k - 1))%nat with (length xs + k)%nat by lia. rewrite Nat.eqb_refl, Nat.add_0_r.
        destruct Hi as [[Hc Hr] | (e & -> & Hc & He)]; [left; lia|]. right. exists e. split; [reflexivity|]. split; [exact Hc|].
        destruct He; [auto | right; lia].
      - assert (k = 0%nat) by lia. subst k. rewrite Nat.add_0_r in *.
        assert (Hg : Z.to_nat (grown (Z.of_nat (length xs)) (Z.of_nat (length xs) + 1)) = Nat.max (2 * length xs) (length xs + 1)).
        { unfold grown. pose proof (Z.div_mod ms 2 ltac:(lia)). pose proof (Z.mod_pos_bound ms 2 ltac:(lia)).
          replace (ms / 2 <=? Z.of_nat (length xs)) with false by lia. lia. }
        rewrite Hg in *.
        replace (length xs + 1 + (Nat.max (2 * length xs) (length xs + 1) - length xs - 1))%nat with (Nat.max (2 * length xs) (length xs + 1)) by lia.
        rewrite (proj2 (Nat.eqb_neq _ _)) by lia. right.
        destruct Hi as [[Hc ->] | (e & -> & Hc & He)].
        + rewrite Hc. exists 0%nat. cbn. auto.
        + exists (S e). split; [lia|]. assert (1 <= length xs)%nat by (rewrite Hc; clear; induction e; cbn; lia).
          split; [rewrite Nat.pow_succ_r' ; lia|]. right. replace (S e - 1)%nat with e by lia. lia. }
    pose proof (IH (xs ++ [a]) (push_spare (length xs) k)) as IH2. rewrite app_length in IH2. cbn [length] in IH2.
    destruct (IH2 _ Hi2) as (k' & r' & E2 & B2 & I2); [lia | exact B |]. rewrite E2. cbn [bind fst snd].
    rewrite <- app_assoc in *. cbn [app] in *. eexists k', _. split; [reflexivity|]. split; [exact B2|].
    rewrite Nat.add_assoc. exact I2.
Qed.
Lemma push_count l : 2 * Z.of_nat (length l) <= ms -> exists w r, push_counted trivial ms empty_vec l = Ok (w, r) /\ holds ms w l /\ (r <= 1 + Nat.log2_up (length l))%nat.
Proof.
  intros N. pose proof MS as [M1 M2].
  destruct (push_count_gen l [] 0 0) as (k & r & E & B & I); [left; auto | cbn; lia | cbn; lia |].
  exists (vec_of l k), r. split; [exact E|]. split; [apply holds_mk; exact B|]. cbn [app Nat.add] in I.
  destruct I as [[_ ->] | (e & -> & Hc & [-> | He])]; [lia | lia |].
  assert (e - 1 < Nat.log2_up (length l))%nat.
  { apply Nat.log2_up_lt_pow2; lia. }
  lia.
Qed.

(** ** Construction, copies, moves *)
Lemma empty_holds : holds ms (@empty_vec A) [].
Proof. destruct MS. apply (holds_mk [] 0). cbn. lia. Qed.
Lemma make_n_ok n (a : A) : 0 <= n <= ms -> exists v : vec A, make_n trivial ms n a = Ok v /\ holds ms v (repeat a (Z.to_nat n)) /\ Z.of_nat (capacity v) = n.
Proof.
  intros N. unfold make_n. destruct (Z.ltb_spec 0 n).
  - rewrite valloc by lia. cbn [bind]. rewrite (construct_end _ _ _ _ a) by (auto; lia). eexists. split; [reflexivity|].
    rewrite vec_cap. cbn [app]. rewrite repeat_length. split; [apply holds_mk; rewrite repeat_length; lia | lia].
  - replace n with 0 by lia. eexists. split; [reflexivity|]. split; [apply empty_holds | reflexivity].
Qed.
Lemma make_n_throw n (a : A) : ms < n -> make_n trivial ms n a = Throw.
Proof. intros N. destruct MS. unfold make_n, vallocate. replace (0 <? n) with true by lia. replace (ms <? n) with true by lia. reflexivity. Qed.
Lemma make_range_ok (l : list A) : Z.of_nat (length l) <= ms -> exists v : vec A, make_range trivial ms l = Ok v /\ holds ms v l /\ capacity v = length l.
Proof.
  intros N. unfold make_range. destruct (Nat.ltb_spec 0 (length l)).
  - rewrite valloc by lia. cbn [bind]. rewrite construct_end_list by lia. eexists. split; [reflexivity|].
    rewrite vec_cap. cbn [app]. split; [apply holds_mk; lia | lia].
  - destruct l; [|cbn in *; lia]. eexists. split; [reflexivity|]. split; [apply empty_holds | reflexivity].
Qed.
Lemma make_input_ok (l : list A) : Z.of_nat (length l) <= ms -> exists v : vec A, make_input trivial ms l = Ok v /\ holds ms v l.
Proof.
  intros N. destruct MS. pose proof (emplace_all_ok l [] 0 ltac:(cbn; lia)) as H1. cbn [length Nat.add app] in H1.
  replace (_ <=? ms) with true in H1 by lia. destruct H1 as (r & E & B). exists (vec_of l r). split; [exact E | apply holds_mk; exact B].
Qed.
Lemma read_back v xs : holds ms v xs -> read_all (buf v) 0 (len v) = Ok xs.
Proof.
  intros H. apply holds_inv in H. destruct H as (k & -> & C). apply (read_all_obj xs [] (repeat Raw k) 0 eq_refl).
Qed.
Lemma holds_small v xs : holds ms v xs -> Z.of_nat (length xs) <= ms.
Proof. intros H. apply holds_inv in H. destruct H as (k & -> & C). lia. Qed.
Lemma copy_ok v xs : holds ms v xs -> exists w, copy trivial ms v = Ok w /\ holds ms w xs.
Proof.
  intros H. unfold copy. rewrite (read_back v xs H). cbn [bind]. destruct (make_range_ok xs (holds_small _ _ H)) as (w & E & Hw & _). exists w. auto.
Qed.
Lemma copy_assign_ok v xs w ys : holds ms v xs -> holds ms w ys -> exists u, copy_assign trivial ms v w = Ok u /\ holds ms u ys.
Proof.
  intros H Hw. unfold copy_assign. rewrite (read_back w ys Hw). cbn [bind]. pose proof (holds_small _ _ Hw).
  apply holds_inv in H. destruct H as (k & -> & C). destruct (assign_ok xs k ys C) as [E B]; [assumption|]. eexists. split; [exact E | apply holds_mk; exact B].
Qed.
Lemma move_assign_ok v xs w ys : holds ms v xs -> holds ms w ys -> exists u z, move_assign trivial v w = Ok (u, z) /\ holds ms u ys /\ holds ms z [].
Proof.
  intros H Hw. unfold move_assign. apply holds_inv in H. destruct H as (k & -> & C). rewrite vdealloc_ok. cbn [bind].
  exists w, empty_vec. auto using empty_holds.
Qed.
Lemma destroy_all v xs : holds ms v xs -> Vector.destruct trivial v = Ok tt.
Proof. intros H. apply holds_inv in H. destruct H as (k & -> & C). apply destruct_ok. Qed.

(** ** Access *)
Lemma index_ok v xs i a : holds ms v xs -> nth_error xs i = Some a -> index v i = Ok a.
Proof.
  intros H E. apply holds_inv in H. destruct H as (k & -> & C). pose proof (ref_read xs (Elem i) a E (repeat Raw k)) as R. exact R.
Qed.
Lemma at_ok v xs n : holds ms v xs -> 0 <= n -> at_ v n = match nth_error xs (Z.to_nat n) with Some a => Ok a | None => Throw end.
Proof.
  intros H N. unfold at_. assert (L : len v = length xs) by apply H. rewrite L.
  destruct (Z.leb_spec (Z.of_nat (length xs)) n) as [G|G].
  - rewrite (proj2 (nth_error_None _ _)) by lia. reflexivity.
  - destruct (nth_error xs (Z.to_nat n)) as [a|] eqn:E; [apply (index_ok v xs _ a H E)|]. apply nth_error_None in E. lia.
Qed.
Lemma front_ok v x xs : holds ms v (x :: xs) -> front v = Ok x.
Proof. intros H. apply (index_ok v (x :: xs) 0 x H). reflexivity. Qed.
Lemma back_ok v x xs : holds ms v (xs ++ [x]) -> back v = Ok x.
Proof.
  intros H. unfold back. assert (L : len v = length (xs ++ [x])) by apply H. rewrite app_length, Nat.add_1_r in L. rewrite L.
  apply (index_ok v (xs ++ [x]) _ x H). rewrite nth_error_app2, Nat.sub_diag by lia. reflexivity.
Qed.
Lemma pop_value v x xs : holds ms v (xs ++ [x]) -> exists w, pop_back_value trivial v = Ok (x, w) /\ holds ms w xs /\ capacity w = capacity v.
Proof.
  intros H. apply holds_inv in H. destruct H as (k & -> & C). unfold pop_back_value, pop_back.
  replace (len (vec_of (xs ++ [x]) k)) with (S (length xs)) by (cbn; rewrite app_length; cbn; lia).
  cbn [buf vec_of]. rewrite map_snoc, <- app_assoc. cbn [app]. rewrite move_mid by (rewrite map_length; reflexivity). cbn [bind fst snd len].
  pose proof (destruct_end_gen xs [Moved] k (live_moved 1)) as D. cbn [app length] in D. rewrite Nat.add_1_r in D. rewrite D. cbn [bind].
  eexists. split; [reflexivity|]. rewrite !vec_cap, !app_length in *. cbn [length] in *. split; [apply holds_mk; lia | lia].
Qed.

(** ** Comparisons *)
Lemma list_eq_ok (eqb : A -> A -> bool) xs : forall ys, (forall a b, eqb a b = true <-> a = b) -> list_eq eqb xs ys = true <-> xs = ys.
Proof.
  induction xs as [|x xs IH]; intros [|y ys] E; cbn; split; intros H; try congruence.
  - apply andb_prop in H. destruct H as [H1 H2]. apply E in H1. apply IH in H2; [congruence | exact E].
  - injection H as -> ->. rewrite (proj2 (E y y) eq_refl). cbn. apply IH; auto.
Qed.
Lemma equal_ok (eqb : A -> A -> bool) v xs w ys : (forall a b, eqb a b = true <-> a = b) -> holds ms v xs -> holds ms w ys ->
  exists b, equal eqb v w = Ok b /\ (b = true <-> xs = ys).
Proof.
  intros E H Hw. unfold equal. assert (L : len v = length xs) by apply H. assert (L2 : len w = length ys) by apply Hw.
  destruct (Nat.eqb_spec (len v) (len w)) as [G|G].
  - rewrite (read_back v xs H), (read_back w ys Hw). cbn [bind]. eexists. split; [reflexivity|]. apply list_eq_ok. exact E.
  - exists false. split; [reflexivity|]. split; [discriminate|]. intros ->. congruence.
Qed.
Lemma lex_ok (ltb : A -> A -> bool) xs : forall ys, lex ltb xs ys = true <-> lex_before ltb xs ys.
Proof.
  induction xs as [|x xs IH]; intros [|y ys]; cbn [lex].
  - split; [discriminate|]. intros (n & _ & _ & L & _). cbn in L. lia.
  - split; [intros _|reflexivity]. exists 0%nat. split; [intros; lia|]. cbn. repeat split; auto; lia.
  - split; [discriminate|]. intros (n & _ & _ & L & _). cbn in L. lia.
  - destruct (ltb x y) eqn:E1.
    + split; [intros _|reflexivity]. exists 0%nat. split; [intros; lia|]. cbn. repeat split; try lia. right. exists x, y. auto.
    + destruct (ltb y x) eqn:E2.
      * split; [discriminate|]. intros (n & Hp & L1 & L2 & Hn). destruct n as [|n].
        -- destruct Hn as [Hn | (a & b & Ha & Hb & Hl)]; [discriminate|]. cbn in Ha, Hb. congruence.
        -- destruct (Hp 0%nat x y ltac:(lia) eq_refl eq_refl). congruence.
      * rewrite IH. split.
        -- intros (n & Hp & L1 & L2 & Hn). exists (S n). split.
           ++ intros [|i] a b Hi Ha Hb; cbn in Ha, Hb; [split; congruence | apply (Hp i); auto; lia].
           ++ cbn [length nth_error]. split; [lia|]. split; [lia|]. destruct Hn as [Hn|Hn]; [left; lia | right; exact Hn].
        -- intros (n & Hp & L1 & L2 & Hn). destruct n as [|n].
           ++ destruct Hn as [Hn | (a & b & Ha & Hb & Hl)]; [discriminate|]. cbn in Ha, Hb. congruence.
           ++ exists n. cbn [length nth_error] in *. split; [intros i a b Hi Ha Hb; apply (Hp (S i)); auto; lia|].
              split; [lia|]. split; [lia|]. destruct Hn as [Hn|Hn]; [left; lia | right; exact Hn].
Qed.
Lemma less_ok (ltb : A -> A -> bool) v xs w ys : holds ms v xs -> holds ms w ys ->
  exists b, less ltb v w = Ok b /\ (b = true <-> lex_before ltb xs ys).
Proof.
  intros H Hw. unfold less. rewrite (read_back v xs H), (read_back w ys Hw). cbn [bind]. eexists. split; [reflexivity|]. apply lex_ok.
Qed.

(** ** Counts that exceed a size_type *)
Lemma construct_n_over n : forall pre r i x a s, i = length pre -> read_ref s x = Ok a -> (r < n)%nat ->
  construct_n trivial (pre ++ repeat Raw r) i n x (Some s) = UB.
Proof.
  induction n as [|n IH]; intros pre r i x a s E R L; [lia|].
  cbn [construct_n]. rewrite R. cbn [bind]. destruct r as [|r].
  - cbn [repeat]. rewrite app_nil_r. unfold construct, rd. rewrite (proj2 (nth_error_None _ _)) by lia. reflexivity.
  - cbn [repeat]. rewrite construct_mid by exact E. cbn [bind]. rewrite app_cons. apply (IH _ _ _ _ a); [rewrite app_length; cbn; lia | exact R | lia].
Qed.
Lemma append_wraps v xs n x a : holds ms v xs -> ref_value xs x = Some a -> n < 2 ^ 64 <= Z.of_nat (length xs) + n -> append trivial ms v n x = UB.
Proof.
  intros H R N. apply holds_inv in H. destruct H as (k & -> & C). pose proof MS as [M1 M2].
  unfold append. rewrite vec_cap. replace (len (vec_of xs k)) with (length xs) by reflexivity.
  replace (n <=? _) with false by lia.
  replace (sz (Z.of_nat (length xs) + n)) with (Z.of_nat (length xs) + n - 2 ^ 64).
  2:{ unfold sz. replace (Z.of_nat (length xs) + n) with ((Z.of_nat (length xs) + n - 2 ^ 64) + 1 * 2 ^ 64) at 2 by lia.
      rewrite Z.mod_add by lia. rewrite Z.mod_small by lia. reflexivity. }
  destruct (recommend_ok (length xs + k) (Z.of_nat (length xs) + n - 2 ^ 64)) as [E B]; [lia | lia |].
  rewrite E. cbn [bind]. set (g := grown _ _) in *. cbv zeta. cbn [split_buffer sbuf send sbegin].
  assert (Z.of_nat (length xs) <= g).
  { subst g. unfold grown. destruct (Z.leb_spec (ms / 2) (Z.of_nat (length xs + k))); lia. }
  rewrite (raw_split (Z.to_nat g) (length xs)) by lia.
  rewrite (construct_n_over _ _ _ _ _ a) by (rewrite ?repeat_length; try lia; apply (ref_read _ _ _ R)). reflexivity.
Qed.
Lemma insert_n_wraps v xs p n x a : holds ms v xs -> (p <= length xs)%nat -> ref_value xs x = Some a -> n < 2 ^ 64 <= Z.of_nat (length xs) + n -> insert_n trivial ms v p n x = UB.
Proof.
  intros H P R N. apply holds_inv in H. destruct H as (k & -> & C). pose proof MS as [M1 M2].
  unfold insert_n. rewrite vec_cap. replace (len (vec_of xs k)) with (length xs) by reflexivity.
  rewrite (proj2 (Nat.ltb_ge _ p)) by lia. replace (0 <? n) with true by lia.
  replace (n <=? _) with false by lia.
  replace (sz (Z.of_nat (length xs) + n)) with (Z.of_nat (length xs) + n - 2 ^ 64).
  2:{ unfold sz. replace (Z.of_nat (length xs) + n) with ((Z.of_nat (length xs) + n - 2 ^ 64) + 1 * 2 ^ 64) at 2 by lia.
      rewrite Z.mod_add by lia. rewrite Z.mod_small by lia. reflexivity. }
  destruct (recommend_ok (length xs + k) (Z.of_nat (length xs) + n - 2 ^ 64)) as [E B]; [lia | lia |].
  rewrite E. cbn [bind]. set (g := grown _ _) in *. cbv zeta. cbn [split_buffer sbuf send sbegin].
  assert (Z.of_nat (length xs) <= g).
  { subst g. unfold grown. destruct (Z.leb_spec (ms / 2) (Z.of_nat (length xs + k))); lia. }
  rewrite (raw_split (Z.to_nat g) p) by lia.
  rewrite (construct_n_over _ _ _ _ _ a) by (rewrite ?repeat_length; try lia; apply (ref_read _ _ _ R)). reflexivity.
Qed.
Lemma assign_alias v xs n i : holds ms v xs -> Z.of_nat (capacity v) < n <= ms -> assign_n trivial ms v n (Elem i) = UB.
Proof. intros H N. apply holds_inv in H. destruct H as (k & -> & C). rewrite vec_cap in N. apply assign_n_alias. lia. Qed.
Lemma assign_inside v xs n u a : holds ms v xs -> 0 <= n <= Z.of_nat (capacity v) -> ref_value xs u = Some a ->
  exists w, assign_n trivial ms v n u = Ok w /\ holds ms w (repeat a (Z.to_nat n)).
Proof.
  intros H N R. apply holds_inv in H. destruct H as (k & -> & C). rewrite vec_cap in N. rewrite (assign_n_in xs k n u a) by auto.
  eexists. split; [reflexivity|]. apply holds_mk. rewrite repeat_length. lia.
Qed.

(** ** resize_and_overwrite and its kin *)
Lemma resize_mid_ub v xs n op (m : nat -> mem A) r : holds ms v xs -> 0 <= n <= ms -> (forall k, (n <= Z.of_nat (length xs + k)) -> op (map Obj xs ++ repeat Raw k) n = (m k, r)) ->
  Z.of_nat (length xs) < r < n -> resize_and_overwrite trivial ms v n op = UB.
Proof.
  intros H N O_ R. apply holds_inv in H. destruct H as (k & -> & C). unfold resize_and_overwrite.
  assert (E : exists k', (if Z.of_nat (capacity (vec_of xs k)) <? n then reserve trivial ms (vec_of xs k) n else Ok (vec_of xs k)) = Ok (vec_of xs k')
    /\ n <= Z.of_nat (length xs + k')).
  { rewrite vec_cap. destruct (Z.ltb_spec (Z.of_nat (length xs + k)) n).
    - rewrite reserve_ok by lia. replace (_ <? n) with true by lia. eexists. split; [reflexivity | lia].
    - eexists. split; [reflexivity | lia]. }
  destruct E as (k' & E & B). rewrite E. cbn [bind buf vec_of]. rewrite (O_ k' B). replace (n <? Z.max 0 r) with false by lia.
  replace (Z.max 0 r <? n) with true by lia. unfold destruct_at_end. cbn [len vec_of].
  rewrite (proj2 (Nat.ltb_lt _ _)) by lia. reflexivity.
Qed.
Lemma append_over v xs ys n op (rest : nat -> mem A) r : holds ms v xs -> 0 <= n -> Z.of_nat (length xs) + n <= ms ->
  (forall k, n <= Z.of_nat k -> op (repeat Raw k) n = (map Obj ys ++ rest k, r)) -> Z.max 0 r = Z.of_nat (length ys) ->
  if r <=? n then exists w, append_and_overwrite trivial ms v n op = Ok (w, r) /\ shows w (xs ++ ys)
  else append_and_overwrite trivial ms v n op = UB.
Proof.
  intros H N L O_ R. apply holds_inv in H. destruct H as (k & -> & C). pose proof MS as [M1 M2]. unfold append_and_overwrite.
  replace (len (vec_of xs k)) with (length xs) by reflexivity. rewrite sz_small by lia. cbv zeta.
  assert (E : exists k', (if Z.of_nat (capacity (vec_of xs k)) <? Z.of_nat (length xs) + n then reserve trivial ms (vec_of xs k) (Z.of_nat (length xs) + n) else Ok (vec_of xs k)) = Ok (vec_of xs k')
    /\ n <= Z.of_nat k').
  { rewrite vec_cap. destruct (Z.ltb_spec (Z.of_nat (length xs + k)) (Z.of_nat (length xs) + n)).
    - rewrite reserve_ok by lia. replace (_ <? Z.of_nat (length xs) + n) with true by lia. eexists. split; [reflexivity | lia].
    - eexists. split; [reflexivity | lia]. }
  destruct E as (k' & E & B). rewrite E. cbn [bind buf len vec_of].
  replace (skipn (length xs) (map Obj xs ++ repeat Raw k')) with (repeat (@Raw A) k').
  2:{ rewrite skipn_app, map_length, Nat.sub_diag, skipn_all2 by (rewrite map_length; lia). reflexivity. }
  rewrite (O_ k' B). destruct (Z.leb_spec r n) as [G|G].
  - replace (n <? Z.max 0 r) with false by lia. eexists. split; [reflexivity|]. unfold shows. cbn [len buf].
    rewrite app_length, R, Nat2Z.id. split; [reflexivity|]. exists (rest k').
    rewrite firstn_app, map_length, Nat.sub_diag, firstn_all2 by (rewrite map_length; lia). cbn [firstn].
    rewrite app_nil_r, map_app, app_assoc. reflexivity.
  - replace (n <? Z.max 0 r) with true by lia. reflexivity.
Qed.
Lemma append_over_throw v xs n op : holds ms v xs -> 0 <= n < 2 ^ 63 -> ms < Z.of_nat (length xs) + n -> append_and_overwrite trivial ms v n op = Throw.
Proof.
  intros H N L. apply holds_inv in H. destruct H as (k & -> & C). pose proof MS as [M1 M2]. unfold append_and_overwrite.
  replace (len (vec_of xs k)) with (length xs) by reflexivity. rewrite sz_small by lia. cbv zeta. rewrite vec_cap.
  replace (Z.of_nat (length xs + k) <? _) with true by lia. rewrite reserve_throw by lia. reflexivity.
Qed.
Lemma append_over_wraps v xs n : holds ms v xs -> n < 2 ^ 64 <= Z.of_nat (length xs) + n ->
  exists w, append_and_overwrite trivial ms v n probe = Ok (w, 0).
Proof.
  intros H N. apply holds_inv in H. destruct H as (k & -> & C). pose proof MS as [M1 M2]. unfold append_and_overwrite.
  replace (len (vec_of xs k)) with (length xs) by reflexivity.
  replace (sz (Z.of_nat (length xs) + n)) with (Z.of_nat (length xs) + n - 2 ^ 64).
  2:{ unfold sz. replace (Z.of_nat (length xs) + n) with ((Z.of_nat (length xs) + n - 2 ^ 64) + 1 * 2 ^ 64) at 2 by lia.
      rewrite Z.mod_add by lia. rewrite Z.mod_small by lia. reflexivity. }
  cbv zeta. rewrite vec_cap. replace (Z.of_nat (length xs + k) <? _) with false by lia. cbn [bind buf len vec_of].
  unfold probe. rewrite skipn_app, map_length, Nat.sub_diag, skipn_all2 by (rewrite map_length; lia). cbn [app skipn].
  rewrite repeat_length. replace (n <=? Z.of_nat k) with false by lia. replace (n <? Z.max 0 0) with false by lia. eexists. reflexivity.
Qed.
Lemma probe_fits v xs n : holds ms v xs -> 1 <= n -> Z.of_nat (length xs) + n <= ms -> exists w, append_and_overwrite trivial ms v n probe = Ok (w, 1).
Proof.
  intros H N L. apply holds_inv in H. destruct H as (k & -> & C). pose proof MS as [M1 M2]. unfold append_and_overwrite.
  replace (len (vec_of xs k)) with (length xs) by reflexivity. rewrite sz_small by lia. cbv zeta.
  assert (E : exists k', (if Z.of_nat (capacity (vec_of xs k)) <? Z.of_nat (length xs) + n then reserve trivial ms (vec_of xs k) (Z.of_nat (length xs) + n) else Ok (vec_of xs k)) = Ok (vec_of xs k')
    /\ n <= Z.of_nat k').
  { rewrite vec_cap. destruct (Z.ltb_spec (Z.of_nat (length xs + k)) (Z.of_nat (length xs) + n)).
    - rewrite reserve_ok by lia. replace (_ <? Z.of_nat (length xs) + n) with true by lia. eexists. split; [reflexivity | lia].
    - eexists. split; [reflexivity | lia]. }
  destruct E as (k' & E & B). rewrite E. cbn [bind buf len vec_of]. unfold probe.
  rewrite skipn_app, map_length, Nat.sub_diag, skipn_all2 by (rewrite map_length; lia). cbn [app skipn].
  rewrite repeat_length. replace (n <=? Z.of_nat k') with true by lia. replace (n <? Z.max 0 1) with false by lia. eexists. reflexivity.
Qed.
Lemma block_stuck fuel : forall v cur l b w, l <> [] -> block_append_from trivial ms fuel v cur l b <> Ok w.
Proof.
  induction fuel as [|fuel IH]; intros v cur l b w N; cbn [block_append_from]; [discriminate|].
  destruct l as [|a l]; [congruence|]. set (n := sz (cur + b)). 
  destruct (if Z.of_nat (capacity v) <? n then reserve trivial ms v n else Ok v) as [u| | |]; cbn [bind]; try discriminate.
  destruct fuel as [|fuel]; cbn [copy_block]; [discriminate|]. rewrite Z.ltb_irrefl. cbn [bind fst snd]. apply IH. discriminate.
Qed.

(** ** split_buffer *)
Definition rw (s : mem A) : Prop := trivial = true \/ Forall (fun x => x = Raw) s.
Lemma rw_repeat n : rw (repeat Raw n).
Proof. right. induction n; constructor; auto. Qed.
Lemma rw_app s t : rw (s ++ t) <-> rw s /\ rw t.
Proof.
  unfold rw. rewrite Forall_app. tauto.
Qed.
Lemma rw_tail x s : rw (x :: s) -> rw s.
Proof. intros [T|F]; [left; exact T | right]. inversion F; auto. Qed.
Lemma rw_cons s : rw s -> rw (Raw :: s).
Proof. intros [T|F]; [left; exact T | right]. constructor; auto. Qed.
Lemma raw_repeat s : Forall (fun x : slot A => x = Raw) s -> s = repeat Raw (length s).
Proof. induction 1 as [|x s E F IH]; cbn; [reflexivity|]. subst x. f_equal. exact IH. Qed.
Lemma rw_sides s t : rw s -> rw t -> sides_ok s t.
Proof.
  intros [T|F] [U|G]; try (left; assumption). right. split; eexists; apply raw_repeat; assumption.
Qed.
Lemma construct_rw pre post s a i : i = length pre -> rw [s] -> construct trivial (pre ++ s :: post) i a = Ok (pre ++ Obj a :: post).
Proof.
  intros E [T|F]; [|inversion F as [|? ? F1 F2]; subst; apply construct_mid; reflexivity].
  unfold construct. rewrite rd_mid, upd_mid by exact E. cbn [bind]. rewrite T. destruct s; reflexivity.
Qed.
Lemma cons_app s t : s :: t = [s] ++ t :> mem A.
Proof. reflexivity. Qed.
Lemma sb_back pre post xs a : rw pre -> rw post -> Z.of_nat (length xs) < 2 ^ 63 ->
  (trivial = true \/ xs = [] \/ pre = [] \/ post <> []) ->
  exists pre' post', rw pre' /\ rw post' /\ sb_push_back trivial (SBuf (pre ++ map Obj xs ++ post) (length pre) (length pre + length xs)) a
    = Ok (SBuf (pre' ++ map Obj (xs ++ [a]) ++ post') (length pre') (length pre' + length (xs ++ [a]))).
Proof.
  intros D1 D2 L G. unfold sb_push_back, sb_capacity, sb_size. cbn [sbuf sbegin send]. rewrite !app_length, map_length. cbn [length].
  assert (Build : forall pre' s post' xs', rw (s :: post') -> 
     (m <- construct trivial (pre' ++ map Obj xs' ++ s :: post') (length pre' + length xs') a ;; Ok (SBuf m (length pre') (S (length pre' + length xs'))))
     = Ok (SBuf (pre' ++ map Obj (xs' ++ [a]) ++ post') (length pre') (length pre' + (length xs' + 1)))).
  { intros pre' s post' xs' D'. rewrite cons_app in D'. apply rw_app in D'. rewrite app_assoc.
    rewrite construct_rw by (rewrite ?app_length, ?map_length; tauto). cbn [bind].
    rewrite map_snoc, <- !app_assoc. cbn [app]. f_equal. f_equal. lia. }
  destruct post as [|s post].
  - rewrite (proj2 (Nat.eqb_eq _ _)) by (cbn; lia). destruct (Nat.ltb_spec 0 (length pre)) as [P|P].
    + set (d := ((length pre + 1) / 2)%nat). assert (Hd : (1 <= d <= length pre)%nat).
      { subst d. pose proof (Nat.div_mod (length pre + 1) 2 ltac:(lia)). pose proof (Nat.mod_upper_bound (length pre + 1) 2 ltac:(lia)). lia. }
      clearbody d.
      replace (length pre + length xs - length pre)%nat with (length xs) by lia.
      assert (Sp : exists p1 p2, pre = p1 ++ p2 /\ length p2 = d).
      { exists (firstn (length pre - d) pre), (skipn (length pre - d) pre). rewrite firstn_skipn, skipn_length. split; [reflexivity | lia]. }
      destruct Sp as (p1 & p2 & -> & P2). rewrite app_length in *. apply rw_app in D1. destruct D1 as [D1 D3].
      assert (M : exists hs, length hs = d /\ move_forward trivial ((p1 ++ p2) ++ map Obj xs ++ []) (length p1 + length p2) (length p1 + length p2 - d) (length xs)
        = Ok (p1 ++ map Obj xs ++ hs ++ []) /\ rw hs).
      { destruct G as [G | [G | [G | G]]].
        - destruct (move_forward_live trivial xs p1 p2 [] (length p1 + length p2) (length p1 + length p2 - d)) as (hs & H1 & H2 & H3 & H4); [lia | lia | intros ->; cbn in *; lia | |].
          { clear -G. induction p2; constructor; [left; exact G | auto]. }
          exists hs. split; [lia|]. rewrite <- app_assoc. split; [exact H4 | left; exact G].
        - subst xs. exists p2. cbn [map length app move_forward]. rewrite !app_nil_r. auto.
        - destruct p1; [|discriminate]. destruct p2; [cbn in *; lia | discriminate].
        - congruence. }
      destruct M as (hs & Hh & M & D'). rewrite M. cbn [bind sbuf send sbegin].
      destruct hs as [|h hs]; [cbn in *; lia|]. rewrite app_nil_r.
      replace (length p1 + length p2 - d)%nat with (length p1) by lia.
      replace (length p1 + length p2 + length xs - d)%nat with (length p1 + length xs)%nat by lia.
      exists p1, hs. split; [exact D1|]. split; [eapply rw_tail; exact D'|]. apply Build. exact D'.
    + destruct pre; [|cbn in *; lia]. cbn [length app Nat.add] in *. rewrite !app_nil_r, Nat.add_0_r.
      rewrite sz_small by lia. set (c := Z.max (2 * Z.of_nat (length xs)) 1).
      assert (Hc : Z.of_nat (Z.to_nat (c / 4) + length xs) < c).
      { pose proof (Z.div_mod c 4 ltac:(lia)). pose proof (Z.mod_pos_bound c 4 ltac:(lia)). subst c. lia. }
      pose proof (realloc_ok xs [] [] c (Z.to_nat (c / 4))) as E. cbn [app length Nat.add] in E. rewrite app_nil_r in E.
      rewrite E; [|apply rw_sides; assumption | lia]. cbn [bind sbuf send sbegin].
      assert (Z.of_nat (Z.to_nat c) = c) by lia.
      replace (Z.to_nat c - Z.to_nat (c / 4) - length xs)%nat with (S (Z.to_nat c - Z.to_nat (c / 4) - length xs - 1)) by lia. cbn [repeat].
      set (i := Z.to_nat (c / 4)) in *. exists (repeat Raw i), (repeat Raw (Z.to_nat c - i - length xs - 1)).
      split; [apply rw_repeat|]. split; [apply rw_repeat|]. pose proof (Build (repeat Raw i) Raw (repeat Raw (Z.to_nat c - i - length xs - 1)) xs) as B.
      rewrite !repeat_length in *. apply B. apply rw_cons, rw_repeat.
  - rewrite (proj2 (Nat.eqb_neq _ _)) by (cbn; lia). cbn [bind sbuf send sbegin]. exists pre, post. split; [exact D1|]. split; [eapply rw_tail; exact D2|]. apply Build. exact D2.
Qed.
Lemma sb_front pre post xs a : rw pre -> rw post -> Z.of_nat (length xs) < 2 ^ 63 ->
  (trivial = true \/ xs = [] \/ pre <> [] \/ post = []) ->
  exists pre' post', rw pre' /\ rw post' /\ sb_push_front trivial (SBuf (pre ++ map Obj xs ++ post) (length pre) (length pre + length xs)) a
    = Ok (SBuf (pre' ++ map Obj (a :: xs) ++ post') (length pre') (length pre' + length (a :: xs))).
Proof.
  intros D1 D2 L G. unfold sb_push_front, sb_capacity, sb_size. cbn [sbuf sbegin send]. rewrite !app_length, map_length. cbn [length].
  assert (Build : forall pre' s post' xs' e, rw (pre' ++ [s]) -> e = (length pre' + S (length xs'))%nat ->
     match (length (pre' ++ [s])) with O => UB | S i => (m <- construct trivial ((pre' ++ [s]) ++ map Obj xs' ++ post') i a ;; Ok (SBuf m i e)) end
     = Ok (SBuf (pre' ++ map Obj (a :: xs') ++ post') (length pre') (length pre' + S (length xs')))).
  { intros pre' s post' xs' e D' ->. apply rw_app in D'. rewrite app_length, Nat.add_1_r. rewrite <- !app_assoc. cbn [app].
    rewrite construct_rw by tauto. reflexivity. }
  destruct pre as [|s0 pre0].
  - cbn [length app Nat.add]. rewrite Nat.eqb_refl. destruct (Nat.ltb_spec (length xs) (length xs + length post)) as [P|P].
    + set (d := ((length xs + length post - length xs + 1) / 2)%nat). assert (Hd : (1 <= d <= length post)%nat).
      { subst d. replace (length xs + length post - length xs)%nat with (length post) by lia.
        pose proof (Nat.div_mod (length post + 1) 2 ltac:(lia)). pose proof (Nat.mod_upper_bound (length post + 1) 2 ltac:(lia)). lia. }
      clearbody d. rewrite Nat.sub_0_r.
      assert (Sp : exists p1 p2, post = p1 ++ p2 /\ length p1 = d).
      { exists (firstn d post), (skipn d post). rewrite firstn_skipn, firstn_length. split; [reflexivity | lia]. }
      destruct Sp as (p1 & p2 & -> & P1). rewrite app_length in *. apply rw_app in D2. destruct D2 as [D2 D3].
      assert (M : exists hs, length hs = d /\ move_backward trivial (map Obj xs ++ p1 ++ p2) 0 d (length xs)
        = Ok (hs ++ map Obj xs ++ p2) /\ rw hs).
      { destruct G as [G | [G | [G | G]]].
        - destruct (move_backward_live trivial xs [] p1 p2 0 d) as (hs & H1 & H2 & H3 & H4); [reflexivity | cbn; lia | intros ->; cbn in *; lia | |].
          { clear -G. induction p1; constructor; [left; exact G | auto]. }
          exists hs. split; [lia|]. split; [exact H4 | left; exact G].
        - subst xs. exists p1. cbn [map length app move_backward]. auto.
        - congruence.
        - destruct p1; [cbn in *; lia | discriminate]. }
      destruct M as (hs & Hh & M & D'). rewrite M. cbn [bind sbuf send sbegin].
      destruct (exists_last (l := hs)) as (h1 & h & ->); [intros ->; cbn in *; lia|].
      exists h1, p2. split; [apply rw_app in D'; tauto|]. split; [exact D3|]. rewrite <- Hh. apply Build; [exact D'|]. rewrite app_length. cbn. lia.
    + destruct post; [|cbn in *; lia]. cbn [length]. rewrite !app_nil_r, Nat.add_0_r.
      rewrite sz_small by lia. set (c := Z.max (2 * Z.of_nat (length xs)) 1).
      assert (Hc : Z.of_nat (Z.to_nat ((c + 3) / 4) + length xs) <= c /\ 1 <= (c + 3) / 4).
      { pose proof (Z.div_mod (c + 3) 4 ltac:(lia)). pose proof (Z.mod_pos_bound (c + 3) 4 ltac:(lia)). subst c. lia. }
      destruct Hc as [Hc Hc1].
      pose proof (realloc_ok xs [] [] c (Z.to_nat ((c + 3) / 4))) as E. cbn [app length Nat.add] in E. rewrite app_nil_r in E.
      rewrite E; [|apply rw_sides; assumption | lia]. cbn [bind sbuf send sbegin].
      replace (Z.to_nat ((c + 3) / 4)) with (S (Z.to_nat ((c + 3) / 4) - 1)) by lia. set (i := (Z.to_nat ((c + 3) / 4) - 1)%nat) in *.
      set (k := (Z.to_nat c - S i - length xs)%nat).
      exists (repeat Raw i), (repeat Raw k). split; [apply rw_repeat|]. split; [apply rw_repeat|].
      pose proof (Build (repeat Raw i) Raw (repeat Raw k) xs (S i + length xs)%nat) as B.
      rewrite <- repeat_snoc in B. rewrite !repeat_length in *. apply B; [apply rw_repeat | lia].
  - destruct (exists_last (l := s0 :: pre0)) as (pre & s & E); [discriminate|]. rewrite E in *. clear s0 pre0 E.
    replace (length (pre ++ [s]) =? 0)%nat with false by (rewrite app_length, Nat.add_1_r; reflexivity).
    cbn [bind sbuf send sbegin]. exists pre, post. split; [apply rw_app in D1; tauto|]. split; [exact D2|]. apply Build; [exact D1|]. rewrite app_length. cbn. lia.
Qed.
Definition sb_state (b : sbuffer A) (xs : list A) : Prop :=
  exists pre post, rw pre /\ rw post /\ b = SBuf (pre ++ map Obj xs ++ post) (length pre) (length pre + length xs).
Lemma rw_snoc s : rw s -> rw (s ++ [Raw]).
Proof. intros H. apply rw_app. split; [exact H | apply (rw_repeat 1)]. Qed.
Lemma sb_step_ok o b xs : sb_state b xs -> Z.of_nat (length xs) < 2 ^ 63 ->
  (trivial = true \/ xs = [] \/ ~ sb_shifts o b) ->
  match deque_step o xs with
  | Ok ys => exists c, sb_step trivial o b = Ok c /\ sb_state c ys
  | _ => sb_step trivial o b = UB
  end.
Proof.
  intros (pre & post & D1 & D2 & ->) L G. destruct o as [a|a| | |]; cbn [deque_step sb_step sb_shifts sbuf sbegin send] in *.
  - destruct (sb_front pre post xs a) as (pre' & post' & R1 & R2 & E); auto.
    { destruct G as [G | [G | G]]; auto. right. right. destruct pre as [|s pre]; [|left; discriminate]. right.
      destruct post as [|s post]; [reflexivity|]. exfalso. apply G. unfold sb_capacity. cbn [sbuf length]. rewrite !app_length, map_length. cbn. lia. }
    rewrite E. eexists. split; [reflexivity|]. exists pre', post'. auto.
  - destruct (sb_back pre post xs a) as (pre' & post' & R1 & R2 & E); auto.
    { destruct G as [G | [G | G]]; auto. right. right. destruct post as [|s post]; [|right; discriminate]. left.
      destruct pre as [|s pre]; [reflexivity|]. exfalso. apply G. unfold sb_capacity. cbn [sbuf length]. rewrite !app_length, map_length. cbn. lia. }
    rewrite E. eexists. split; [reflexivity|]. exists pre', post'. auto.
  - unfold sb_pop_front. cbn [sbuf sbegin send]. destruct xs as [|x xs]; cbn [length map].
    + rewrite (proj2 (Nat.ltb_ge _ _)) by lia. reflexivity.
    + rewrite (proj2 (Nat.ltb_lt _ _)) by lia. cbn [app]. rewrite destroy_mid by (auto; discriminate). cbn [bind]. eexists. split; [reflexivity|].
      exists (pre ++ [Raw]), post. split; [apply rw_snoc, D1|]. split; [exact D2|]. rewrite app_length, <- app_assoc. cbn [length app]. f_equal; lia.
  - unfold sb_pop_back. cbn [sbuf sbegin send]. destruct xs as [|x xs].
    + cbn [length]. rewrite (proj2 (Nat.ltb_ge _ _)) by lia. reflexivity.
    + destruct (exists_last (l := x :: xs)) as (ys & y & E); [discriminate|]. rewrite E in *. clear x xs E. rewrite removelast_last.
      rewrite app_length in *. cbn [length] in *. rewrite (proj2 (Nat.ltb_lt _ _)) by lia. rewrite map_snoc, <- app_assoc. cbn [app].
      rewrite app_assoc. rewrite destroy_mid by (rewrite ?app_length, ?map_length; try discriminate; lia). cbn [bind]. eexists. split; [destruct ys; reflexivity|].
      exists pre, (Raw :: post). split; [exact D1|]. split; [apply rw_cons, D2|]. rewrite <- app_assoc. f_equal; lia.
  - unfold sb_shrink_to_fit, sb_size, sb_capacity. cbn [sbuf sbegin send]. rewrite !app_length, map_length.
    assert (E0 : match xs with [] => Ok xs | _ :: _ => Ok xs end = Ok xs) by (destruct xs; reflexivity).
    destruct (Nat.ltb_spec (length pre + length xs - length pre) (length pre + (length xs + length post))).
    + rewrite realloc_ok; [|apply rw_sides; assumption | cbn; lia]. cbn [Nat.add repeat app]. destruct xs; (eexists; split; [reflexivity|]).
      all: eexists [], _; split; [right; constructor|]; split; [apply rw_repeat | reflexivity].
    + destruct xs; eexists; (split; [reflexivity|]); exists pre, post; auto.
Qed.
Lemma destroy_down_any n : forall (m : mem A) last, trivial = true -> (n <= last <= length m)%nat ->
  exists m', destroy_down trivial m last n = Ok m' /\ length m' = length m /\ firstn (last - n) m' = firstn (last - n) m.
Proof.
  induction n as [|n IH]; intros m last T L; [exists m; auto|].
  destruct last as [|last]; [lia|]. cbn [destroy_down].
  assert (E : exists m1, destroy trivial m last = Ok m1 /\ length m1 = length m /\ firstn last m1 = firstn last m).
  { unfold destroy, rd. destruct (nth_error m last) as [s|] eqn:E; [|apply nth_error_None in E; lia]. cbn [bind].
    assert (U : length (upd m last Raw) = length m /\ firstn last (upd m last Raw) = firstn last m).
    { destruct (nth_error_split m last E) as (l1 & l2 & -> & <-). rewrite upd_mid by reflexivity. rewrite !app_length. cbn [length].
      rewrite !firstn_app, Nat.sub_diag. auto. }
    destruct s; eexists; try (split; [reflexivity | exact U]). rewrite T. auto. }
  destruct E as (m1 & E & L1 & F1). rewrite E. cbn [bind]. destruct (IH m1 last T ltac:(lia)) as (m2 & E2 & L2 & F2). exists m2.
  split; [exact E2|]. split; [lia|]. replace (S last - S n)%nat with (last - n)%nat by lia. rewrite F2.
  pose proof (f_equal (firstn (last - n)) F1) as F. rewrite !firstn_firstn in F. replace (Nat.min (last - n) last) with (last - n)%nat in F by lia. exact F.
Qed.
Lemma resize_over v xs ys n op (rest : nat -> mem A) r : trivial = true -> holds ms v xs -> 0 <= n <= ms ->
  (forall k, n <= Z.of_nat (length xs + k) -> op (map Obj xs ++ repeat Raw k) n = (map Obj ys ++ rest k, r) /\ (length ys + length (rest k) = length xs + k)%nat) ->
  Z.max 0 r = Z.of_nat (length ys) -> r = n \/ (length ys <= length xs)%nat /\ r <= n ->
  exists w, resize_and_overwrite trivial ms v n op = Ok (w, r) /\ shows w ys.
Proof.
  intros T H N O_ R G. apply holds_inv in H. destruct H as (k & -> & C). unfold resize_and_overwrite.
  assert (E : exists k', (if Z.of_nat (capacity (vec_of xs k)) <? n then reserve trivial ms (vec_of xs k) n else Ok (vec_of xs k)) = Ok (vec_of xs k')
    /\ n <= Z.of_nat (length xs + k')).
  { rewrite vec_cap. destruct (Z.ltb_spec (Z.of_nat (length xs + k)) n).
    - rewrite reserve_ok by lia. replace (_ <? n) with true by lia. eexists. split; [reflexivity | lia].
    - eexists. split; [reflexivity | lia]. }
  destruct E as (k' & E & B). rewrite E. cbn [bind buf vec_of]. destruct (O_ k' B) as [O1 O2]. rewrite O1. replace (n <? Z.max 0 r) with false by lia.
  destruct (Z.ltb_spec (Z.max 0 r) n) as [G1|G1].
  - unfold destruct_at_end. cbn [len buf vec_of]. rewrite R, Nat2Z.id. rewrite (proj2 (Nat.ltb_ge _ _)) by lia.
    destruct (destroy_down_any (length xs - length ys) (map Obj ys ++ rest k') (length xs) T) as (m' & E2 & L2 & F2).
    { rewrite app_length, map_length. lia. }
    rewrite E2. cbn [bind buf]. eexists. split; [reflexivity|]. split; [reflexivity|]. cbn [buf]. exists (skipn (length ys) m').
    replace (length xs - (length xs - length ys))%nat with (length ys) in F2 by lia.
    rewrite <- (firstn_skipn (length ys) m') at 1. rewrite F2, firstn_app, map_length, Nat.sub_diag, firstn_all2 by (rewrite map_length; lia).
    cbn [firstn]. rewrite app_nil_r. reflexivity.
  - cbn [bind buf]. rewrite R, Nat2Z.id. eexists. split; [reflexivity|]. split; [reflexivity|]. eexists. reflexivity.
Qed.
Lemma resize_leaks v xs n : trivial = false -> holds ms v xs -> 0 <= n < Z.of_nat (length xs) ->
  exists w, resize_and_overwrite trivial ms v n (fun m n => (m, n)) = Ok (w, n) /\ Vector.destruct trivial w = UB.
Proof.
  intros T H N. apply holds_inv in H. destruct H as (k & -> & C). unfold resize_and_overwrite. rewrite vec_cap.
  replace (_ <? n) with false by lia. cbn [bind buf vec_of]. replace (Z.max 0 n) with n by lia. rewrite Z.ltb_irrefl. cbn [bind buf].
  eexists. split; [reflexivity|]. destruct (split_at xs (Z.to_nat n)) as (x1 & x2 & -> & L & _); [lia|]. rewrite app_length in N.
  unfold Vector.destruct, clear, destruct_at_end. cbn [len buf]. rewrite Nat.sub_0_r. cbn [Nat.ltb Nat.leb].
  rewrite map_app, <- app_assoc, <- L. pose proof (destroy_down_live trivial (map Obj x1) [] (map Obj x2 ++ repeat Raw k) (live_obj x1)) as D.
  cbn [length app Nat.add] in D. rewrite map_length in D.
  destruct x2 as [|y x2]; [cbn in N; lia|]. 
  destruct (map Obj x1 ++ map Obj (y :: x2) ++ repeat Raw k) as [|s0 m0] eqn:Em.
  { destruct x1; discriminate. }
  rewrite D. unfold capacity. cbn [buf length]. rewrite (proj2 (Nat.eqb_neq _ _)) by lia. rewrite (proj2 (Nat.ltb_ge _ _)) by lia. cbn [bind buf]. unfold deallocate. rewrite T, !forallb_app, all_raw. reflexivity.
Qed.

Lemma sb_state_holds b xs : sb_state b xs -> sb_holds b xs.
Proof. intros (pre & post & _ & _ & ->). exists pre, post. auto. Qed.
Lemma sb_holds_state b xs : trivial = true -> sb_holds b xs -> sb_state b xs.
Proof. intros T (pre & post & E & E1 & E2). exists pre, post. split; [left; exact T|]. split; [left; exact T|]. destruct b. cbn in *. subst. reflexivity. Qed.
Lemma sb_clean_state b xs : sb_clean b xs -> sb_state b xs.
Proof. intros (i & k & E & E1 & E2). exists (repeat Raw i), (repeat Raw k). split; [apply rw_repeat|]. split; [apply rw_repeat|]. rewrite repeat_length. destruct b. cbn in *. subst. reflexivity. Qed.
Lemma sb_state_clean b xs : trivial = false -> sb_state b xs -> sb_clean b xs.
Proof.
  intros T (pre & post & [E|F1] & [E2|F2] & ->); try congruence. exists (length pre), (length post).
  cbn [sbuf sbegin send]. rewrite <- !raw_repeat by assumption. auto.
Qed.
Lemma removelast_len (l : list A) : (length (removelast l) <= length l)%nat.
Proof. induction l as [|x [|y l] IH]; cbn [removelast length] in *; lia. Qed.
Lemma deque_len o (xs ys : list A) : deque_step o xs = Ok ys -> (length ys <= S (length xs))%nat.
Proof.
  destruct o; destruct xs as [|z xs]; cbn [deque_step]; intros E; try discriminate; injection E as <-; cbn [length]; rewrite ?app_length; cbn [length]; try lia.
  pose proof (removelast_len (z :: xs)) as R. cbn [length removelast] in *. destruct xs; cbn [length] in *; lia.
Qed.
Lemma sb_run os : forall b xs, trivial = true -> sb_holds b xs -> Z.of_nat (length xs + length os) < 2 ^ 63 ->
  match run deque_step os xs with
  | Ok ys => exists c, run (sb_step trivial) os b = Ok c /\ sb_holds c ys
  | _ => run (sb_step trivial) os b = UB
  end.
Proof.
  induction os as [|o os IH]; intros b xs T H N; cbn [run]; [eauto|].
  pose proof (sb_step_ok o b xs (sb_holds_state b xs T H)) as S1. cbn [length] in N. specialize (S1 ltac:(lia) (or_introl T)).
  destruct (deque_step o xs) as [ys| | |] eqn:E; cbn [bind]; try (rewrite S1; reflexivity).
  destruct S1 as (c & E1 & Hc). rewrite E1. cbn [bind]. apply IH; [exact T | apply sb_state_holds, Hc |]. apply deque_len in E. lia.
Qed.
Lemma sb_clean_step o b xs : trivial = false -> sb_clean b xs -> Z.of_nat (length xs) < 2 ^ 63 -> (xs = [] \/ ~ sb_shifts o b) ->
  match deque_step o xs with
  | Ok ys => exists c, sb_step trivial o b = Ok c /\ sb_clean c ys
  | _ => sb_step trivial o b = UB
  end.
Proof.
  intros T H N G. pose proof (sb_step_ok o b xs (sb_clean_state b xs H) N (or_intror G)) as S1.
  destruct (deque_step o xs) as [ys| | |]; auto. destruct S1 as (c & E & Hc). exists c. split; [exact E | apply sb_state_clean; assumption].
Qed.
Lemma nth_raw (pre : mem A) n post i : (length pre <= i < length pre + n)%nat -> rd (pre ++ repeat Raw n ++ post) i = Ok Raw.
Proof.
  intros H. unfold rd. rewrite nth_error_app2 by lia. rewrite nth_error_app1 by (rewrite repeat_length; lia).
  rewrite nth_error_repeat by lia. reflexivity.
Qed.
Lemma sb_shift_ub o b xs : trivial = false -> sb_clean b xs -> xs <> [] -> sb_shifts o b -> sb_step trivial o b = UB.
Proof.
  intros T (i & k & E1 & E2 & E3) X S1. destruct b as [m be en]. cbn [sbuf sbegin send] in *. subst m be en.
  destruct o as [a|a| | |]; cbn [sb_shifts sbegin send sb_step] in *; try contradiction.
  - destruct S1 as [-> S1]. unfold sb_capacity in S1. cbn [sbuf repeat app] in *. rewrite app_length, map_length, repeat_length in S1. cbn [Nat.add] in *.
    unfold sb_push_front, sb_capacity, sb_size. cbn [sbuf sbegin send]. rewrite Nat.eqb_refl, app_length, map_length, repeat_length.
    rewrite (proj2 (Nat.ltb_lt _ _)) by lia. set (d := ((_ - _ + 1) / 2)%nat). assert (Hd : (1 <= d <= k)%nat).
    { subst d. replace (length xs + k - length xs)%nat with k by lia. pose proof (Nat.div_mod (k + 1) 2 ltac:(lia)). pose proof (Nat.mod_upper_bound (k + 1) 2 ltac:(lia)). lia. }
    clearbody d. rewrite Nat.sub_0_r. destruct (exists_last X) as (ys & y & ->). rewrite app_length, Nat.add_1_r. cbn [move_backward Nat.add].
    rewrite map_snoc, <- app_assoc. cbn [app]. rewrite move_mid by (rewrite map_length; lia). cbn [bind fst snd].
    unfold assign_slot. rewrite app_cons. rewrite <- (app_nil_r (repeat Raw k)), nth_raw by (rewrite app_length, map_length; cbn; lia).
    cbn [bind]. rewrite T. reflexivity.
  - destruct S1 as [S1 S2]. unfold sb_capacity in S1. cbn [sbuf] in S1. rewrite !app_length, map_length, !repeat_length in S1. assert (k = 0%nat) by lia. subst k.
    unfold sb_push_back, sb_capacity, sb_size. cbn [sbuf sbegin send]. rewrite !app_length, map_length, !repeat_length, Nat.add_0_r, Nat.eqb_refl.
    rewrite (proj2 (Nat.ltb_lt _ _)) by lia. set (d := ((_ + 1) / 2)%nat). assert (Hd : (1 <= d <= i)%nat).
    { subst d. pose proof (Nat.div_mod (i + 1) 2 ltac:(lia)). pose proof (Nat.mod_upper_bound (i + 1) 2 ltac:(lia)). lia. }
    clearbody d. replace (i + length xs - i)%nat with (length xs) by lia. destruct xs as [|x xs]; [congruence|]. cbn [length move_forward map app].
    rewrite move_mid by (rewrite repeat_length; reflexivity). cbn [bind fst snd]. unfold assign_slot.
    rewrite <- (app_nil_l (repeat Raw i ++ _)), nth_raw by (cbn; lia). cbn [bind]. rewrite T. reflexivity.
Qed.
Lemma sb_reserve_more (b : sbuffer A) n : Z.of_nat (sb_capacity b) <= n -> sb_reserve trivial b n = Ok b.
Proof. intros H. unfold sb_reserve. replace (n <? _) with false by lia. reflexivity. Qed.
Lemma forward_over n : forall (old pre : mem A) i r e, e = length pre -> (r < n)%nat -> 
  construct_forward trivial old (pre ++ repeat Raw r) i n e = UB \/ exists j, (i <= j < i + n)%nat /\ forall a, rd old j <> Ok (Obj a).
Proof.
  induction n as [|n IH]; intros old pre i r e E L; [lia|]. cbn [construct_forward]. unfold move_out, read.
  destruct (rd old i) as [s| | |] eqn:Er; [|right; exists i; split; [lia | intros; rewrite Er; discriminate] ..].
  destruct s as [|a|]; [right; exists i; split; [lia | intros; rewrite Er; discriminate] | | right; exists i; split; [lia | intros; rewrite Er; discriminate]].
  cbn [bind fst snd]. destruct r as [|r].
  - left. cbn [repeat]. rewrite app_nil_r. unfold construct, rd. rewrite (proj2 (nth_error_None _ _)) by lia. reflexivity.
  - cbn [repeat]. rewrite construct_mid by exact E. cbn [bind]. rewrite app_cons.
    destruct (IH (upd old i Moved) (pre ++ [Obj a]) (S i) r (S e)) as [H | (j & Hj & H)]; [rewrite app_length; cbn; lia | lia | left; exact H |].
    right. exists j. split; [lia|]. intros b Hb. apply (H b). unfold rd in *. rewrite nth_error_upd_ne by lia. exact Hb.
Qed.
Lemma sb_reserve_less b xs n : sb_holds b xs -> 0 <= n < Z.of_nat (length xs) -> sb_reserve trivial b n = UB.
Proof.
  intros (pre & post & E & E1 & E2) N. destruct b as [m be en]. cbn [sbuf sbegin send] in *. subst m be en.
  unfold sb_reserve, sb_capacity. cbn [sbuf]. rewrite !app_length, map_length. replace (n <? _) with true by lia.
  unfold sb_realloc, sb_size, split_buffer. cbn [sbuf sbegin send]. cbv zeta. replace (length pre + length xs - length pre)%nat with (length xs) by lia.
  destruct (forward_over (length xs) (pre ++ map Obj xs ++ post) [] (length pre) (Z.to_nat n) 0) as [H | (j & Hj & H)]; [reflexivity | lia | |].
  - cbn [app] in H. rewrite H. reflexivity.
  - exfalso. destruct (nth_error xs (j - length pre)) as [a|] eqn:Ea; [|apply nth_error_None in Ea; lia].
    apply (H a). unfold rd. rewrite nth_error_app2 by lia. rewrite nth_error_app1 by (rewrite map_length; lia). rewrite nth_error_map, Ea. reflexivity.
Qed.
Lemma sb_input l : Z.of_nat (length l) < 2 ^ 63 -> exists b, sb_construct_input trivial (SBuf [] 0 0) l = Ok b /\ sb_clean b l.
Proof.
  intros H. destruct (sb_input_ok l [] 0) as (r & E); [cbn; lia|]. cbn [map app repeat length Nat.add] in E. eexists. split; [exact E|].
  exists 0%nat, r. auto.
Qed.
End Q.

(** ** iota_op *)
Section Iota.
Variable T : ity.
Hypothesis TW : std_width (width T).
Variable trivial : bool.
Lemma iota_loop_ok step n : forall pre post pos first fuel, pos = length pre -> 0 < step -> fits T first -> fits T (first + Z.of_nat n * step) ->
  (n < fuel)%nat ->
  iota_loop T trivial fuel (pre ++ repeat Raw n ++ post) pos first step (first + Z.of_nat n * step)
  = Ok (pre ++ map Obj (map (fun i => first + Z.of_nat i * step) (seq 0 n)) ++ post).
Proof.
  induction n as [|n IH]; intros pre post pos first fuel Ep S1 F1 F2 Hf.
  - destruct fuel; cbn [iota_loop]; replace (_ <? _) with false by lia; reflexivity.
  - destruct fuel as [|fuel]; [lia|]. cbn [iota_loop]. replace (first <? first + Z.of_nat (S n) * step) with true by lia.
    cbn [repeat app]. rewrite construct_mid by exact Ep. cbn [bind].
    assert (F3 : fits T (first + step)) by (unfold fits in *; nia).
    rewrite assign_fits by (auto; apply std_pos; exact TW). cbn [bind].
    replace (first + Z.of_nat (S n) * step) with ((first + step) + Z.of_nat n * step) in * by lia.
    rewrite app_cons. rewrite IH; auto; [|rewrite app_length; cbn; lia | lia].
    rewrite <- app_assoc. cbn [seq map app]. do 2 f_equal. replace (first + Z.of_nat 0 * step) with first by lia. f_equal.
    rewrite <- seq_shift, !map_map. f_equal. apply map_ext. intros i. f_equal. lia.
Qed.
Lemma iota_ok first step n k : 0 < step -> fits T first -> fits T (first + n * step) -> 0 <= n <= Z.of_nat k -> fits T n ->
  fits (promote T) (n * step) ->
  iota_op T trivial first step (repeat Raw k) n
  = Ok (map Obj (map (fun i => first + Z.of_nat i * step) (seq 0 (Z.to_nat n))) ++ repeat Raw (k - Z.to_nat n), n).
Proof.
  intros S1 F1 F2 N Fn Fp. unfold iota_op. pose proof (std_pos _ TW) as W.
  rewrite conv_id by assumption. rewrite calc_fits by (auto; apply promote_pos). cbn [bind].
  rewrite calc_fits by (try apply promote_pos; apply fits_promote; auto). cbn [bind].
  rewrite repeat_length. pose proof (iota_loop_ok step (Z.to_nat n) [] (repeat Raw (k - Z.to_nat n)) 0 first (S k)) as E. cbn [app] in E.
  rewrite <- raw_split in E by lia. rewrite Z2Nat.id in E by lia. rewrite E by (auto; lia). reflexivity.
Qed.
Lemma iota_none first step n m r : step <= 0 -> 0 <= n -> fits T first -> fits T n -> fits T step -> signed T = true ->
  iota_op T trivial first step m n = Ok r -> r = (m, n).
Proof.
  intros S1 N F1 F2 F3 Sg. unfold iota_op. pose proof (std_pos _ TW) as W. rewrite conv_id by assumption.
  assert (Sp : signed (promote T) = true).
  { unfold promote. destruct (_ <? _); [reflexivity | exact Sg]. }
  unfold calc. rewrite Sp. destruct (_ && _); [|discriminate]. cbn [bind]. destruct (_ && _); [|discriminate]. cbn [bind].
  cbn [iota_loop]. replace (first <? first + n * step) with false by nia. cbn [bind]. intros E. injection E as <-. reflexivity.
Qed.
End Iota.

(** ** The forms used in VectorProps *)
Section R.
Context {A : Type}.
Variable trivial : bool.
Variable ms : Z.
Hypothesis MS : max_size_ok ms.
Lemma one_step (dflt : A) o v xs : holds ms v xs ->
  match lstep ms dflt o xs with
  | Ok ys => exists w, vstep trivial ms dflt o v = Ok w /\ holds ms w ys
  | Throw => vstep trivial ms dflt o v = Throw
  | _ => True
  end.
Proof.
  intros H. pose proof (step_all trivial ms MS dflt o v xs H) as S1. unfold step_ok in S1.
  destruct (lstep ms dflt o xs); auto. destruct S1 as (w & E & Hw & _). eauto.
Qed.
Lemma step_throws (dflt : A) o v xs : holds ms v xs -> lstep ms dflt o xs = Throw -> vstep trivial ms dflt o v = Throw.
Proof. intros H E. pose proof (one_step dflt o v xs H) as S1. rewrite E in S1. exact S1. Qed.
Lemma step_fits (dflt : A) o v xs ys : holds ms v xs -> lstep ms dflt o xs = Ok ys -> vstep trivial ms dflt o v <> Throw /\ Z.of_nat (length ys) <= ms.
Proof.
  intros H E. pose proof (one_step dflt o v xs H) as S1. rewrite E in S1. destruct S1 as (w & E1 & Hw). split; [rewrite E1; discriminate|].
  exact (holds_small ms w ys Hw).
Qed.
Lemma step_stable (dflt : A) o v xs ys w : holds ms v xs -> lstep ms dflt o xs = Ok ys -> keeps_storage o = true ->
  (length ys <= capacity v)%nat -> vstep trivial ms dflt o v = Ok w -> capacity w = capacity v.
Proof.
  intros H E K L E2. pose proof (step_all trivial ms MS dflt o v xs H) as S1. unfold step_ok in S1. rewrite E in S1.
  destruct S1 as (u & E1 & _ & S1). rewrite E1 in E2. injection E2 as <-. auto.
Qed.
Lemma make_count n (a : A) : 0 <= n ->
  if n <=? ms then exists v, make_n trivial ms n a = Ok v /\ holds ms v (repeat a (Z.to_nat n)) /\ Z.of_nat (capacity v) = n
  else make_n trivial ms n a = Throw.
Proof.
  intros N. destruct (Z.leb_spec n ms); [apply make_n_ok; auto | apply make_n_throw; auto].
Qed.
Lemma move_swap_ok (v w : vec A) xs ys : holds ms v xs -> holds ms w ys ->
  (holds ms (fst (move_construct v)) xs /\ holds ms (snd (move_construct v)) []) /\
  (holds ms (fst (swap v w)) ys /\ holds ms (snd (swap v w)) xs).
Proof. intros H Hw. repeat (split; auto); apply (empty_holds ms MS). Qed.
Lemma size_ok (v : vec A) xs : holds ms v xs -> size v = Z.of_nat (length xs) /\ (is_empty v = true <-> xs = []).
Proof.
  intros (L & _). unfold size, is_empty. rewrite L. split; [reflexivity|]. rewrite Nat.eqb_eq. destruct xs; cbn; split; try congruence; lia.
Qed.
Lemma sb_reserve_wrong (b : sbuffer A) xs n : sb_holds b xs ->
  (Z.of_nat (sb_capacity b) <= n -> sb_reserve trivial b n = Ok b) /\
  (0 <= n < Z.of_nat (length xs) -> sb_reserve trivial b n = UB).
Proof. intros H. split; [apply sb_reserve_more | apply sb_reserve_less; exact H]. Qed.
End R.
