(** Proofs about iterators and the deprecated ranges. *)
From Verif Require Import Common OldRange SpecOldRange.
Open Scope Z_scope.

(** * Iterators *)

Lemma it_inc_ok : forall len p, 0 <= p < len -> it_inc len p = Ok (p + 1).
Proof.
  intros. unfold it_inc. replace (0 <=? p) with true by (symmetry; apply Z.leb_le; lia).
  replace (p <? len) with true by (symmetry; apply Z.ltb_lt; lia). reflexivity.
Qed.
Lemma it_inc_end : forall len, 0 <= len -> it_inc len len = UB.
Proof. intros. unfold it_inc. rewrite Z.ltb_irrefl, andb_false_r. reflexivity. Qed.
Lemma it_dec_ok : forall len p, 0 < p <= len -> it_dec len p = Ok (p - 1).
Proof.
  intros. unfold it_dec. replace (0 <? p) with true by (symmetry; apply Z.ltb_lt; lia).
  replace (p <=? len) with true by (symmetry; apply Z.leb_le; lia). reflexivity.
Qed.
Lemma it_dec_begin : forall len, it_dec len 0 = UB.
Proof. reflexivity. Qed.
Lemma it_add_ok : forall len p n, 0 <= p + n <= len -> it_add len p n = Ok (p + n).
Proof.
  intros. unfold it_add. replace (0 <=? p + n) with true by (symmetry; apply Z.leb_le; lia).
  replace (p + n <=? len) with true by (symmetry; apply Z.leb_le; lia). reflexivity.
Qed.
Lemma it_add_bad : forall len p n, ~ 0 <= p + n <= len -> it_add len p n = UB.
Proof.
  intros. unfold it_add. destruct (Z.leb_spec 0 (p + n)) as [L|L]; [|reflexivity].
  destruct (Z.leb_spec (p + n) len) as [M|M]; [lia|reflexivity].
Qed.

Lemma forward_loop_ok : forall k fuel len p n,
  n = Z.of_nat k -> (k < fuel)%nat -> 0 <= p -> p + n <= len ->
  forward_loop fuel len p n = Ok (p + n).
Proof.
  induction k as [|k IH]; intros fuel len p n -> Hf Hp Hl; (destruct fuel as [|fuel]; [lia|]);
    cbn [forward_loop].
  - replace (Z.of_nat 0 =? ptrdiff_min) with false by reflexivity. cbn. f_equal; lia.
  - replace (Z.of_nat (Datatypes.S k) =? ptrdiff_min) with false
      by (symmetry; apply Z.eqb_neq; unfold ptrdiff_min; lia).
    replace (0 <? Z.of_nat (Datatypes.S k)) with true by (symmetry; apply Z.ltb_lt; lia).
    rewrite it_inc_ok by lia. cbn [bind]. rewrite IH by lia. f_equal; lia.
Qed.

Lemma forward_loop_off : forall k fuel len p n,
  len - p = Z.of_nat k -> (k < fuel)%nat -> 0 <= p -> len < p + n ->
  forward_loop fuel len p n = UB.
Proof.
  induction k as [|k IH]; intros fuel len p n E Hf Hp Hl; (destruct fuel as [|fuel]; [lia|]);
    cbn [forward_loop];
    (destruct (n =? ptrdiff_min) eqn:M; [reflexivity|]);
    replace (0 <? n) with true by (symmetry; apply Z.ltb_lt; lia).
  - replace p with len by lia. rewrite it_inc_end by lia. reflexivity.
  - rewrite it_inc_ok by lia. cbn [bind]. apply IH; lia.
Qed.

Lemma forward_loop_neg : forall fuel len p n,
  (0 < fuel)%nat -> ptrdiff_min < n <= 0 -> forward_loop fuel len p n = Ok p.
Proof.
  intros [|fuel] len p n Hf Hn; [lia|]. cbn [forward_loop].
  replace (n =? ptrdiff_min) with false by (symmetry; apply Z.eqb_neq; lia).
  replace (0 <? n) with false by (symmetry; apply Z.ltb_ge; lia). reflexivity.
Qed.

Lemma backward_loop_ok : forall k fuel len p n,
  n = - Z.of_nat k - 1 -> (k < fuel)%nat -> p <= len -> 0 <= p - Z.of_nat k ->
  backward_loop fuel len p n = Ok (p + n + 1).
Proof.
  induction k as [|k IH]; intros fuel len p n -> Hf Hp Hl; (destruct fuel as [|fuel]; [lia|]);
    cbn [backward_loop].
  - cbn. f_equal; lia.
  - replace (- Z.of_nat (Datatypes.S k) - 1 + 1 <? 0) with true by (symmetry; apply Z.ltb_lt; lia).
    rewrite it_dec_ok by lia. cbn [bind]. rewrite IH by lia. f_equal; lia.
Qed.

Lemma backward_loop_off : forall k fuel len p n,
  p = Z.of_nat k -> (k < fuel)%nat -> p <= len -> p + n + 1 < 0 ->
  backward_loop fuel len p n = UB.
Proof.
  induction k as [|k IH]; intros fuel len p n E Hf Hp Hl; (destruct fuel as [|fuel]; [lia|]);
    cbn [backward_loop];
    replace (n + 1 <? 0) with true by (symmetry; apply Z.ltb_lt; lia).
  - subst p. reflexivity.
  - rewrite it_dec_ok by lia. cbn [bind]. apply IH; lia.
Qed.

Lemma distance_loop_ok : forall k fuel len first last count,
  last - first = Z.of_nat k -> (k < fuel)%nat -> 0 <= first -> last <= len ->
  distance_loop fuel len first last count = Ok (count + (last - first)).
Proof.
  induction k as [|k IH]; intros fuel len first last count E Hf Hp Hl;
    (destruct fuel as [|fuel]; [lia|]); cbn [distance_loop].
  - replace first with last by lia. rewrite Z.eqb_refl. f_equal; lia.
  - replace (first =? last) with false by (symmetry; apply Z.eqb_neq; lia).
    rewrite it_inc_ok by lia. cbn [bind]. rewrite IH by lia. f_equal; lia.
Qed.

Lemma distance_loop_off : forall k fuel len first last count,
  len - first = Z.of_nat k -> (k < fuel)%nat -> 0 <= first -> last < first ->
  distance_loop fuel len first last count = UB.
Proof.
  induction k as [|k IH]; intros fuel len first last count E Hf Hp Hl;
    (destruct fuel as [|fuel]; [lia|]); cbn [distance_loop];
    replace (first =? last) with false by (symmetry; apply Z.eqb_neq; lia).
  - replace first with len by lia. rewrite it_inc_end by lia. reflexivity.
  - rewrite it_inc_ok by lia. cbn [bind]. apply IH; lia.
Qed.

(** * Ranges *)

Lemma to_diff_small : forall z, 0 <= z < 2 ^ 63 -> to_diff z = z.
Proof.
  intros. unfold to_diff. rewrite Z.mod_small by lia.
  replace (z <? 2 ^ 63) with true by (symmetry; apply Z.ltb_lt; lia). reflexivity.
Qed.
Lemma to_diff_m1 : to_diff (-1) = -1.
Proof. reflexivity. Qed.
Lemma rng_size_ok : forall T (arr : list T) r, rng_ok arr r -> rng_size r = r_end r - r_begin r.
Proof. intros T arr r (A & B & C & D). unfold rng_size, to_size. apply Z.mod_small. lia. Qed.
Lemma elems_length : forall T (arr : list T) r, rng_ok arr r ->
  Z.of_nat (length (elems arr r)) = r_end r - r_begin r.
Proof.
  intros T arr r (A & B & C & D). unfold elems. rewrite firstn_length, skipn_length. lia.
Qed.
Lemma nth_error_firstn_lt : forall T (l : list T) n i, (i < n)%nat ->
  nth_error (firstn n l) i = nth_error l i.
Proof.
  induction l as [|x l IH]; intros [|n] i Hi; try lia.
  - rewrite firstn_nil. reflexivity.
  - destruct i as [|i]; [reflexivity|]. cbn. apply IH. lia.
Qed.
Lemma nth_error_skipn : forall T n (l : list T) i,
  nth_error (skipn n l) i = nth_error l (n + i).
Proof.
  induction n as [|n IH]; intros l i; [reflexivity|]. destruct l as [|x l]; cbn.
  - destruct i; reflexivity.
  - apply IH.
Qed.
Lemma elems_nth : forall T (arr : list T) r i, rng_ok arr r -> 0 <= i < r_end r - r_begin r ->
  nth_error (elems arr r) (Z.to_nat i) = nth_error arr (Z.to_nat (r_begin r + i)).
Proof.
  intros T arr r i (A & B & C & D) Hi. unfold elems.
  rewrite nth_error_firstn_lt by lia. rewrite nth_error_skipn. f_equal. lia.
Qed.
Lemma deref_ok : forall T (arr : list T) p, 0 <= p -> deref arr p = rd arr (Z.to_nat p).
Proof.
  intros. unfold deref. replace (p <? 0) with false by (symmetry; apply Z.ltb_ge; lia). reflexivity.
Qed.
Lemma skipn_add' : forall T (a b : nat) (l : list T), skipn a (skipn b l) = skipn (b + a) l.
Proof.
  induction b as [|b IH]; intros l; [reflexivity|]. destruct l as [|x l]; cbn.
  - apply skipn_nil.
  - apply IH.
Qed.
Lemma elems_skip : forall T (arr : list T) r k, rng_ok arr r -> 0 <= k <= r_end r - r_begin r ->
  elems arr (mk_rng (r_begin r + k) (r_end r)) = skipn (Z.to_nat k) (elems arr r).
Proof.
  intros T arr r k (A & B & C & D) Hk. unfold elems. cbn [r_begin r_end].
  rewrite skipn_firstn_comm, skipn_add'. f_equal; [|f_equal]; lia.
Qed.
Lemma elems_slice : forall T (arr : list T) r a b, rng_ok arr r ->
  0 <= a -> a <= b -> b <= r_end r - r_begin r ->
  elems arr (mk_rng (r_begin r + a) (r_begin r + b)) =
  firstn (Z.to_nat (b - a)) (skipn (Z.to_nat a) (elems arr r)).
Proof.
  intros T arr r a b (A & B & C & D) Ha Hb Hc. unfold elems. cbn [r_begin r_end].
  rewrite skipn_firstn_comm, skipn_add', firstn_firstn. f_equal; [|f_equal]; lia.
Qed.

Lemma read_loop_ok : forall T (arr : list T) k fuel p e,
  e - p = Z.of_nat k -> (k < fuel)%nat -> 0 <= p -> e <= Z.of_nat (length arr) ->
  read_loop arr fuel p e = Ok (elems arr (mk_rng p e)).
Proof.
  intros T arr. induction k as [|k IH]; intros fuel p e E Hf Hp He;
    (destruct fuel as [|fuel]; [lia|]); cbn [read_loop].
  - replace p with e by lia. rewrite Z.eqb_refl. unfold elems. cbn [r_begin r_end].
    rewrite Z.sub_diag. reflexivity.
  - replace (p =? e) with false by (symmetry; apply Z.eqb_neq; lia).
    rewrite deref_ok by lia. unfold rd.
    destruct (nth_error arr (Z.to_nat p)) as [x|] eqn:N.
    2:{ apply nth_error_None in N. lia. }
    cbn [bind]. unfold alen. rewrite it_inc_ok by lia. cbn [bind].
    rewrite IH by lia. cbn [bind]. f_equal.
    unfold elems. cbn [r_begin r_end].
    replace (Z.to_nat (e - p)) with (Datatypes.S (Z.to_nat (e - (p + 1)))) by lia.
    replace (Z.to_nat (p + 1)) with (Datatypes.S (Z.to_nat p)) by lia.
    destruct (nth_error_split arr _ N) as (l1 & l2 & -> & L).
    rewrite <- L. clear.
    replace (skipn (length l1) (l1 ++ x :: l2)) with (x :: l2)
      by (rewrite skipn_app, skipn_all, Nat.sub_diag; reflexivity).
    replace (skipn (Datatypes.S (length l1)) (l1 ++ x :: l2)) with l2.
    + reflexivity.
    + rewrite skipn_app. rewrite skipn_all2 by lia.
      replace (Datatypes.S (length l1) - length l1)%nat with 1%nat by lia. reflexivity.
Qed.

Lemma find_loop_ok : forall T (arr : list T) eqb key, decides eqb -> forall k fuel p e,
  e - p = Z.of_nat k -> (k < fuel)%nat -> 0 <= p -> e <= Z.of_nat (length arr) ->
  exists q, find_loop arr fuel eqb p e key = Ok q /\
    (q <> e <-> In key (elems arr (mk_rng p e))).
Proof.
  intros T arr eqb key Dc. induction k as [|k IH]; intros fuel p e E Hf Hp He;
    (destruct fuel as [|fuel]; [lia|]); cbn [find_loop].
  - replace p with e by lia. rewrite Z.eqb_refl. exists e. split; [reflexivity|].
    unfold elems. cbn [r_begin r_end]. rewrite Z.sub_diag. cbn. tauto.
  - replace (p =? e) with false by (symmetry; apply Z.eqb_neq; lia).
    rewrite deref_ok by lia. unfold rd.
    destruct (nth_error arr (Z.to_nat p)) as [x|] eqn:N.
    2:{ apply nth_error_None in N. lia. }
    cbn [bind].
    assert (EL : elems arr (mk_rng p e) = x :: elems arr (mk_rng (p + 1) e)).
    { unfold elems. cbn [r_begin r_end].
      replace (Z.to_nat (e - p)) with (Datatypes.S (Z.to_nat (e - (p + 1)))) by lia.
      replace (Z.to_nat (p + 1)) with (Datatypes.S (Z.to_nat p)) by lia.
      destruct (nth_error_split arr _ N) as (l1 & l2 & -> & L).
      rewrite <- L. clear.
      replace (skipn (length l1) (l1 ++ x :: l2)) with (x :: l2)
        by (rewrite skipn_app, skipn_all, Nat.sub_diag; reflexivity).
      replace (skipn (Datatypes.S (length l1)) (l1 ++ x :: l2)) with l2.
      + reflexivity.
      + rewrite skipn_app. rewrite skipn_all2 by lia.
        replace (Datatypes.S (length l1) - length l1)%nat with 1%nat by lia. reflexivity. }
    rewrite EL. destruct (eqb x key) eqn:Q.
    + exists p. split; [reflexivity|]. apply Dc in Q. subst x. cbn. split; [tauto|lia].
    + unfold alen. rewrite it_inc_ok by lia. cbn [bind].
      destruct (IH fuel (p + 1) e ltac:(lia) ltac:(lia) ltac:(lia) He) as (q & R & Hq).
      exists q. split; [exact R|]. rewrite Hq. cbn. split; [tauto|].
      intros [-> | H]; [|exact H]. exfalso.
      assert (eqb key key = true) by (apply Dc; reflexivity). congruence.
Qed.

(** * References *)

Lemma to_reference_loop_endless : forall fuel first last acc, first <> last ->
  to_reference_loop fuel first last acc = OutOfFuel.
Proof.
  induction fuel as [|fuel IH]; intros first last acc N; [reflexivity|].
  cbn [to_reference_loop]. replace (first =? last) with false by (symmetry; apply Z.eqb_neq; lia).
  apply IH. exact N.
Qed.

Lemma alg_where_in : forall T (pred : T -> bool) (l : list T) addr a,
  In a (alg_where l addr pred) <->
  exists i x, nth_error l i = Some x /\ pred x = true /\ a = addr + Z.of_nat i.
Proof.
  intros T pred. induction l as [|y l IH]; intros addr a; cbn [alg_where].
  - split; [intros []|]. intros (i & x & N & _). destruct i; discriminate.
  - assert (R : In a (alg_where l (addr + 1) pred) <->
      exists i x, nth_error (y :: l) (Datatypes.S i) = Some x /\ pred x = true /\
        a = addr + Z.of_nat (Datatypes.S i)).
    { rewrite IH. split; intros (i & x & N & P & E); exists i, x; (split; [exact N|]);
        (split; [exact P|]); lia. }
    destruct (pred y) eqn:P; cbn [In]; rewrite R; split.
    + intros [<- | (i & x & N & Q & E)].
      * exists 0%nat, y. cbn. repeat split; [exact P|lia].
      * exists (Datatypes.S i), x. tauto.
    + intros ([|i] & x & N & Q & E).
      * left. lia.
      * right. exists i, x. tauto.
    + intros (i & x & N & Q & E). exists (Datatypes.S i), x. tauto.
    + intros ([|i] & x & N & Q & E).
      * injection N as <-. congruence.
      * exists i, x. tauto.
Qed.
Lemma alg_where_sorted : forall T (pred : T -> bool) (l : list T) addr,
  StronglySorted Z.lt (alg_where l addr pred).
Proof.
  intros T pred. induction l as [|y l IH]; intros addr; cbn [alg_where]; [constructor|].
  destruct (pred y); [|apply IH]. constructor; [apply IH|].
  apply Forall_forall. intros a Ha. apply alg_where_in in Ha.
  destruct Ha as (i & x & _ & _ & ->). lia.
Qed.

(** * Owning ranges *)

Lemma nth_error_tail : forall T (kept v0 : list T) i x, (length kept <= i)%nat ->
  nth_error v0 i = Some x -> nth_error (kept ++ skipn (length kept) v0) i = Some x.
Proof.
  intros T kept v0 i x L N. rewrite nth_error_app2 by exact L.
  rewrite nth_error_skipn. rewrite <- N. f_equal. lia.
Qed.
Lemma skipn_nth : forall T (v0 : list T) i x, nth_error v0 i = Some x ->
  skipn i v0 = x :: skipn (i + 1) v0.
Proof.
  induction v0 as [|y v0 IH]; intros [|i] x N; try discriminate.
  - injection N as ->. reflexivity.
  - cbn [skipn Nat.add]. apply IH. exact N.
Qed.
Lemma upd_app_tail : forall T (kept : list T) y rest x,
  upd (kept ++ y :: rest) (length kept) x = kept ++ x :: rest.
Proof. induction kept as [|k kept IH]; intros; cbn; [reflexivity|]. f_equal. apply IH. Qed.

(** Writing the element [x] at the end of the kept ones. *)
Lemma keep_step : forall T (kept v0 : list T) i x, (length kept <= i)%nat ->
  nth_error v0 i = Some x ->
  (if (i =? length kept)%nat then Ok (kept ++ skipn (length kept) v0)
   else wr (kept ++ skipn (length kept) v0) (length kept) x) =
  Ok ((kept ++ [x]) ++ skipn (length (kept ++ [x])) v0).
Proof.
  intros T kept v0 i x L N. rewrite app_length. cbn [length].
  assert (Hi : (i < length v0)%nat) by (apply nth_error_Some; congruence).
  destruct (nth_error v0 (length kept)) as [y|] eqn:Y.
  2:{ apply nth_error_None in Y. lia. }
  pose proof (skipn_nth _ _ _ _ Y) as SK.
  destruct (Nat.eqb_spec i (length kept)) as [E|E].
  - rewrite E in N. rewrite N in Y. injection Y as <-. rewrite SK, <- app_assoc. reflexivity.
  - unfold wr. replace (length kept <? length (kept ++ skipn (length kept) v0))%nat with true.
    + rewrite SK, upd_app_tail, <- app_assoc. reflexivity.
    + symmetry. apply Nat.ltb_lt. rewrite app_length, skipn_length. lia.
Qed.

Lemma remove_loop_ok : forall T (pred : list T -> T -> bool) (q : T -> bool) (v0 : list T),
  (forall kept x, Forall (fun y => q y = true) kept -> (length kept <= length v0)%nat ->
     pred (kept ++ skipn (length kept) v0) x = negb (q x)) ->
  forall n i kept, (i + n = length v0)%nat -> (length kept <= i)%nat ->
  Forall (fun y => q y = true) kept ->
  exists v' r, remove_loop n pred (kept ++ skipn (length kept) v0) i (length kept) = Ok (v', r) /\
    firstn r v' = kept ++ filter q (skipn i v0).
Proof.
  intros T pred q v0 HP. induction n as [|n IH]; intros i kept E L F; cbn [remove_loop].
  - eexists _, _. split; [reflexivity|].
    rewrite firstn_app, firstn_all, Nat.sub_diag. cbn [firstn].
    replace (skipn i v0) with (@nil T) by (symmetry; apply skipn_all2; lia). reflexivity.
  - destruct (nth_error v0 i) as [x|] eqn:N.
    2:{ apply nth_error_None in N. lia. }
    unfold rd. rewrite (nth_error_tail _ _ _ _ _ L N). cbn [bind].
    rewrite HP by (try exact F; lia). rewrite (skipn_nth _ _ _ _ N). cbn [filter].
    destruct (q x) eqn:Q; cbn [negb].
    + rewrite (keep_step _ _ _ _ _ L N). cbn [bind].
      destruct (IH (i + 1)%nat (kept ++ [x])) as (v' & r & R & W).
      * lia.
      * rewrite app_length. cbn. lia.
      * apply Forall_app. split; [exact F|]. constructor; [exact Q|constructor].
      * rewrite app_length in R at 2. cbn [length] in R. exists v', r. split; [exact R|].
        rewrite W, <- app_assoc. reflexivity.
    + destruct (IH (i + 1)%nat kept) as (v' & r & R & W); [lia|lia|exact F|].
      exists v', r. split; [exact R|exact W].
Qed.

Lemma coll_erase_gen_ok : forall T (pred : list T -> T -> bool) (q : T -> bool) (v0 : list T),
  (forall kept x, Forall (fun y => q y = true) kept -> (length kept <= length v0)%nat ->
     pred (kept ++ skipn (length kept) v0) x = negb (q x)) ->
  coll_erase_gen pred v0 = Ok (filter q v0).
Proof.
  intros T pred q v0 HP. unfold coll_erase_gen.
  destruct (remove_loop_ok T pred q v0 HP (length v0) 0 [] ltac:(reflexivity) ltac:(cbn; lia)
    ltac:(constructor)) as (v' & r & R & W).
  cbn [length skipn app] in R. rewrite R. cbn [bind]. rewrite W. reflexivity.
Qed.

Lemma where_equal_elem : forall T (eqb : T -> T -> bool) d k (v0 : list T) c, decides eqb ->
  nth_error v0 k = Some c ->
  coll_where_equal eqb d (Element k) v0 = Ok (filter (fun x => eqb c x) v0).
Proof.
  intros T eqb d k v0 c Dc N. unfold coll_where_equal. apply coll_erase_gen_ok.
  intros kept x F L. cbn [arg_value]. f_equal. f_equal.
  destruct (Nat.lt_ge_cases k (length kept)) as [K|K].
  - rewrite app_nth1 by exact K.
    rewrite Forall_forall in F. symmetry. apply Dc. apply F. apply nth_In. exact K.
  - apply nth_error_nth. apply nth_error_tail; assumption.
Qed.

(** What unique keeps after the element [y]. *)
Fixpoint ukeep {T} (eqb : T -> T -> bool) (y : T) (l : list T) : list T :=
  match l with
  | [] => []
  | x :: l => if eqb y x then ukeep eqb y l else x :: ukeep eqb x l
  end.

Lemma unique_loop_ok : forall T (eqb : T -> T -> bool) (v0 : list T) n i kept y,
  (i + n = length v0)%nat -> (length kept + 1 <= i)%nat ->
  exists v' last,
    unique_loop eqb n ((kept ++ [y]) ++ skipn (length kept + 1) v0) i (length kept) = Ok (v', last) /\
    firstn (last + 1) v' = kept ++ y :: ukeep eqb y (skipn i v0).
Proof.
  intros T eqb v0. induction n as [|n IH]; intros i kept y E L; cbn [unique_loop].
  - eexists _, _. split; [reflexivity|].
    replace (length kept + 1)%nat with (length (kept ++ [y])) by (rewrite app_length; reflexivity).
    rewrite firstn_app, firstn_all, Nat.sub_diag. cbn [firstn].
    replace (skipn i v0) with (@nil T) by (symmetry; apply skipn_all2; lia).
    rewrite app_nil_r. reflexivity.
  - destruct (nth_error v0 i) as [x|] eqn:N.
    2:{ apply nth_error_None in N. lia. }
    assert (LK : length (kept ++ [y]) = (length kept + 1)%nat) by (rewrite app_length; reflexivity).
    pose proof (nth_error_tail T (kept ++ [y]) v0 i x ltac:(lia) N) as NT. rewrite LK in NT.
    unfold rd at 1. rewrite NT. cbn [bind].
    unfold rd at 1.
    replace (nth_error ((kept ++ [y]) ++ skipn (length kept + 1) v0) (length kept)) with (Some y)
      by (rewrite <- app_assoc, nth_error_app2, Nat.sub_diag by lia; reflexivity).
    cbn [bind]. rewrite (skipn_nth _ _ _ _ N). cbn [ukeep].
    destruct (eqb y x) eqn:Q.
    + apply IH; lia.
    + pose proof (keep_step T (kept ++ [y]) v0 i x ltac:(lia) N) as KS. rewrite LK in KS.
      rewrite KS. cbn [bind].
      destruct (IH (i + 1)%nat (kept ++ [y]) x) as (v' & last & R & W); [lia|lia|].
      rewrite LK in R. rewrite app_length. rewrite LK. cbn [length].
      exists v', last. split; [exact R|]. rewrite W, <- app_assoc. reflexivity.
Qed.

Lemma coll_unique_ok : forall T (eqb : T -> T -> bool) y (l : list T),
  coll_unique eqb (y :: l) = Ok (y :: ukeep eqb y l).
Proof.
  intros T eqb y l. unfold coll_unique.
  destruct (unique_loop_ok T eqb (y :: l) (length l) 1 [] y) as (v' & last & R & W);
    [reflexivity|cbn; lia|].
  cbn [length app skipn Nat.add] in R. cbn [length]. rewrite Nat.sub_succ, Nat.sub_0_r.
  rewrite R. cbn [bind]. rewrite W. reflexivity.
Qed.

Lemma ukeep_runs : forall T (eqb : T -> T -> bool) (l : list T) y, exists same runs,
  y :: l = concat (map (fun r => fst r :: snd r) ((y, same) :: runs)) /\
  y :: ukeep eqb y l = map fst ((y, same) :: runs) /\
  Forall (fun r => Forall (fun x => eqb (fst r) x = true) (snd r)) ((y, same) :: runs) /\
  (forall l1 a b l2, (y, same) :: runs = l1 ++ a :: b :: l2 -> eqb (fst a) (fst b) = false).
Proof.
  intros T eqb. induction l as [|x l IH]; intros y.
  - exists [], []. split; [reflexivity|]. split; [reflexivity|]. split.
    + constructor; constructor.
    + intros [|c l1] a b l2 E; [discriminate|]. destruct l1; discriminate.
  - cbn [ukeep]. destruct (eqb y x) eqn:Q.
    + destruct (IH y) as (same & runs & A & B & C & D).
      exists (x :: same), runs. cbn [map concat fst snd app] in *. split.
      * injection A as A. rewrite A at 1. reflexivity.
      * split; [exact B|]. split.
        -- inversion C as [|? ? C1 C2]; subst. constructor; [|exact C2]. cbn [fst snd] in *.
           constructor; [exact Q|exact C1].
        -- intros [|c l1] a b l2 E.
           ++ injection E as <- E. apply (D [] (y, same) b l2). cbn. rewrite E. reflexivity.
           ++ injection E as <- E. apply (D ((y, same) :: l1) a b l2). cbn. rewrite E. reflexivity.
    + destruct (IH x) as (same & runs & A & B & C & D).
      exists [], ((x, same) :: runs). split.
      * cbn [map concat fst snd app] in *. rewrite A. reflexivity.
      * split; [cbn [map fst] in *; rewrite B; reflexivity|]. split.
        -- constructor; [constructor|exact C].
        -- intros [|c l1] a b l2 E.
           ++ injection E as <- <- E. exact Q.
           ++ injection E as <- E. exact (D l1 a b l2 E).
Qed.

Lemma unique_run_heads : forall T (eqb : T -> T -> bool) (v : list T), exists out,
  coll_unique eqb v = Ok out /\ run_heads eqb v out.
Proof.
  intros T eqb [|y l].
  - exists []. split; [reflexivity|]. exists []. repeat split; [constructor|].
    intros [|c l1] a b l2 E; discriminate.
  - rewrite coll_unique_ok. eexists. split; [reflexivity|].
    destruct (ukeep_runs T eqb l y) as (same & runs & A & B & C & D).
    exists ((y, same) :: runs). repeat split; assumption.
Qed.

(** * The statements of the properties *)

Lemma c301_forward :
  forall fuel cat len p n, 0 <= p -> 0 <= n -> (Z.to_nat len < fuel)%nat -> p <= len ->
  (p + n <= len -> it_advance fuel cat len p n = Ok (p + n) /\ it_next fuel cat len p n = Ok (p + n)) /\
  (len < p + n -> it_advance fuel cat len p n = UB).
Proof.
  intros fuel cat len p n Hp Hn Hf Hl. unfold it_next. split; intros H.
  - assert (it_advance fuel cat len p n = Ok (p + n)) as ->; [|split; reflexivity].
    destruct cat; cbn [it_advance]; try (apply (forward_loop_ok (Z.to_nat n)); lia).
    + replace (0 <=? n) with true by (symmetry; apply Z.leb_le; lia).
      apply (forward_loop_ok (Z.to_nat n)); lia.
    + apply it_add_ok. lia.
  - destruct cat; cbn [it_advance]; try (apply (forward_loop_off (Z.to_nat (len - p))); lia).
    + replace (0 <=? n) with true by (symmetry; apply Z.leb_le; lia).
      apply (forward_loop_off (Z.to_nat (len - p))); lia.
    + apply it_add_bad. lia.
Qed.

Lemma c301_backward_random :
  forall fuel len p n, position len p -> 0 <= n < 2 ^ 63 ->
  (n <= p -> it_prev fuel cat_random len p n = Ok (p - n) /\ it_advance fuel cat_random len p (- n) = Ok (p - n)) /\
  (p < n -> it_prev fuel cat_random len p n = UB).
Proof.
  intros fuel len p n [A B] Hn. unfold it_prev.
  replace (n =? ptrdiff_min) with false by (symmetry; apply Z.eqb_neq; unfold ptrdiff_min; lia).
  cbn [it_advance]. split; intros H.
  - rewrite it_add_ok by lia. split; f_equal; lia.
  - apply it_add_bad. lia.
Qed.

Lemma c301_backward_bidirectional_refuted :
  forall fuel len p n, position len p -> 1 <= n < 2 ^ 63 -> (Z.to_nat len < fuel)%nat ->
  (n <= p + 1 -> it_prev fuel cat_bidirectional len p n = Ok (p - n + 1) /\
     it_advance fuel cat_bidirectional len p (- n) = Ok (p - n + 1)) /\
  (p + 1 < n -> it_prev fuel cat_bidirectional len p n = UB).
Proof.
  intros fuel len p n [A B] Hn Hf. unfold it_prev.
  replace (n =? ptrdiff_min) with false by (symmetry; apply Z.eqb_neq; unfold ptrdiff_min; lia).
  cbn [it_advance]. replace (0 <=? - n) with false by (symmetry; apply Z.leb_gt; lia).
  split; intros H.
  - rewrite (backward_loop_ok (Z.to_nat (n - 1))) by lia. split; f_equal; lia.
  - apply (backward_loop_off (Z.to_nat p)); lia.
Qed.

Lemma c301_backward_input :
  forall fuel len p n, (0 < fuel)%nat -> 0 <= n < 2 ^ 63 ->
  it_advance fuel cat_input len p (- n) = Ok p /\ it_prev fuel cat_input len p n = Ok p.
Proof.
  intros fuel len p n Hf Hn. unfold it_prev.
  replace (n =? ptrdiff_min) with false by (symmetry; apply Z.eqb_neq; unfold ptrdiff_min; lia).
  cbn [it_advance]. rewrite forward_loop_neg by (unfold ptrdiff_min; lia). split; reflexivity.
Qed.

Lemma c301_distance :
  forall fuel cat len first last, position len first -> position len last -> (Z.to_nat len < fuel)%nat ->
  (first <= last -> it_distance fuel cat len first last = Ok (last - first)) /\
  (last < first -> it_distance fuel cat_random len first last = Ok (last - first) /\
     (cat <> cat_random -> it_distance fuel cat len first last = UB)).
Proof.
  intros fuel cat len first last [A B] [C D] Hf. split.
  - intros H. destruct cat; cbn [it_distance]; try reflexivity;
      apply (distance_loop_ok (Z.to_nat (last - first))); lia.
  - intros H. split; [reflexivity|]. intros N. destruct cat; cbn [it_distance]; try congruence;
      apply (distance_loop_off (Z.to_nat (len - first))); lia.
Qed.

Lemma c301_advance_distance :
  forall fuel cat len p q, position len p -> position len q -> p <= q -> (Z.to_nat len < fuel)%nat ->
  exists n, it_distance fuel cat len p q = Ok n /\ it_advance fuel cat len p n = Ok q.
Proof.
  intros fuel cat len p q [A B] [C D] Hpq Hf. exists (q - p). split.
  - destruct cat; cbn [it_distance]; try reflexivity;
      rewrite (distance_loop_ok (Z.to_nat (q - p))) by lia; f_equal; lia.
  - destruct cat; cbn [it_advance]; try (rewrite (forward_loop_ok (Z.to_nat (q - p))) by lia; f_equal; lia).
    + replace (0 <=? q - p) with true by (symmetry; apply Z.leb_le; lia).
      rewrite (forward_loop_ok (Z.to_nat (q - p))) by lia. f_equal; lia.
    + rewrite it_add_ok by lia. f_equal; lia.
Qed.

Lemma c301_zip_backward_refuted :
  forall fuel len p n, 1 <= n < 2 ^ 63 -> n <= p -> p <= len -> (Z.to_nat len < fuel)%nat ->
  zip_advance fuel [(cat_random, len, p); (cat_bidirectional, len, p)] (- n) = Ok [p - n; p - n + 1].
Proof.
  intros fuel len p n Hn Hp Hl Hf. cbn [zip_advance it_advance].
  rewrite it_add_ok by lia. cbn [bind].
  replace (0 <=? - n) with false by (symmetry; apply Z.leb_gt; lia).
  rewrite (backward_loop_ok (Z.to_nat (n - 1))) by lia. cbn [bind]. reflexivity.
Qed.

Lemma c302_slice :
  forall (T : Type) (arr : list T) r a b, rng_ok arr r -> 0 <= a -> a <= b -> b <= r_end r - r_begin r ->
  (exists r', rng_slice arr r a b = Ok r' /\ rng_ok arr r' /\
     elems arr r' = firstn (Z.to_nat (b - a)) (skipn (Z.to_nat a) (elems arr r))) /\
  (exists r', rng_slice1 arr r a = Ok r' /\ rng_ok arr r' /\
     elems arr r' = skipn (Z.to_nat a) (elems arr r)).
Proof.
  intros T arr r a b K Ha Hb Hc. pose proof K as (A & B & C & D).
  unfold rng_slice, rng_slice1, alen. rewrite (rng_size_ok _ _ _ K). rewrite !to_diff_small by lia.
  rewrite !it_add_ok by lia. cbn [bind]. split; eexists; (split; [reflexivity|]); split.
  - unfold rng_ok; cbn [r_begin r_end]; lia.
  - apply elems_slice; assumption.
  - unfold rng_ok; cbn [r_begin r_end]; lia.
  - replace (r_begin r + (r_end r - r_begin r)) with (r_end r) by lia. apply elems_skip; [exact K|lia].
Qed.

Lemma c302_slice_outside :
  forall (T : Type) (arr : list T) r a b, rng_ok arr r -> 0 <= a -> a <= b < 2 ^ 63 -> r_end r - r_begin r < b ->
  (Z.of_nat (length arr) < r_begin r + b -> rng_slice arr r a b = UB) /\
  (r_begin r + b <= Z.of_nat (length arr) ->
     rng_slice arr r a b = Ok (mk_rng (r_begin r + a) (r_begin r + b))).
Proof.
  intros T arr r a b K Ha Hb Hc. pose proof K as (A & B & C & D).
  unfold rng_slice, alen. rewrite !to_diff_small by lia. split; intros H.
  - destruct (Z.le_gt_cases (r_begin r + a) (Z.of_nat (length arr))) as [L|L].
    + rewrite it_add_ok by lia. cbn [bind]. rewrite it_add_bad by lia. reflexivity.
    + rewrite it_add_bad by lia. reflexivity.
  - rewrite !it_add_ok by lia. reflexivity.
Qed.

Lemma c302_shrink_refuted :
  forall (T : Type) (arr : list T) r n, rng_ok arr r -> 0 <= n ->
  (n < r_end r - r_begin r -> exists r', rng_shrink arr r n = Ok r' /\
     elems arr r' = firstn (Z.to_nat (n + 1)) (elems arr r) /\ Z.of_nat (length (elems arr r')) = n + 1) /\
  (r_end r = Z.of_nat (length arr) -> n = r_end r - r_begin r -> rng_shrink arr r n = UB).
Proof.
  intros T arr r n K Hn. pose proof K as (A & B & C & D).
  unfold rng_shrink, alen. split.
  - intros H. rewrite to_diff_small by lia. rewrite it_add_ok by lia. cbn [bind].
    eexists. split; [reflexivity|].
    assert (E : elems arr (mk_rng (r_begin r) (r_begin r + (n + 1))) = firstn (Z.to_nat (n + 1)) (elems arr r)).
    { replace (mk_rng (r_begin r) (r_begin r + (n + 1))) with (mk_rng (r_begin r + 0) (r_begin r + (n + 1)))
        by (f_equal; lia).
      rewrite elems_slice by (try exact K; lia). cbn [Z.to_nat skipn]. f_equal. lia. }
    split; [exact E|]. rewrite E, firstn_length. pose proof (elems_length _ _ _ K). lia.
  - intros E ->. rewrite it_add_bad; [reflexivity|].
    destruct (Z.eq_dec (r_end r - r_begin r + 1) (2 ^ 63)) as [Q|Q].
    + assert (r_begin r = 0) as Z0 by lia. rewrite Q, Z0.
      change (to_diff (2 ^ 63)) with (- 2 ^ 63). lia.
    + rewrite to_diff_small by lia. lia.
Qed.

Lemma c302_access :
  forall (T : Type) (arr : list T) r, rng_ok arr r ->
  rng_size r = Z.of_nat (length (elems arr r)) /\
  (rng_empty r = true <-> elems arr r = []) /\
  (forall i x, 0 <= i -> nth_error (elems arr r) (Z.to_nat i) = Some x -> rng_at arr r i = Ok x) /\
  (forall x l, elems arr r = x :: l -> rng_front arr r = Ok x) /\
  (forall x l, elems arr r = l ++ [x] -> rng_back arr r = Ok x).
Proof.
  intros T arr r K. pose proof K as (A & B & C & D). pose proof (elems_length _ _ _ K) as EL.
  assert (AT : forall i x, 0 <= i -> nth_error (elems arr r) (Z.to_nat i) = Some x -> rng_at arr r i = Ok x).
  { intros i x Hi N. assert (L : (Z.to_nat i < length (elems arr r))%nat) by (apply nth_error_Some; congruence).
    rewrite elems_nth in N by (try exact K; lia). unfold rng_at, alen. rewrite it_add_ok by lia. cbn [bind].
    rewrite deref_ok by lia. unfold rd. rewrite N. reflexivity. }
  split; [rewrite (rng_size_ok _ _ _ K); lia|]. split; [|split; [exact AT|split]].
  - unfold rng_empty. split; intros H.
    + apply Z.eqb_eq in H. apply length_zero_iff_nil. lia.
    + rewrite H in EL. cbn in EL. apply Z.eqb_eq. lia.
  - intros x l E. unfold rng_front. pose proof (AT 0 x ltac:(lia)) as P. rewrite E in P.
    specialize (P eq_refl). unfold rng_at in P. rewrite it_add_ok in P by (unfold alen; lia).
    cbn [bind] in P. rewrite Z.add_0_r in P. exact P.
  - intros x l E. rewrite E, app_length in EL. cbn [length] in EL.
    pose proof (AT (Z.of_nat (length l)) x ltac:(lia)) as P. rewrite E, Nat2Z.id in P.
    rewrite nth_error_app2, Nat.sub_diag in P by lia. specialize (P eq_refl).
    unfold rng_back. rewrite (rng_size_ok _ _ _ K). rewrite to_diff_small by lia.
    replace (r_end r - r_begin r - 1) with (Z.of_nat (length l)) by lia. exact P.
Qed.

Lemma c302_back_of_empty_refuted :
  forall (T : Type) (arr : list T) b x, 0 < b <= Z.of_nat (length arr) -> Z.of_nat (length arr) < 2 ^ 63 ->
  nth_error arr (Z.to_nat (b - 1)) = Some x -> rng_back arr (mk_rng b b) = Ok x.
Proof.
  intros T arr b x Hb Hl N. unfold rng_back, rng_size. cbn [r_begin r_end]. rewrite Z.sub_diag.
  change (to_diff (to_size 0 - 1)) with (-1). unfold alen. rewrite it_add_ok by lia. cbn [bind].
  rewrite deref_ok by lia. unfold rd. replace (b + -1) with (b - 1) by lia. rewrite N. reflexivity.
Qed.

Lemma c302_safe_advance :
  forall (T : Type) (arr : list T) r checked n, rng_ok arr r -> 0 <= n < 2 ^ 63 ->
  exists r', rng_safe_advance arr checked r n = Ok r' /\ rng_ok arr r' /\ r_end r' = r_end r /\
    elems arr r' = skipn (Z.to_nat n) (elems arr r).
Proof.
  intros T arr r checked n K Hn. pose proof K as (A & B & C & D). unfold rng_safe_advance.
  replace (0 <=? n) with true by (symmetry; apply Z.leb_le; lia). cbn [negb].
  rewrite andb_false_r. destruct (Z.leb_spec n (r_end r - r_begin r)) as [L|L].
  - unfold rng_advance, alen. rewrite to_diff_small by lia. rewrite it_add_ok by lia. cbn [bind].
    eexists. split; [reflexivity|]. split; [unfold rng_ok; cbn [r_begin r_end]; lia|].
    split; [reflexivity|]. apply elems_skip; [exact K|lia].
  - eexists. split; [reflexivity|]. split; [unfold rng_ok; cbn [r_begin r_end]; lia|].
    split; [reflexivity|]. pose proof (elems_length _ _ _ K) as EL.
    rewrite skipn_all2 by lia. unfold elems. cbn [r_begin r_end]. rewrite Z.sub_diag. reflexivity.
Qed.

Lemma c302_move :
  forall (T : Type) (arr : list T) r, rng_ok arr r ->
  (forall checked x l, elems arr r = x :: l -> exists r', move_next arr checked r = Ok r' /\
     rng_ok arr r' /\ elems arr r' = l /\ move_back arr r' = Ok r) /\
  (elems arr r = [] -> move_next arr true r = Throw).
Proof.
  intros T arr r K. pose proof K as (A & B & C & D). pose proof (elems_length _ _ _ K) as EL. split.
  - intros checked x l E. rewrite E in EL. cbn [length] in EL. unfold move_next.
    replace (r_begin r =? r_end r) with false by (symmetry; apply Z.eqb_neq; lia). rewrite andb_false_r.
    unfold alen. rewrite it_inc_ok by lia. cbn [bind]. eexists. split; [reflexivity|].
    split; [unfold rng_ok; cbn [r_begin r_end]; lia|]. split.
    + rewrite (elems_skip _ arr r 1) by (try exact K; lia). rewrite E. reflexivity.
    + unfold move_back, alen. cbn [r_begin r_end]. rewrite it_dec_ok by lia. cbn [bind].
      replace (r_begin r + 1 - 1) with (r_begin r) by lia. destruct r; reflexivity.
  - intros E. rewrite E in EL. cbn in EL. unfold move_next.
    replace (r_begin r =? r_end r) with true by (symmetry; apply Z.eqb_eq; lia). reflexivity.
Qed.

Lemma c302_contents :
  forall (T : Type) (arr : list T) (eqb : T -> T -> bool) r fuel, rng_ok arr r -> (length arr < fuel)%nat -> decides eqb ->
  rng_as_vector arr fuel r = Ok (elems arr r) /\
  (forall key, exists found, rng_contains arr fuel eqb r key = Ok found /\ (found = true <-> In key (elems arr r))).
Proof.
  intros T arr eqb r fuel K Hf Dc. pose proof K as (A & B & C & D). split.
  - unfold rng_as_vector. rewrite (read_loop_ok T arr (Z.to_nat (r_end r - r_begin r))) by lia.
    destruct r; reflexivity.
  - intros key. unfold rng_contains.
    destruct (find_loop_ok T arr eqb key Dc (Z.to_nat (r_end r - r_begin r)) fuel (r_begin r) (r_end r)
      ltac:(lia) ltac:(lia) ltac:(lia) ltac:(lia)) as (q & R & Q).
    rewrite R. cbn [bind]. eexists. split; [reflexivity|].
    replace (mk_rng (r_begin r) (r_end r)) with r in Q by (destruct r; reflexivity).
    rewrite <- Q. destruct (Z.eqb_spec q (r_end r)) as [E|E]; cbn [negb]; split; congruence.
Qed.

Lemma c303_endless_refuted :
  forall fuel r, r_begin r <> r_end r ->
  to_reference_vector fuel (r_begin r) (r_end r) = OutOfFuel /\
  (forall (R : Type) (op : list Z -> res R), via_references fuel r op = OutOfFuel).
Proof.
  intros fuel r N. assert (E : to_reference_vector fuel (r_begin r) (r_end r) = OutOfFuel)
    by (apply to_reference_loop_endless; exact N).
  split; [exact E|]. intros R op. unfold via_references. rewrite E. reflexivity.
Qed.

Lemma c303_empty :
  forall fuel p, (0 < fuel)%nat -> to_reference_vector fuel p p = Ok [].
Proof.
  intros [|fuel] p H; [lia|]. unfold to_reference_vector. cbn [to_reference_loop].
  rewrite Z.eqb_refl. reflexivity.
Qed.

Lemma c303_compare :
  forall (T : Type) (eqb ltb leb : T -> T -> bool) (mem : Z -> T) a b, decides eqb ->
  (ref_eq eqb mem a b = true <-> mem a = mem b) /\
  (ref_ne eqb mem a b = true <-> mem a <> mem b) /\
  (ref_lt ltb mem a b = ltb (mem a) (mem b)) /\ (ref_gt ltb mem a b = ltb (mem b) (mem a)) /\
  (ref_le leb mem a b = leb (mem a) (mem b)) /\ (ref_ge leb mem a b = leb (mem b) (mem a)).
Proof.
  intros T eqb ltb leb mem a b Dc. unfold ref_eq, ref_ne. pose proof (Dc (mem a) (mem b)) as E.
  split; [exact E|]. split; [|repeat split].
  destruct (eqb (mem a) (mem b)); cbn [negb]; split; try congruence; intros H.
  - exfalso. apply H. apply E. reflexivity.
  - intros Q. apply E in Q. discriminate.
Qed.

Lemma c303_where :
  forall (T : Type) (pred : T -> bool) (l : list T),
  StronglySorted Z.lt (alg_where l 0 pred) /\
  (forall a, In a (alg_where l 0 pred) <->
     exists i x, nth_error l i = Some x /\ pred x = true /\ a = Z.of_nat i).
Proof.
  intros T pred l. split; [apply alg_where_sorted|]. intros a. rewrite alg_where_in.
  split; intros (i & x & N & P & E); exists i, x; (split; [exact N|]); (split; [exact P|]); lia.
Qed.

Lemma c304_erase_where :
  forall (T : Type) (pred : T -> bool) (v : list T),
  coll_erase pred v = Ok (filter (fun x => negb (pred x)) v) /\ coll_where pred v = Ok (filter pred v).
Proof.
  intros T pred v. split.
  - unfold coll_erase. apply coll_erase_gen_ok. intros kept x _ _. rewrite negb_involutive. reflexivity.
  - unfold coll_where, coll_erase. apply coll_erase_gen_ok. intros kept x _ _. reflexivity.
Qed.

Lemma c304_equal :
  forall (T : Type) (eqb : T -> T -> bool) (d : T) (v : list T) x,
  coll_erase_equal eqb d (Outside x) v = Ok (filter (fun y => negb (eqb x y)) v) /\
  coll_where_equal eqb d (Outside x) v = Ok (filter (fun y => eqb x y) v).
Proof.
  intros T eqb d v x. split.
  - unfold coll_erase_equal. apply coll_erase_gen_ok. intros kept y _ _. cbn [arg_value].
    rewrite negb_involutive. reflexivity.
  - unfold coll_where_equal. apply coll_erase_gen_ok. intros kept y _ _. reflexivity.
Qed.

Lemma c304_where_equal_element :
  forall (T : Type) (eqb : T -> T -> bool) (d : T) k (v : list T) c, decides eqb -> nth_error v k = Some c ->
  coll_where_equal eqb d (Element k) v = Ok (filter (fun x => eqb c x) v).
Proof.
  exact where_equal_elem.
Qed.

Lemma c304_erase_equal_element_refuted :
  forall (T : Type) (eqb : T -> T -> bool) (d x y : T), decides eqb -> x <> y ->
  coll_erase_equal eqb d (Element 0) [x; y; x] = Ok [y; x].
Proof.
  intros T eqb d x y Dc N.
  assert (A : eqb x x = true) by (apply Dc; reflexivity).
  assert (B : eqb x y = false) by (destruct (eqb x y) eqn:Q; [apply Dc in Q; congruence|reflexivity]).
  assert (C : eqb y x = false) by (destruct (eqb y x) eqn:Q; [apply Dc in Q; congruence|reflexivity]).
  unfold coll_erase_equal, coll_erase_gen. cbn. rewrite A. cbn. rewrite B. cbn. rewrite C. reflexivity.
Qed.

Lemma c304_unique :
  forall (T : Type) (eqb : T -> T -> bool) (v : list T), exists out,
  coll_unique eqb v = Ok out /\ run_heads eqb v out.
Proof.
  exact unique_run_heads.
Qed.
