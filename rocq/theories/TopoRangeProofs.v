(** Proofs about the topologically sorted ranges. *)
From Coq Require Import Lia.
From Verif Require Import Common CommonProofs Ints Graph SpecGraph GraphTopoProofs GraphEndProofs TopoRange SpecTopoRange.
Open Scope Z_scope.

Lemma t_move_ok : forall l p n, 0 <= p + n <= Z.of_nat (length l) -> t_move (TIter l p) n = Ok (TIter l (p + n)).
Proof.
  intros l p n L. unfold t_move. cbn [t_pos t_nodes].
  rewrite (proj2 (Z.leb_le _ _)), (proj2 (Z.leb_le _ _)) by lia. reflexivity.
Qed.

Lemma t_move_ub : forall l p n, ~ 0 <= p + n <= Z.of_nat (length l) -> t_move (TIter l p) n = UB.
Proof.
  intros l p n L. unfold t_move. cbn [t_pos t_nodes].
  destruct (Z.leb_spec 0 (p + n)); destruct (Z.leb_spec (p + n) (Z.of_nat (length l))); cbn; try reflexivity; lia.
Qed.

Lemma t_step_ok : forall l p o, 0 <= p <= Z.of_nat (length l) ->
  0 <= pos_result p o <= Z.of_nat (length l) -> 0 <= pos_after p o <= Z.of_nat (length l) ->
  t_step (TIter l p) o = Ok (TIter l (pos_result p o), TIter l (pos_after p o)).
Proof.
  intros l p o P R A. destruct o; cbn [pos_result pos_after t_step] in *;
    rewrite t_move_ok by lia; cbn [bind]; repeat f_equal; lia.
Qed.

Lemma t_step_ub : forall l p o, 0 <= p <= Z.of_nat (length l) ->
  ~ (0 <= pos_result p o <= Z.of_nat (length l) /\ 0 <= pos_after p o <= Z.of_nat (length l)) ->
  t_step (TIter l p) o = UB.
Proof.
  intros l p o P N. destruct o; cbn [pos_result pos_after t_step] in *;
    rewrite t_move_ub by lia; reflexivity.
Qed.

Lemma t_run_ok : forall l os p, 0 <= p <= Z.of_nat (length l) -> stays_in (Z.of_nat (length l)) p os ->
  t_run (TIter l p) os = Ok (map (TIter l) (positions p os), TIter l (final_pos p os)).
Proof.
  intros l os. induction os as [|o os IH]; intros p P St; [reflexivity|].
  destruct St as (R & A & St). cbn [t_run positions final_pos map].
  rewrite t_step_ok by assumption. cbn [bind]. rewrite IH by assumption. reflexivity.
Qed.

Lemma t_run_ub : forall l os p, 0 <= p <= Z.of_nat (length l) -> ~ stays_in (Z.of_nat (length l)) p os ->
  t_run (TIter l p) os = UB.
Proof.
  intros l os. induction os as [|o os IH]; intros p P St; [exfalso; apply St; exact Logic.I|].
  cbn [t_run].
  assert (D : (0 <= pos_result p o <= Z.of_nat (length l) /\ 0 <= pos_after p o <= Z.of_nat (length l)) \/
              ~ (0 <= pos_result p o <= Z.of_nat (length l) /\ 0 <= pos_after p o <= Z.of_nat (length l))) by lia.
  destruct D as [(R & A) | N].
  - rewrite t_step_ok by assumption. cbn [bind]. rewrite IH; [reflexivity | assumption |].
    intros H. apply St. cbn [stays_in]. auto.
  - rewrite t_step_ub by assumption. reflexivity.
Qed.

Lemma t_deref_app : forall pre x post, t_deref (TIter (pre ++ x :: post) (Z.of_nat (length pre))) = Ok x.
Proof.
  intros. unfold t_deref. cbn [t_pos t_nodes]. destruct (Z.ltb_spec (Z.of_nat (length pre)) 0); [lia|].
  rewrite Nat2Z.id. apply rd_some. rewrite nth_error_app2 by lia. rewrite Nat.sub_diag. reflexivity.
Qed.

Lemma t_ne_end : forall l p, t_ne (TIter l p) (t_end (t_begin l)) = negb (p =? Z.of_nat (length l)).
Proof. reflexivity. Qed.

Lemma t_loop_ok : forall post pre fuel acc, (length post <= fuel)%nat ->
  t_loop fuel (TIter (pre ++ post) (Z.of_nat (length pre))) (t_end (t_begin (pre ++ post))) acc = Ok (acc ++ post).
Proof.
  induction post as [|x post IH]; intros pre fuel acc F.
  - rewrite app_nil_r. destruct fuel; cbn [t_loop]; unfold t_ne, t_end, t_begin; cbn [t_pos t_nodes];
      rewrite app_nil_r, Z.eqb_refl; reflexivity.
  - cbn [length] in F. destruct fuel as [|fuel]; [lia|]. cbn [t_loop].
    rewrite t_ne_end.
    rewrite (proj2 (Z.eqb_neq _ _)) by (rewrite app_length; cbn [length]; lia). cbn [negb].
    rewrite t_deref_app. cbn [bind]. cbn [t_step].
    rewrite t_move_ok by (rewrite app_length; cbn [length]; lia). cbn [bind].
    replace (pre ++ x :: post) with ((pre ++ [x]) ++ post) by (rewrite <- app_assoc; reflexivity).
    replace (Z.of_nat (length pre) + 1) with (Z.of_nat (length (pre ++ [x]))) by (rewrite app_length; cbn [length]; lia).
    rewrite IH by lia. rewrite <- app_assoc. reflexivity.
Qed.

Lemma forward_loop_ok : forall tr fuel, (length tr <= fuel)%nat -> forward_loop fuel (make_range tr) = Ok tr.
Proof. intros tr fuel F. exact (t_loop_ok tr [] fuel [] F). Qed.

Lemma reverse_loop_ub : forall tr fuel, tr <> [] -> (1 <= fuel)%nat -> reverse_loop fuel (make_range tr) = UB.
Proof.
  intros tr fuel N F. destruct fuel as [|fuel]; [lia|]. destruct tr as [|x tr]; [contradiction|].
  unfold reverse_loop, make_range, t_begin, t_end. cbn [tr_first tr_last t_rloop t_nodes].
  unfold t_ne. cbn [t_pos]. rewrite (proj2 (Z.eqb_neq _ _)) by (cbn [length]; lia). cbn [negb].
  rewrite t_move_ub by lia. reflexivity.
Qed.

(** * The statements of the properties *)

Lemma c345_loop :
  forall (T : Type) ord ordr ordc dbg (g : graph T) a,
  any_order ord -> (forall k, any_order (ordr k)) -> (forall k, any_order (ordc k)) -> built dbg g a ->
  forall fuel, g_size g <= Z.of_nat fuel ->
  exists tr r, graph_range ord ordr ordc dbg g fuel = Ok r /\
    NoDup tr /\ parents_first a tr /\
    (forall x, In x tr <-> a_has a x = true /\ forall c, reaches a c x -> ~ on_cycle a c) /\
    tr_size r = Z.of_nat (length tr) /\ (tr_empty r = true <-> tr = []) /\
    forall k, (length tr <= k)%nat -> forward_loop k r = Ok tr.
Proof.
  intros T ord ordr ordc dbg g a O1 O2 O3 B fuel F.
  destruct (@topo_built T ord ordr ordc dbg g a O1 O2 O3 B fuel F) as (tr & Et & N & P & H).
  exists tr, (make_range tr). unfold graph_range. rewrite Et. cbn [bind].
  split; [reflexivity|]. split; [assumption|]. split; [assumption|]. split; [assumption|].
  split; [unfold tr_size, t_size, make_range, t_begin; cbn [tr_first t_nodes t_pos]; lia|].
  split; [|intros k K; now apply forward_loop_ok].
  unfold tr_empty, t_empty, make_range, t_begin. cbn [tr_first t_nodes t_pos].
  destruct tr; cbn [length]; [split; reflexivity|]. rewrite Z.eqb_eq. split; [lia | discriminate].
Qed.

Lemma c345_moves :
  forall nodes p os, 0 <= p <= Z.of_nat (length nodes) ->
  (stays_in (Z.of_nat (length nodes)) p os ->
     t_run (TIter nodes p) os = Ok (map (TIter nodes) (positions p os), TIter nodes (final_pos p os))) /\
  (~ stays_in (Z.of_nat (length nodes)) p os -> t_run (TIter nodes p) os = UB).
Proof.
  intros nodes p os P. split; intros St; [now apply t_run_ok | now apply t_run_ub].
Qed.

Lemma c345_read :
  forall nodes p q x, 0 <= p -> 0 <= q ->
  (t_deref (TIter nodes p) = Ok x <-> nth_error nodes (Z.to_nat p) = Some x) /\
  (Z.of_nat (length nodes) <= p -> t_deref (TIter nodes p) = UB) /\
  t_size (TIter nodes p) = Z.of_nat (length nodes) - p /\ (t_empty (TIter nodes p) = true <-> p = Z.of_nat (length nodes)) /\
  (t_eq (TIter nodes p) (TIter nodes q) = true <-> p = q) /\ (t_ne (TIter nodes p) (TIter nodes q) = true <-> p <> q) /\
  (t_lt (TIter nodes p) (TIter nodes q) = true <-> p < q) /\ (t_le (TIter nodes p) (TIter nodes q) = true <-> p <= q) /\
  (t_gt (TIter nodes p) (TIter nodes q) = true <-> q < p) /\ (t_ge (TIter nodes p) (TIter nodes q) = true <-> q <= p).
Proof.
  intros nodes p q x P Q. unfold t_deref, t_size, t_empty, t_eq, t_ne, t_lt, t_le, t_gt, t_ge. cbn [t_pos t_nodes].
  destruct (Z.ltb_spec p 0) as [L | _]; [lia|].
  split; [unfold rd; destruct (nth_error nodes (Z.to_nat p)); split; congruence|].
  split; [intros L; unfold rd; rewrite (proj2 (nth_error_None _ _)) by lia; reflexivity|].
  split; [reflexivity|]. rewrite negb_true_iff. lia.
Qed.

Lemma c346_rbegin_partial :
  forall (T : Type) ord ordr ordc dbg (g : graph T) a,
  any_order ord -> (forall k, any_order (ordr k)) -> (forall k, any_order (ordc k)) -> built dbg g a ->
  forall fuel, g_size g <= Z.of_nat fuel ->
  exists tr r, graph_range ord ordr ordc dbg g fuel = Ok r /\
    topological_sorted_walk ord ordr ordc dbg g fuel = Ok tr /\
    (forall k, (length tr <= k)%nat -> reverse_rloop k r = Ok tr) /\
    (tr = [] -> forall k, forward_rloop k r = Ok [] /\ reverse_loop k r = Ok []).
Proof.
  intros T ord ordr ordc dbg g a O1 O2 O3 B fuel F.
  destruct (@topo_built T ord ordr ordc dbg g a O1 O2 O3 B fuel F) as (tr & Et & N & P & H).
  exists tr, (make_range tr). unfold graph_range. rewrite Et. cbn [bind].
  split; [reflexivity|]. split; [reflexivity|]. split; [intros k K; exact (forward_loop_ok tr k K)|].
  intros -> k. destruct k; split; reflexivity.
Qed.

Lemma c346_reverse_refuted :
  forall (T : Type) ord ordr ordc dbg (g : graph T) a,
  any_order ord -> (forall k, any_order (ordr k)) -> (forall k, any_order (ordc k)) -> built dbg g a ->
  forall fuel, g_size g <= Z.of_nat fuel ->
  (exists x, a_has a x = true /\ forall c, reaches a c x -> ~ on_cycle a c) ->
  exists r, graph_range ord ordr ordc dbg g fuel = Ok r /\
    forall k, (1 <= k)%nat -> forward_rloop k r = UB /\ reverse_loop k r = UB.
Proof.
  intros T ord ordr ordc dbg g a O1 O2 O3 B fuel F (x & Hx).
  destruct (@topo_built T ord ordr ordc dbg g a O1 O2 O3 B fuel F) as (tr & Et & N & P & H).
  exists (make_range tr). unfold graph_range. rewrite Et. cbn [bind]. split; [reflexivity|].
  assert (NE : tr <> []) by (intros ->; apply (H x); exact Hx).
  intros k K. split; exact (reverse_loop_ub tr k NE K).
Qed.
