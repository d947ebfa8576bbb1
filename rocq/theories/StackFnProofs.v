(** Proofs about StackFn.v. *)
From Coq Require Import ZifyBool.
From Verif Require Import Common CommonProofs SharedFnProofs StackFn SpecStackFn.
Open Scope Z_scope.

Lemma map_put {A B} (f : A -> B) l : forall i x, map f (upd l i x) = upd (map f l) i (f x).
Proof. induction l as [|a l IH]; intros [|i] x; cbn; auto. now rewrite IH. Qed.
Lemma upd_none {A} (l : list A) i x : nth_error l i = None -> upd l i x = l.
Proof. revert i. induction l as [|a l IH]; intros [|i] E; cbn in *; try discriminate; auto. now rewrite IH. Qed.

(** * Plain callables *)
Definition plain_content (c : option content) : Prop :=
  match c with
  | Some (COwn c) => c_res c = None /\ c_empty c = false
  | Some (CRef _) => False
  | _ => True
  end.
Definition plain_world (w : fworld) (v : fvalues) : Prop := Forall plain_content (funs w) /\ map shown (funs w) = v.

Lemma plain_upd l i c : Forall plain_content l -> plain_content c -> Forall plain_content (upd l i c).
Proof. intros H P. revert i. induction H; intros [|i]; cbn; constructor; auto. Qed.
Lemma plain_set w v f c : plain_world w v -> plain_content c -> plain_world (set_fun w f c) (upd v f (shown c)).
Proof. intros (P & E) Pc. split; cbn [set_fun funs]; [now apply plain_upd|]. now rewrite map_put, E. Qed.

Lemma plain_at w v f : plain_world w v ->
  match nth_error v f with
  | Some None => nth_error (funs w) f = Some None
  | Some (Some None) => nth_error (funs w) f = Some (Some CEmpty)
  | Some (Some (Some st)) => nth_error (funs w) f = Some (Some (COwn (Callable false st None)))
  | None => nth_error (funs w) f = None
  end.
Proof.
  intros (P & <-). rewrite nth_error_map. destruct (nth_error (funs w) f) as [c|] eqn:E; cbn [option_map]; auto.
  assert (Pc : plain_content c) by (rewrite Forall_forall in P; apply P; eapply nth_error_In; eauto).
  destruct c as [[|[e st r]|o]|]; cbn in *; auto; [|contradiction]. destruct Pc as (-> & ->). reflexivity.
Qed.
Lemma plain_clean w (v : fvalues) c : plain_content (Some c) -> clean w c = Ok w.
Proof. intros H. destruct c as [|[e st r]|o]; cbn in *; auto. destruct H as (-> & _). reflexivity. Qed.
Lemma plain_store w e st : exists c, store_temp w e st false = Ok (w, c) /\ plain_content (Some c) /\ shown (Some c) = Some (of_temp e st).
Proof. unfold store_temp. cbn. destruct e; cbn; eexists; repeat split. Qed.

Section Calls.
  Variable act : Z -> Z -> Z * Z.
  Variable look : Z -> Z -> Z.
  Notation step := (fn_step act look).
  Notation run := (fn_run act look).

  Lemma plain_replace w v f x c : plain_world w v -> nth_error (funs w) f = Some (Some x) -> plain_content (Some x) -> plain_content (Some c) ->
    replace w f c = Ok (set_fun w f (Some c)).
  Proof. intros P E Px Pc. unfold replace, fun_at. rewrite E. cbn [bind]. now rewrite (plain_clean w v x Px). Qed.

  Lemma value_step_ok w v op : plain_world w v -> plain op ->
    match value_step act look v op with
    | Some (v', y) => exists w', step w op = Ok (w', y) /\ plain_world w' v'
    | None => step w op = Throw
    end.
  Proof.
    intros P Po. destruct op; cbn [plain] in Po; try contradiction; cbn [value_step fn_step]; unfold no_fun, fun_at.
    - subst. pose proof (plain_at w v f P) as F. destruct (nth_error v f) as [[[s|]|]|] eqn:Ev; rewrite F; cbn [bind]; auto.
      destruct (plain_store w e st) as (c & -> & Pc & Sc). cbn [bind]. eexists. split; [reflexivity|]. rewrite <- Sc. now apply plain_set.
    - pose proof (plain_at w v f P) as F. destruct (nth_error v f) as [[[s|]|]|] eqn:Ev; rewrite F; cbn [bind]; auto.
      eexists. split; [reflexivity|]. apply (plain_set w v f (Some CEmpty)); auto; constructor.
    - pose proof (plain_at w v f P) as F. pose proof (plain_at w v g P) as G.
      destruct (nth_error v f) as [[[s|]|]|] eqn:Ev; rewrite F; cbn [bind]; auto;
      destruct (nth_error v g) as [[[s'|]|]|] eqn:Ev'; rewrite G; cbn [bind]; auto.
      + eexists. split; [reflexivity|]. apply (plain_set w v f (Some (COwn (Callable false s' None)))); auto; now split.
      + eexists. split; [reflexivity|]. apply (plain_set w v f (Some CEmpty)); auto; constructor.
    - pose proof (plain_at w v f P) as F. pose proof (plain_at w v g P) as G.
      destruct (Nat.eqb_spec f g) as [->|D].
      + destruct (nth_error v g) as [[[s'|]|]|] eqn:Ev'; rewrite G; cbn [bind]; auto; exists w; (split; [reflexivity|]); rewrite upd_back; auto.
      + unfold replace, fun_at. destruct (nth_error v f) as [[[s|]|]|] eqn:Ev; rewrite F; cbn [bind];
        destruct (nth_error v g) as [[[s'|]|]|] eqn:Ev'; rewrite ?G; cbn [bind clean destroy_callable c_res done]; auto; (eexists; split; [reflexivity|]).
        1, 3: apply (plain_set w v f (Some (COwn (Callable false s' None)))); auto; now split.
        all: apply (plain_set w v f (Some CEmpty)); auto; constructor.
    - subst. pose proof (plain_at w v f P) as F.
      destruct (nth_error v f) as [[[s|]|]|] eqn:Ev; rewrite F; cbn [bind]; auto;
        destruct (plain_store w e st) as (c & -> & Pc & Sc); cbn [bind]; rewrite (plain_replace w v f _ c P F); cbn; auto;
        rewrite (plain_clean _ v c Pc); cbn; (eexists; split; [reflexivity|]); rewrite <- Sc; now apply plain_set.
    - pose proof (plain_at w v f P) as F. destruct (nth_error v f) as [[[s|]|]|] eqn:Ev; rewrite F; cbn [bind]; auto;
        cbn [clean destroy_callable c_res bind]; (eexists; split; [reflexivity|]); apply (plain_set w v f None); auto; constructor.
    - unfold call_fn, fun_at. pose proof (plain_at w v f P) as F. destruct (nth_error v f) as [[[s|]|]|] eqn:Ev; rewrite F; cbn [bind]; auto.
      + cbn. destruct (act s x) as (st', y) eqn:A. cbn. eexists. split; [reflexivity|].
        apply (plain_set w v f (Some (COwn (Callable false st' None)))); auto; now split.
      + cbn. exists w. auto.
    - unfold call_const, fun_at. pose proof (plain_at w v f P) as F. destruct (nth_error v f) as [[[s|]|]|] eqn:Ev; rewrite F; cbn [bind]; auto; cbn; eauto.
  Qed.

  Lemma value_run_ok ops : forall w v, plain_world w v -> Forall plain ops ->
    match value_run act look v ops with
    | Some (v', ys) => exists w', run w ops = Ok (w', ys) /\ plain_world w' v'
    | None => run w ops = Throw
    end.
  Proof.
    induction ops as [|op ops IH]; intros w v P F; cbn [value_run fn_run]; [eauto|].
    inversion F as [|? ? Fo Fs]. subst. pose proof (value_step_ok w v op P Fo) as H.
    destruct (value_step act look v op) as [(v', y)|].
    - destruct H as (w' & -> & P'). cbn [bind]. specialize (IH w' v' P' Fs). destruct (value_run act look v' ops) as [(v'', ys)|].
      + destruct IH as (w'' & -> & P''). cbn [bind]. eauto.
      + rewrite IH. reflexivity.
    - rewrite H. reflexivity.
  Qed.

  Lemma start_plain n m : plain_world (fn_start n m) (repeat None m).
  Proof.
    split; cbn [fn_start funs].
    - apply Forall_forall. intros x H. apply repeat_spec in H. subst. exact Logic.I.
    - induction m; cbn; auto. now rewrite IHm.
  Qed.

  (** * Resources *)
  Definition cR (k : nat) (c : callable) : nat := match c_res c with Some x => b2n (x =? k)%nat | None => 0 end.
  Definition fR (k : nat) (c : option content) : nat := match c with Some (COwn c) => cR k c | _ => 0 end.
  Definition oR (k : nat) (c : option callable) : nat := match c with Some c => cR k c | None => 0 end.
  Definition sumF (w : fworld) k : nat := (cnt (fR k) (funs w) + cnt (oR k) (objs w))%nat.
  Definition no_ref (c : option content) : Prop := match c with Some (CRef _) => False | _ => True end.
  Record finv (n m : nat) (w : fworld) : Prop := {
    f_n : length (objs w) = n;
    f_m : length (funs w) = m;
    f_ref : Forall no_ref (funs w);
    f_res : forall k, sumF w k = match nth_error (live w) k with Some true => 1 | _ => 0 end%nat
  }.
  (** The same while a callable with resources [x] is outside of the variables. *)
  Definition finv_with (n m : nat) (w : fworld) (c : callable) : Prop :=
    length (objs w) = n /\ length (funs w) = m /\ Forall no_ref (funs w) /\
    forall k, (sumF w k + cR k c)%nat = match nth_error (live w) k with Some true => 1 | _ => 0 end%nat.

  Lemma cR_self c k : c_res c = Some k -> cR k c = 1%nat.
  Proof. unfold cR. intros ->. now rewrite eqb_refl_b. Qed.

  Lemma destroy_ok n m w c : finv_with n m w c -> exists w', destroy_callable w c = Ok w' /\ finv n m w' /\ funs w' = funs w /\ objs w' = objs w.
  Proof.
    intros (N & M & R & H). unfold destroy_callable. destruct (c_res c) as [k|] eqn:E.
    - pose proof (H k) as Hk. rewrite (cR_self c k E) in Hk. destruct (nth_error (live w) k) as [[|]|] eqn:L; try lia.
      eexists. split; [reflexivity|]. split; [|auto]. split; cbn [objs funs live]; auto. intros k'. specialize (H k').
      change (sumF (FWorld (objs w) (funs w) (upd (live w) k false)) k') with (sumF w k'). rewrite nth_upd.
      unfold cR in H. rewrite E in H. destruct (Nat.eqb_spec k k') as [e|D]; [subst k'|].
      + rewrite L in *. cbn [b2n] in H. lia.
      + cbn [b2n] in H. lia.
    - eexists. split; [reflexivity|]. split; [|auto]. split; auto. intros k. specialize (H k). unfold cR in H. rewrite E in H. lia.
  Qed.

  Lemma new_ok n m w e st r : finv n m w -> finv_with n m (fst (new_callable w e st r)) (snd (new_callable w e st r)) /\
    funs (fst (new_callable w e st r)) = funs w /\ objs (fst (new_callable w e st r)) = objs w /\
    (r = false -> c_res (snd (new_callable w e st r)) = None).
  Proof.
    intros [N M R H]. unfold new_callable. destruct r; cbn [fst snd funs objs]; 
    [|split; [split; [exact N|split; [exact M|split; [exact R|intros k; specialize (H k); cbn; lia]]]|auto]].
    split; [|split; [auto|split; [auto|discriminate]]]. unfold finv_with. cbn [objs funs live]. repeat split; auto. intros k. specialize (H k).
    change (sumF (FWorld (objs w) (funs w) (live w ++ [true])) k) with (sumF w k). unfold cR. cbn [c_res].
    destruct (Nat.eqb_spec (length (live w)) k) as [<-|D].
    - rewrite nth_error_app2 by lia. rewrite Nat.sub_diag. cbn. assert (nth_error (live w) (length (live w)) = None) by (apply nth_error_None; lia).
      rewrite H0 in H. lia.
    - cbn [b2n]. destruct (Nat.lt_ge_cases k (length (live w))) as [L|L].
      + rewrite nth_error_app1 by lia. lia.
      + assert (nth_error (live w) k = None) by (apply nth_error_None; lia). rewrite H0 in H.
        assert (nth_error (live w ++ [true]) k = None) by (apply nth_error_None; rewrite app_length; cbn; lia). rewrite H1. lia.
  Qed.

  Lemma Forall_put {A} (P : A -> Prop) l i x : Forall P l -> P x -> Forall P (upd l i x).
  Proof. intros H Px. revert i. induction H; intros [|i]; cbn; constructor; auto. Qed.

  (** A callable leaves or enters a variable. *)
  Lemma take_fun n m w f x y : finv n m w -> nth_error (funs w) f = Some x -> no_ref y -> (forall k, fR k y = 0%nat) ->
    forall c, (forall k, fR k x = cR k c) -> finv_with n m (set_fun w f y) c.
  Proof.
    intros [N M R H] E Ny Zy c Ec. unfold finv_with, set_fun. cbn [objs funs live]. rewrite upd_length. repeat split; auto; [now apply Forall_put|].
    intros k. specialize (H k). unfold sumF in *. cbn [funs objs]. pose proof (cnt_upd (fR k) _ _ _ y E) as U. rewrite (Zy k), (Ec k) in U. lia.
  Qed.
  Lemma put_fun n m w f x c : finv_with n m w c -> nth_error (funs w) f = Some x -> (forall k, fR k x = 0%nat) ->
    forall y, no_ref y -> (forall k, fR k y = cR k c) -> finv n m (set_fun w f y).
  Proof.
    intros (N & M & R & H) E Zx y Ny Ec. unfold set_fun. split; cbn [objs funs live]; rewrite ?upd_length; auto; [now apply Forall_put|].
    intros k. specialize (H k). unfold sumF in *. cbn [funs objs]. pose proof (cnt_upd (fR k) _ _ _ y E) as U. rewrite (Zx k), (Ec k) in U. lia.
  Qed.
  Lemma same_fun n m w f x y : finv n m w -> nth_error (funs w) f = Some x -> no_ref y -> (forall k, fR k x = fR k y) -> finv n m (set_fun w f y).
  Proof.
    intros [N M R H] E Ny Ec. unfold set_fun. split; cbn [objs funs live]; rewrite ?upd_length; auto; [now apply Forall_put|].
    intros k. specialize (H k). unfold sumF in *. cbn [funs objs]. pose proof (cnt_upd (fR k) _ _ _ y E) as U. rewrite (Ec k) in U. lia.
  Qed.
  Lemma obj_change n m w o x y c : finv_with n m w c -> nth_error (objs w) o = Some x ->
    (forall k, oR k x = 0%nat) -> (forall k, oR k y = cR k c) -> finv n m (set_obj w o y).
  Proof.
    intros (N & M & R & H) E Zx Ec. unfold set_obj. split; cbn [objs funs live]; rewrite ?upd_length; auto.
    intros k. specialize (H k). unfold sumF in *. cbn [funs objs]. pose proof (cnt_upd (oR k) _ _ _ y E) as U. rewrite (Zx k), (Ec k) in U. lia.
  Qed.
  Lemma obj_same n m w o x y : finv n m w -> nth_error (objs w) o = Some x -> (forall k, oR k x = oR k y) -> finv n m (set_obj w o y).
  Proof.
    intros [N M R H] E Ec. unfold set_obj. split; cbn [objs funs live]; rewrite ?upd_length; auto.
    intros k. specialize (H k). unfold sumF in *. cbn [funs objs]. pose proof (cnt_upd (oR k) _ _ _ y E) as U. rewrite (Ec k) in U. lia.
  Qed.
  Lemma obj_take n m w o c : finv n m w -> nth_error (objs w) o = Some (Some c) -> finv_with n m (set_obj w o None) c.
  Proof.
    intros [N M R H] E. unfold finv_with, set_obj. cbn [objs funs live]. rewrite upd_length. repeat split; auto.
    intros k. specialize (H k). unfold sumF in *. cbn [funs objs]. pose proof (cnt_upd (oR k) _ _ _ None E) as U. cbn [oR] in U. lia.
  Qed.

  Definition plainc : callable := Callable false 0 None.
  Lemma finv_plain n m w : finv n m w <-> finv_with n m w plainc.
  Proof.
    split.
    - intros [N M R H]. repeat split; auto. intros k. specialize (H k). cbn. lia.
    - intros (N & M & R & H). split; auto. intros k. specialize (H k). cbn in H. lia.
  Qed.

  (** The content of a function is cleaned. *)
  Lemma clean_ok n m w f x : finv n m w -> nth_error (funs w) f = Some (Some x) ->
    exists w', clean w x = Ok w' /\ funs w' = funs w /\ objs w' = objs w /\ forall y, no_ref y -> (forall k, fR k y = 0%nat) -> finv n m (set_fun w' f y).
  Proof.
    intros Iv E. destruct x as [|c|o]; cbn [clean].
    - exists w. repeat split; auto; try (eapply same_fun; eauto; intros k; rewrite H0; reflexivity).
    - pose proof (take_fun n m w f (Some (COwn c)) None Iv E Logic.I (fun _ => eq_refl) c (fun _ => eq_refl)) as T.
      destruct (destroy_ok n m _ c T) as (w' & Ew & I' & F' & O').
      unfold destroy_callable in *. cbn [set_fun live objs funs] in Ew. destruct (c_res c) as [k|].
      + destruct (nth_error (live w) k) as [[|]|] eqn:L; try discriminate. eexists. split; [reflexivity|]. repeat split; auto.
        * inversion Ew. subst w'. destruct I'. cbn [set_fun objs funs live] in *. auto.
        * cbn [set_fun funs]. rewrite upd_length. destruct Iv; auto.
        * cbn [set_fun funs]. apply Forall_put; auto. destruct Iv; auto.
        * inversion Ew. subst w'. destruct I' as [_ _ _ Hr]. intros k'. specialize (Hr k'). cbn [set_fun live] in *. rewrite <- Hr.
          unfold sumF, set_fun. cbn [funs objs]. pose proof (cnt_upd (fR k') _ _ _ y E). pose proof (cnt_upd (fR k') _ _ _ None E). rewrite H0 in H1. cbn [fR] in H1, H2. lia.
      + exists w. repeat split; auto.
        * destruct Iv; auto.
        * cbn [set_fun funs]. rewrite upd_length. destruct Iv; auto.
        * cbn [set_fun funs]. apply Forall_put; auto. destruct Iv; auto.
        * inversion Ew. subst w'. destruct I' as [_ _ _ Hr]. intros k'. specialize (Hr k'). cbn [set_fun live] in *. rewrite <- Hr.
          unfold sumF, set_fun. cbn [funs objs]. pose proof (cnt_upd (fR k') _ _ _ y E). pose proof (cnt_upd (fR k') _ _ _ None E). rewrite H0 in H1. cbn [fR] in H1, H2. lia.
    - destruct Iv as [_ _ R _]. rewrite Forall_forall in R. destruct (R (Some (CRef o))). eapply nth_error_In; eauto.
  Qed.

  Lemma fR_none_res w f c : no_resource w f -> nth_error (funs w) f = Some c -> forall k, fR k c = 0%nat.
  Proof.
    intros H E k. destruct c as [[|x|o]|]; cbn; auto. unfold cR. destruct (c_res x) as [y|] eqn:R; auto.
    exfalso. apply (H _ y E). exists x. auto.
  Qed.
  Lemma ref_no n m w f x : finv n m w -> nth_error (funs w) f = Some x -> no_ref x.
  Proof. intros [_ _ R _] E. rewrite Forall_forall in R. apply R. eapply nth_error_In; eauto. Qed.
  Lemma own_usable n m w f c : finv n m w -> nth_error (funs w) f = Some (Some (COwn c)) -> usable w c = true.
  Proof.
    intros [_ _ _ H] E. unfold usable. destruct (c_res c) as [k|] eqn:R; auto. specialize (H k).
    pose proof (cnt_ge (fR k) _ _ _ E) as G. cbn [fR] in G. rewrite (cR_self c k R) in G. unfold sumF in H.
    destruct (nth_error (live w) k) as [[|]|]; auto; lia.
  Qed.
  Lemma replace_ok n m w f x c : finv n m w -> nth_error (funs w) f = Some (Some x) -> no_ref (Some c) -> (forall k, fR k (Some c) = 0%nat) ->
    exists w', replace w f c = Ok w' /\ finv n m w' /\ nth_error (funs w') f = Some (Some c).
  Proof.
    intros Iv E Nc Zc. unfold replace, fun_at. rewrite E. cbn [bind]. destruct (clean_ok n m w f x Iv E) as (w' & -> & F & O & H). cbn [bind].
    eexists. split; [reflexivity|]. split; [now apply H|]. cbn [set_fun funs]. rewrite nth_upd, Nat.eqb_refl, F, E. reflexivity.
  Qed.
  Lemma store_temp_ok n m w e st r : finv n m w ->
    exists w' c, store_temp w e st r = Ok (w', c) /\ funs w' = funs w /\ no_ref (Some c) /\
      (forall f, nth_error (funs w) f = Some None -> finv n m (set_fun w' f (Some c))) /\
      (e = true \/ r = false -> finv n m w' /\ forall k, fR k (Some c) = 0%nat) /\
      (e = false -> c = COwn (snd (new_callable w e st r)) /\ w' = fst (new_callable w e st r)).
  Proof.
    intros Iv. unfold store_temp. destruct (new_ok n m w e st r Iv) as (NO & F & O & Z).
    destruct (new_callable w e st r) as (w1, c) eqn:EN. cbn [fst snd] in *. destruct e.
    - destruct (destroy_ok n m w1 c NO) as (w' & -> & I' & F' & O'). cbn [bind]. exists w', CEmpty. split; [reflexivity|]. split; [congruence|]. split; [exact Logic.I|]. split; [|split; [auto|discriminate]].
      intros f E. rewrite <- F, <- F' in E. eapply same_fun; eauto; exact Logic.I.
    - exists w1, (COwn c). split; [reflexivity|]. split; [exact F|]. split; [exact Logic.I|]. split; [|split].
      + intros f E. rewrite <- F in E. apply (put_fun n m w1 f None c NO E); cbn; auto.
      + intros [?|R]; [discriminate|]. specialize (Z R). split; [|intros k; cbn [fR]; unfold cR; now rewrite Z].
        apply finv_plain. destruct NO as (N & M & RR & H). repeat split; auto. intros k. specialize (H k). unfold cR in H. rewrite Z in H. cbn. lia.
      + auto.
  Qed.

  Lemma careful_ok n m w op : finv n m w -> careful w op ->
    match step w op with Ok (w', _) => finv n m w' | Throw => True | _ => False end.
  Proof.
    intros Iv C. destruct op; cbn [fn_step careful] in *; try contradiction.
    - destruct (nth_error (objs w) o) as [[c|]|] eqn:E; auto. destruct (new_ok n m w e st r Iv) as (NO & F & O & Z).
      destruct (new_callable w e st r) as (w1, c). cbn [fst snd] in *. rewrite <- O in E. eapply obj_change; eauto.
    - unfold obj_at. destruct (nth_error (objs w) o) as [[c|]|] eqn:E; cbn [bind]; auto. eapply obj_same; eauto.
    - unfold obj_at. destruct (nth_error (objs w) o) as [[c|]|] eqn:E; cbn [bind]; auto.
      destruct (destroy_ok n m _ c (obj_take n m w o c Iv E)) as (w' & Ew & I' & F' & O').
      unfold destroy_callable in *. cbn [set_obj live] in Ew. destruct (c_res c) as [k|]; [destruct (nth_error (live w) k) as [[|]|]; try discriminate|];
        cbn [bind]; inversion Ew; subst w'; exact I'.
    - unfold no_fun. destruct (nth_error (funs w) f) as [[c|]|] eqn:E; cbn [bind]; auto.
      destruct (store_temp_ok n m w e st r Iv) as (w' & c & -> & F & Nc & H & _). cbn [bind]. now apply H.
    - unfold no_fun. destruct (nth_error (funs w) f) as [[c|]|] eqn:E; cbn [bind]; auto. eapply same_fun; eauto; exact Logic.I.
    - unfold no_fun, fun_at. destruct (nth_error (funs w) f) as [[c|]|] eqn:E; cbn [bind]; auto.
      destruct (nth_error (funs w) g) as [[c|]|] eqn:E'; cbn [bind]; auto. eapply same_fun; eauto; [eapply ref_no; eauto|].
      intros k. rewrite (fR_none_res w g _ C E'). reflexivity.
    - unfold fun_at. destruct (nth_error (funs w) g) as [[c|]|] eqn:E'; cbn [bind]; auto.
      destruct (Nat.eqb_spec f g) as [->|D]; auto. destruct C as [C|C]; [congruence|]. unfold done.
      destruct (nth_error (funs w) f) as [[x|]|] eqn:E; try (unfold replace, fun_at; rewrite E; exact Logic.I).
      destruct (replace_ok n m w f x c Iv E) as (w' & -> & I' & _); auto; [eapply ref_no; eauto|].
      intros k. now rewrite (fR_none_res w g _ C E').
    - unfold fun_at. destruct (nth_error (funs w) f) as [[x|]|] eqn:E; cbn [bind]; auto.
      destruct (store_temp_ok n m w e st r Iv) as (w' & c & -> & F & Nc & _ & H & _). cbn [bind]. destruct (H C) as (I' & Z').
      rewrite <- F in E. destruct (replace_ok n m w' f x c I' E Nc Z') as (w2 & -> & I2 & E2). cbn [bind]. unfold done.
      destruct (clean_ok n m w2 f c I2 E2) as (w3 & -> & F3 & O3 & H3). cbn [bind].
      pose proof (H3 (Some c) Nc Z') as I3.
      assert (Q : set_fun w3 f (Some c) = w3) by (unfold set_fun; rewrite upd_back by congruence; destruct w3; reflexivity). now rewrite Q in I3.
    - unfold fun_at. destruct (nth_error (funs w) f) as [[x|]|] eqn:E; cbn [bind]; auto.
      destruct (clean_ok n m w f x Iv E) as (w' & -> & F & O & H). cbn [bind]. apply H; cbn; auto.
    - unfold call_fn, fun_at. destruct (nth_error (funs w) f) as [[c|]|] eqn:E; cbn [bind]; auto.
      destruct c as [|c|o]; cbn [callable_of bind]; auto.
      + rewrite (own_usable n m w f c Iv E). cbn [negb]. destruct (c_empty c) eqn:Ce; auto. destruct (act (c_state c) x) as (st', y).
        eapply same_fun; eauto; exact Logic.I.
      + destruct (ref_no n m w f _ Iv E).
    - unfold call_const, fun_at. destruct (nth_error (funs w) f) as [[c|]|] eqn:E; cbn [bind]; auto.
      destruct c as [|c|o]; cbn [callable_of bind]; auto.
      + rewrite (own_usable n m w f c Iv E). cbn [negb]. destruct (c_empty c) eqn:Ce; auto.
      + destruct (ref_no n m w f _ Iv E).
  Qed.

  Lemma careful_run_ok n m ops : forall w, finv n m w -> careful_run act look w ops ->
    match run w ops with Ok (w', _) => finv n m w' | Throw => True | _ => False end.
  Proof.
    induction ops as [|op ops IH]; intros w Iv C; cbn [fn_run careful_run] in *; auto. destruct C as (C & H).
    pose proof (careful_ok n m w op Iv C) as K. destruct (step w op) as [(w', y)| | |]; try contradiction; cbn [bind]; auto.
    specialize (IH w' K (H w' y eq_refl)). destruct (run w' ops) as [(w'', ys)| | |]; try contradiction; cbn [bind]; auto.
  Qed.
  Lemma cnt_repeat {A} (f : A -> nat) x n : f x = 0%nat -> cnt f (repeat x n) = 0%nat.
  Proof. intros E. apply cnt_zero. intros y H. apply repeat_spec in H. now subst. Qed.
  Lemma start_finv n m : finv n m (fn_start n m).
  Proof.
    split; cbn [fn_start objs funs live]; rewrite ?repeat_length; auto.
    - apply Forall_forall. intros x H. apply repeat_spec in H. subst. exact Logic.I.
    - intros k. unfold sumF. cbn [fn_start objs funs]. rewrite !cnt_repeat by reflexivity. destruct k; reflexivity.
  Qed.

  Lemma finv_use n m w k : finv n m w -> (is_live w k <-> in_use w k).
  Proof.
    intros [_ _ _ H]. specialize (H k). unfold is_live, in_use. split.
    - intros L. rewrite L in H. unfold sumF in H. assert (P : (0 < cnt (fR k) (funs w) \/ 0 < cnt (oR k) (objs w))%nat) by lia. destruct P as [P|P].
      + left. destruct (cnt_pos _ _ P) as (f & c & E & G). exists f, c. split; auto. destruct c as [[|x|o]|]; cbn in G; try lia.
        exists x. split; auto. unfold cR in G. destruct (c_res x) as [y|]; [|lia]. apply b2n_pos in G. now subst.
      + right. destruct (cnt_pos _ _ P) as (o & c & E & G). destruct c as [x|]; cbn in G; [|lia]. exists o, x. split; auto.
        unfold cR in G. destruct (c_res x) as [y|]; [|lia]. apply b2n_pos in G. now subst.
    - unfold sumF in H. intros [(f & c & E & (x & -> & R))|(o & c & E & R)].
      + pose proof (cnt_ge (fR k) _ _ _ E) as G. cbn [fR] in G. rewrite (cR_self x k R) in G. destruct (nth_error (live w) k) as [[|]|]; auto; lia.
      + pose proof (cnt_ge (oR k) _ _ _ E) as G. cbn [oR] in G. rewrite (cR_self c k R) in G. destruct (nth_error (live w) k) as [[|]|]; auto; lia.
  Qed.
  Lemma finv_one n m w k f g : finv n m w -> (exists c, nth_error (funs w) f = Some c /\ holds c k) ->
    (exists c, nth_error (funs w) g = Some c /\ holds c k) -> f = g.
  Proof.
    intros [_ _ _ H] (c & E & x & -> & R) (c' & E' & x' & -> & R'). specialize (H k). destruct (Nat.eq_dec f g) as [|D]; auto. exfalso.
    pose proof (cnt_two (fR k) _ _ _ _ _ D E E') as G. cbn [fR] in G. rewrite (cR_self x k R), (cR_self x' k R') in G. unfold sumF in H.
    destruct (nth_error (live w) k) as [[|]|]; lia.
  Qed.

  (** * What goes wrong *)
  Lemma copy_twice w f g c k x : f <> g -> nth_error (funs w) f = Some None -> nth_error (funs w) g = Some (Some (COwn c)) -> c_res c = Some k -> is_live w k ->
    run w [CopyFn f g; DestroyFn f; DestroyFn g] = UB /\ run w [CopyFn f g; DestroyFn f; CallFn g x] = UB.
  Proof.
    intros D Ef Eg R L. unfold is_live in L.
    assert (L2 : nth_error (upd (live w) k false) k = Some false) by (rewrite nth_upd, Nat.eqb_refl, L; reflexivity).
    assert (Q : (f =? g)%nat = false) by now apply Nat.eqb_neq.
    split; cbn [fn_run fn_step]; unfold call_fn, no_fun, fun_at; rewrite Ef, Eg; cbn [bind set_fun funs]; rewrite nth_upd, Nat.eqb_refl, Ef; cbn [bind clean];
      unfold destroy_callable; rewrite R; cbn [set_fun live]; rewrite L; cbn [bind set_fun funs objs live]; rewrite !nth_upd, Q, Eg; cbn [bind clean callable_of].
    - unfold destroy_callable. rewrite R. cbn [set_fun live]. now rewrite L2.
    - unfold usable. rewrite R. cbn [set_fun live]. now rewrite L2.
  Qed.
  Lemma assign_temp_dead n m w f st x : finv n m w -> (exists c, nth_error (funs w) f = Some (Some c)) ->
    run w [AssignTemp f false st true; CallFn f x] = UB /\ run w [AssignTemp f false st true; DestroyFn f] = UB.
  Proof.
    intros Iv (c & E).
    assert (K : exists w' , step w (AssignTemp f false st true) = Ok (w', Done) /\
       exists k, nth_error (funs w') f = Some (Some (COwn (Callable false st (Some k)))) /\ nth_error (live w') k = Some false).
    { cbn [fn_step]. unfold fun_at. rewrite E. cbn [bind]. unfold store_temp, new_callable. cbn [bind]. unfold replace, fun_at. cbn [funs]. rewrite E. cbn [bind].
      set (k := length (live w)).
      assert (A : nth_error (live w ++ [true]) k = Some true) by (unfold k; rewrite nth_error_app2, Nat.sub_diag by lia; reflexivity).
      assert (Cl : exists l, clean (FWorld (objs w) (funs w) (live w ++ [true])) c = Ok (FWorld (objs w) (funs w) l) /\ nth_error l k = Some true).
      { destruct (clean_ok n m w f c Iv E) as (w' & Ew & F & O & _). destruct c as [|c|o]; cbn [clean] in *; eauto.
        unfold destroy_callable in *. cbn [live objs funs]. destruct (c_res c) as [k'|] eqn:R; [|eauto].
        destruct (nth_error (live w) k') as [[|]|] eqn:L; try discriminate.
        assert (k' < length (live w))%nat by (apply nth_error_Some; congruence). rewrite nth_error_app1 by auto. rewrite L. eexists. split; [reflexivity|].
        rewrite nth_upd. destruct (Nat.eqb_spec k' k); [unfold k in *; lia|]. exact A. }
      destruct Cl as (l & -> & Al). cbn [bind]. unfold done. cbn [clean]. unfold destroy_callable. cbn [c_res set_fun live objs funs]. rewrite Al. cbn [bind].
      eexists. split; [reflexivity|]. exists k. cbn [funs live]. rewrite nth_upd, Nat.eqb_refl, E. split; auto. rewrite nth_upd, Nat.eqb_refl, Al. reflexivity. }
    destruct K as (w' & Es & k & E' & L'). cbn [fn_run]. rewrite Es. cbn [bind fn_step]. unfold call_fn, fun_at. rewrite E'. cbn [bind callable_of clean].
    unfold usable, destroy_callable. cbn [c_res]. rewrite L'. split; reflexivity.
  Qed.
  Lemma object_referred w f o st st' x : nth_error (funs w) f = Some None -> nth_error (objs w) o = Some (Some (Callable false st None)) ->
    (exists w', run w [FromObject f o; SetObject o st'; CallFn f x] = Ok (w', [Done; Done; Returned (snd (act st' x))]) /\
       nth_error (objs w') o = Some (Some (Callable false (fst (act st' x)) None))) /\
    run w [FromObject f o; EndObject o; CallFn f x] = UB.
  Proof.
    intros Ef Eo. split; cbn [fn_run fn_step]; unfold no_fun, store_object, obj_at; rewrite Ef, Eo; cbn [bind c_empty set_fun objs]; rewrite Eo; cbn [bind c_empty c_res].
    - unfold call_fn, fun_at. cbn [set_obj set_fun funs objs]. rewrite nth_upd, Nat.eqb_refl, Ef. cbn [bind callable_of set_obj set_fun funs objs]. rewrite nth_upd, Nat.eqb_refl, Eo.
      cbn [bind]. unfold usable. cbn [c_res negb c_empty c_state]. destruct (act st' x). cbn [bind snd fst]. eexists. split; [reflexivity|]. cbn [set_obj set_fun objs]. rewrite !nth_upd, Nat.eqb_refl, Eo. reflexivity.
    - unfold destroy_callable. cbn [c_res bind]. unfold call_fn, fun_at. cbn [set_obj set_fun funs objs]. rewrite nth_upd, Nat.eqb_refl, Ef. cbn [bind callable_of set_obj set_fun funs objs].
      rewrite nth_upd, Nat.eqb_refl, Eo. reflexivity.
  Qed.
End Calls.

(** * poly_value *)
Lemma list_ext {A} (l l' : list A) : (forall i, nth_error l i = nth_error l' i) -> l = l'.
Proof.
  revert l'. induction l as [|a l IH]; intros [|b l'] H; auto.
  - specialize (H 0%nat). discriminate.
  - specialize (H 0%nat). discriminate.
  - pose proof (H 0%nat) as H0. cbn in H0. inversion H0. f_equal. apply IH. intros i. exact (H (S i)).
Qed.
Definition pP (k : nat) (p : option nat) : nat := match p with Some x => b2n (x =? k)%nat | None => 0 end.
Definition at_heap (h : list (option pval)) (p : option nat) : option pval :=
  match p with Some k => match nth_error h k with Some v => v | None => None end | None => None end.
Definition alive (h : list (option pval)) (k : nat) : nat := match nth_error h k with Some (Some _) => 1 | _ => 0 end%nat.
Definition pinv (w : pworld) : Prop := forall k, cnt (pP k) (pvars w) = alive (heap w) k.

Lemma shown_nth w i : nth_error (pv_shown w) i = option_map (at_heap (heap w)) (nth_error (pvars w) i).
Proof. unfold pv_shown. now rewrite nth_error_map. Qed.

Lemma pinv_at w i : pinv w ->
  match nth_error (pv_shown w) i with
  | Some (Some v) => exists k, nth_error (pvars w) i = Some (Some k) /\ nth_error (heap w) k = Some (Some v)
  | Some None => nth_error (pvars w) i = Some None
  | None => nth_error (pvars w) i = None
  end.
Proof.
  intros P. rewrite shown_nth. destruct (nth_error (pvars w) i) as [[k|]|] eqn:E; cbn; auto.
  pose proof (P k) as H. pose proof (cnt_ge (pP k) _ _ _ E) as G. cbn [pP] in G. rewrite eqb_refl_b in G. unfold alive in H.
  destruct (nth_error (heap w) k) as [[v|]|] eqn:L; try lia. eauto.
Qed.
Lemma pinv_unique w i j k : pinv w -> nth_error (pvars w) i = Some (Some k) -> nth_error (pvars w) j = Some (Some k) -> i = j.
Proof.
  intros P Ei Ej. destruct (Nat.eq_dec i j) as [|D]; auto. exfalso. pose proof (cnt_two (pP k) _ _ _ _ _ D Ei Ej) as G. cbn [pP] in G.
  rewrite eqb_refl_b in G. pose proof (P k) as H. unfold alive in H. destruct (nth_error (heap w) k) as [[v|]|]; lia.
Qed.

(** The value of a variable changes. *)
Lemma write_ok w i k v x : pinv w -> nth_error (pvars w) i = Some (Some k) -> nth_error (heap w) k = Some (Some v) ->
  pinv (pv_write w k (Some x)) /\ pv_shown (pv_write w k (Some x)) = upd (pv_shown w) i (Some x).
Proof.
  intros P E H. split.
  - intros k'. specialize (P k'). cbn [pv_write pvars heap]. rewrite P. unfold alive. rewrite nth_upd. destruct (Nat.eqb_spec k k') as [->|]; auto. now rewrite H.
  - apply list_ext. intros j. rewrite nth_upd, !shown_nth. cbn [pv_write pvars heap]. destruct (nth_error (pvars w) j) as [[k'|]|] eqn:Ej; cbn [option_map at_heap].
    + rewrite nth_upd. destruct (Nat.eqb_spec k k') as [<-|D].
      * rewrite H. rewrite (pinv_unique w i j k P E Ej), Nat.eqb_refl. reflexivity.
      * destruct (Nat.eqb_spec i j) as [->|]; auto. congruence.
    + destruct (Nat.eqb_spec i j) as [->|]; auto. congruence.
    + destruct (i =? j)%nat; auto.
Qed.
(** A new object. *)
Lemma shown_app w v : pinv w -> pv_shown (fst (pv_new w v)) = pv_shown w.
Proof.
  intros P. apply list_ext. intros j. rewrite !shown_nth. cbn [pv_new fst pvars heap].
  pose proof (pinv_at w j P) as A. rewrite shown_nth in A. destruct (nth_error (pvars w) j) as [[k|]|]; cbn [option_map at_heap] in *; auto.
  destruct (nth_error (heap w) k) as [[y|]|] eqn:L; try discriminate.
  rewrite nth_error_app1 by (apply nth_error_Some; congruence). now rewrite L.
Qed.
Lemma alive_app h v k : alive (h ++ [Some v]) k = (alive h k + b2n (length h =? k)%nat)%nat.
Proof.
  unfold alive. destruct (Nat.lt_trichotomy k (length h)) as [L|[L|L]].
  - rewrite nth_error_app1 by auto. replace (length h =? k)%nat with false by lia. cbn [b2n]. lia.
  - subst. rewrite nth_error_app2, Nat.sub_diag by lia. cbn. rewrite Nat.eqb_refl. assert (E : nth_error h (length h) = None) by (apply nth_error_None; lia). now rewrite E.
  - assert (E : nth_error h k = None) by (apply nth_error_None; lia). assert (E' : nth_error (h ++ [Some v]) k = None) by (apply nth_error_None; rewrite app_length; cbn; lia).
    rewrite E, E'. replace (length h =? k)%nat with false by lia. reflexivity.
Qed.
Lemma make_ok w i v : pinv w -> nth_error (pvars w) i = Some None ->
  let w' := pv_point (fst (pv_new w v)) i (Some (snd (pv_new w v))) in pinv w' /\ pv_shown w' = upd (pv_shown w) i (Some v).
Proof.
  intros P E w'. split.
  - intros k. unfold w'. cbn [pv_new pv_point fst snd pvars heap]. rewrite alive_app, <- (P k).
    pose proof (cnt_upd (pP k) _ _ _ (Some (length (heap w))) E) as U. cbn [pP] in U. lia.
  - apply list_ext. intros j. rewrite nth_upd. rewrite <- (shown_app w v P). rewrite !shown_nth. unfold w'. cbn [pv_new pv_point fst snd pvars heap]. rewrite nth_upd.
    destruct (Nat.eqb_spec i j) as [->|D]; [|reflexivity]. rewrite E. cbn [option_map at_heap]. rewrite nth_error_app2, Nat.sub_diag by lia. reflexivity.
Qed.
(** unique_ptr assignment of a new object. *)
Lemma reset_ok w i k y v : pinv w -> nth_error (pvars w) i = Some (Some k) -> nth_error (heap w) k = Some (Some y) ->
  exists w', pv_reset (fst (pv_new w v)) i (snd (pv_new w v)) = Ok w' /\ pinv w' /\ pv_shown w' = upd (pv_shown w) i (Some v).
Proof.
  intros P E H. assert (Lk : (k < length (heap w))%nat) by (apply nth_error_Some; congruence).
  unfold pv_reset, pv_ptr, pv_delete, pv_deref. cbn [pv_new fst snd pvars pv_point heap]. rewrite E. cbn [bind pvars heap].
  rewrite nth_error_app1, H by auto. cbn [bind]. eexists. split; [reflexivity|]. split.
  - intros k'. cbn [pv_write pv_point pvars heap]. pose proof (cnt_upd (pP k') _ _ _ (Some (length (heap w))) E) as U. cbn [pP] in U.
    pose proof (alive_app (heap w) v k') as A. unfold alive in *. rewrite nth_upd. specialize (P k'). unfold alive in P.
    destruct (Nat.eqb_spec k k') as [->|D]; cbn [b2n] in *; [rewrite nth_error_app1 in * by lia; rewrite H in *; lia|]. lia.
  - apply list_ext. intros j. rewrite nth_upd. rewrite <- (shown_app w v P). rewrite !shown_nth. cbn [pv_new pv_write pv_point fst snd pvars heap]. rewrite nth_upd.
    destruct (Nat.eqb_spec i j) as [->|D].
    + rewrite E. cbn [option_map at_heap]. rewrite nth_upd. replace (k =? length (heap w))%nat with false by lia. rewrite nth_error_app2, Nat.sub_diag by lia. reflexivity.
    + destruct (nth_error (pvars w) j) as [[k'|]|] eqn:Ej; cbn [option_map at_heap]; auto. rewrite nth_upd.
      destruct (Nat.eqb_spec k k') as [->|]; auto. destruct D. exact (pinv_unique w i j k' P E Ej).
Qed.
Lemma end_ok w i k y : pinv w -> nth_error (pvars w) i = Some (Some k) -> nth_error (heap w) k = Some (Some y) ->
  let w' := pv_point (pv_write w k None) i None in pinv w' /\ pv_shown w' = upd (pv_shown w) i None.
Proof.
  intros P E H w'. split.
  - intros k'. unfold w'. cbn [pv_point pv_write pvars heap]. pose proof (cnt_upd (pP k') _ _ _ None E) as U. cbn [pP] in U. specialize (P k').
    unfold alive in *. rewrite nth_upd. destruct (Nat.eqb_spec k k') as [->|D]; cbn [b2n] in *; [rewrite H in *; lia|lia].
  - apply list_ext. intros j. rewrite nth_upd, !shown_nth. unfold w'. cbn [pv_point pv_write pvars heap]. rewrite nth_upd.
    destruct (Nat.eqb_spec i j) as [->|D].
    + rewrite E. reflexivity.
    + destruct (nth_error (pvars w) j) as [[k'|]|] eqn:Ej; cbn [option_map at_heap]; auto. rewrite nth_upd.
      destruct (Nat.eqb_spec k k') as [->|]; auto. destruct D. exact (pinv_unique w i j k' P E Ej).
Qed.

Section PolyProofs.
  Variable moved : nat -> Z -> Z.
  Lemma poly_step_ok w op : pinv w ->
    match poly_step moved (pv_shown w) op with
    | Some (s', y) => exists w', pv_step moved w op = Ok (w', y) /\ pinv w' /\ pv_shown w' = s'
    | None => pv_step moved w op = Throw
    end.
  Proof.
    intros P. destruct op; cbn [poly_step pv_step]; unfold pv_free, pv_ptr, store_copy, store_move, pv_deref.
    - pose proof (pinv_at w i P) as A. destruct (nth_error (pv_shown w) i) as [[v|]|]; [destruct A as (k & -> & H)|rewrite A|rewrite A]; cbn [bind]; auto.
      destruct (make_ok w i (PVal t x) P A) as (I' & S'). eexists. split; [reflexivity|]. auto.
    - pose proof (pinv_at w i P) as A. destruct (nth_error (pv_shown w) i) as [[v|]|]; [destruct A as (k & -> & H)|rewrite A|rewrite A]; cbn [bind]; auto.
      pose proof (pinv_at w j P) as B. destruct (nth_error (pv_shown w) j) as [[v|]|]; [destruct B as (k & -> & H)|rewrite B|rewrite B]; cbn [bind]; auto.
      rewrite H. cbn [bind]. destruct (make_ok w i v P A) as (I' & S'). eexists. split; [reflexivity|]. auto.
    - pose proof (pinv_at w i P) as A. destruct (nth_error (pv_shown w) i) as [[v|]|] eqn:Ei; [destruct A as (k & -> & H)|rewrite A|rewrite A]; cbn [bind]; auto.
      pose proof (pinv_at w j P) as B. destruct (nth_error (pv_shown w) j) as [[v|]|]; [destruct B as (k & B & H); rewrite B|rewrite B|rewrite B]; cbn [bind]; auto.
      rewrite H. cbn [bind]. destruct (write_ok w j k v (pv_left moved v) P B H) as (P1 & S1). unfold pv_left in *.
      destruct (make_ok (pv_write w k (Some (PVal (p_type v) (moved (p_type v) (p_value v))))) i v P1 A) as (I' & S').
      eexists. split; [reflexivity|]. split; [exact I'|]. etransitivity; [exact S'|]. rewrite S1. reflexivity.
    - pose proof (pinv_at w i P) as A. destruct (nth_error (pv_shown w) i) as [[v|]|] eqn:Ei; [destruct A as (k & A & H); rewrite A|rewrite A|rewrite A]; cbn [bind]; auto.
      pose proof (pinv_at w j P) as B. destruct (nth_error (pv_shown w) j) as [[v'|]|] eqn:Ej; [destruct B as (k' & B & H'); rewrite B|rewrite B|rewrite B]; cbn [bind]; auto.
      destruct (Nat.eqb_spec i j) as [->|D].
      + exists w. split; [reflexivity|]. split; auto. symmetry. apply upd_back. exact Ej.
      + rewrite H'. cbn [bind]. destruct (reset_ok w i k v v' P A H) as (w' & Er & I' & S').
        destruct (pv_new w v') as (w1, k1) eqn:En. cbn [fst snd] in Er. rewrite Er. cbn [bind]. eauto.
    - pose proof (pinv_at w i P) as A. destruct (nth_error (pv_shown w) i) as [[v|]|] eqn:Ei; [destruct A as (k & A & H); rewrite A|rewrite A|rewrite A]; cbn [bind]; auto.
      pose proof (pinv_at w j P) as B. destruct (nth_error (pv_shown w) j) as [[v'|]|] eqn:Ej; [destruct B as (k' & B & H'); rewrite B|rewrite B|rewrite B]; cbn [bind]; auto.
      destruct (Nat.eqb_spec i j) as [->|D].
      + exists w. split; [reflexivity|]. split; auto.
      + rewrite H'. cbn [bind]. destruct (write_ok w j k' v' (pv_left moved v') P B H') as (P1 & S1). unfold pv_left in *.
        set (w1 := pv_write w k' (Some (PVal (p_type v') (moved (p_type v') (p_value v'))))) in *.
        assert (H1 : nth_error (heap w1) k = Some (Some v)).
        { unfold w1. cbn [pv_write heap]. rewrite nth_upd. destruct (Nat.eqb_spec k' k) as [->|]; auto. destruct D. exact (pinv_unique w i j k P A B). }
        destruct (reset_ok w1 i k v v' P1 A H1) as (w' & Er & I' & S').
        destruct (pv_new w1 v') as (w2, k2) eqn:En. cbn [fst snd] in Er. rewrite Er. cbn [bind]. exists w'. split; auto. split; auto. rewrite S', S1. reflexivity.
    - pose proof (pinv_at w i P) as A. destruct (nth_error (pv_shown w) i) as [[v|]|] eqn:Ei; [destruct A as (k & A & H); rewrite A|rewrite A|rewrite A]; cbn [bind]; auto.
      rewrite H. cbn [bind]. destruct (write_ok w i k v (PVal (p_type v) x) P A H) as (P1 & S1). eauto.
    - pose proof (pinv_at w i P) as A. destruct (nth_error (pv_shown w) i) as [[v|]|] eqn:Ei; [destruct A as (k & A & H); rewrite A|rewrite A|rewrite A]; cbn [bind]; auto.
      rewrite H. cbn [bind]. eauto.
    - pose proof (pinv_at w i P) as A. destruct (nth_error (pv_shown w) i) as [[v|]|] eqn:Ei; [destruct A as (k & A & H); rewrite A|rewrite A|rewrite A]; cbn [bind]; auto.
      unfold pv_delete, pv_deref. rewrite H. cbn [bind]. destruct (end_ok w i k v P A H) as (P1 & S1). eauto.
  Qed.
  Lemma poly_run_ok ops : forall w, pinv w ->
    match poly_run moved (pv_shown w) ops with
    | Some (s', ys) => exists w', pv_run moved w ops = Ok (w', ys) /\ pinv w' /\ pv_shown w' = s'
    | None => pv_run moved w ops = Throw
    end.
  Proof.
    induction ops as [|op ops IH]; intros w P; cbn [poly_run pv_run]; [eauto|].
    pose proof (poly_step_ok w op P) as H. destruct (poly_step moved (pv_shown w) op) as [(s', y)|].
    - destruct H as (w' & -> & P' & <-). cbn [bind]. specialize (IH w' P'). destruct (poly_run moved (pv_shown w') ops) as [(s'', ys)|].
      + destruct IH as (w'' & -> & P'' & E''). cbn [bind]. eauto.
      + rewrite IH. reflexivity.
    - rewrite H. reflexivity.
  Qed.
End PolyProofs.
Lemma pv_start_ok n : pinv (pv_start n) /\ pv_shown (pv_start n) = repeat None n.
Proof.
  split.
  - intros k. unfold pv_start, alive. cbn [pvars heap]. rewrite cnt_repeat by reflexivity. destruct k; reflexivity.
  - unfold pv_shown, pv_start. cbn [pvars heap]. induction n; cbn; auto. now rewrite IHn.
Qed.
(** As many heap objects as variables. *)
Lemma cnt_sum {A} (f : nat -> A -> nat) m l : forall B, (forall x, In x l -> cnt (fun k => f k x) (seq 0 B) = m x) -> cnt (fun k => cnt (f k) l) (seq 0 B) = cnt m l.
Proof.
  induction l as [|a l IH]; intros B H; cbn [cnt].
  - apply cnt_zero. auto.
  - rewrite <- (H a) by (left; auto). rewrite <- (IH B) by (intros; apply H; right; auto). clear.
    induction (seq 0 B) as [|k s IH]; cbn [cnt]; auto. rewrite IH. lia.
Qed.
Lemma cnt_eqb_seq k B : (k < B)%nat -> cnt (fun x => b2n (k =? x)%nat) (seq 0 B) = 1%nat.
Proof.
  intros L. assert (G : forall s, (s <= k < s + B)%nat -> cnt (fun x => b2n (k =? x)%nat) (seq s B) = 1%nat); [|apply G; lia]. clear L.
  induction B as [|B IH]; intros s L; [lia|]. cbn [seq cnt]. destruct (Nat.eqb_spec k s) as [->|D]; cbn [b2n].
  - rewrite cnt_zero; auto. intros x Hx. apply in_seq in Hx. destruct (Nat.eqb_spec s x); cbn; lia.
  - rewrite IH; lia.
Qed.
Lemma alive_seq h : cnt (alive h) (seq 0 (length h)) = count_some h.
Proof.
  unfold count_some. assert (G : forall p h, cnt (alive (p ++ h)) (seq (length p) (length h)) = length (filter (fun o : option pval => match o with Some _ => true | None => false end) h)).
  { clear. intros p h. revert p. induction h as [|a h IH]; intros p; [reflexivity|]. cbn [length seq cnt filter].
    specialize (IH (p ++ [a])). rewrite <- app_assoc in IH. cbn [app] in IH. rewrite app_length in IH. cbn [length] in IH. rewrite Nat.add_1_r in IH. rewrite IH.
    unfold alive. rewrite nth_error_app2, Nat.sub_diag by lia. destruct a; reflexivity. }
  exact (G [] h).
Qed.
Lemma objects_ok w : pinv w -> count_some (heap w) = count_some (pvars w).
Proof.
  intros P. rewrite <- alive_seq.
  assert (E : cnt (alive (heap w)) (seq 0 (length (heap w))) = cnt (fun k => cnt (pP k) (pvars w)) (seq 0 (length (heap w)))).
  { induction (seq 0 (length (heap w))) as [|k s IH]; cbn [cnt]; auto. }
  rewrite E, (cnt_sum pP (fun p => match p with Some _ => 1 | None => 0 end)%nat).
  - unfold count_some. clear. induction (pvars w) as [|[k|] l IH]; cbn; auto.
  - intros [k|] H; [|apply cnt_zero; auto]. cbn [pP]. apply cnt_eqb_seq. apply In_nth_error in H. destruct H as (i & H).
    pose proof (pinv_at w i P) as A. rewrite shown_nth, H in A. cbn [option_map at_heap] in A.
    pose proof (cnt_ge (pP k) _ _ _ H) as G. cbn [pP] in G. rewrite eqb_refl_b in G. rewrite (P k) in G. unfold alive in G.
    apply nth_error_Some. destruct (nth_error (heap w) k); [discriminate|lia].
Qed.

(** * The statements of the properties *)

Lemma c245_value_partial :
  forall act look n m ops, Forall plain ops ->
  match value_run act look (repeat None m) ops with
  | Some (v, ys) => exists w, fn_run act look (fn_start n m) ops = Ok (w, ys) /\ map shown (funs w) = v
  | None => fn_run act look (fn_start n m) ops = Throw
  end.
Proof.
  intros act look n m ops F. pose proof (value_run_ok act look ops _ _ (start_plain n m) F) as H.
  destruct (value_run act look (repeat None m) ops) as [(v, ys)|]; auto. destruct H as (w & E & P). exists w. split; auto. apply P.
Qed.

Lemma c245_object_refuted :
  forall act look w f o st st' x, nth_error (funs w) f = Some None -> nth_error (objs w) o = Some (Some (Callable false st None)) ->
  (exists w', fn_run act look w [FromObject f o; SetObject o st'; CallFn f x] = Ok (w', [Done; Done; Returned (snd (act st' x))]) /\
     nth_error (objs w') o = Some (Some (Callable false (fst (act st' x)) None))) /\
  fn_run act look w [FromObject f o; EndObject o; CallFn f x] = UB.
Proof.
  exact object_referred.
Qed.

Lemma c246_careful_partial :
  forall act look n m ops, careful_run act look (fn_start n m) ops ->
  match fn_run act look (fn_start n m) ops with
  | Ok (w, _) => (forall k, is_live w k <-> in_use w k) /\
      (forall k f g, (exists c, nth_error (funs w) f = Some c /\ holds c k) -> (exists c, nth_error (funs w) g = Some c /\ holds c k) -> f = g)
  | Throw => True
  | _ => False
  end.
Proof.
  intros act look n m ops C. pose proof (careful_run_ok act look n m ops _ (start_finv n m) C) as H.
  destruct (fn_run act look (fn_start n m) ops) as [(w, ys)| | |]; auto. split.
  - intros k. exact (finv_use n m w k H).
  - intros k f g. exact (finv_one n m w k f g H).
Qed.

Lemma c246_copy_refuted :
  forall act look w f g c k x, f <> g -> nth_error (funs w) f = Some None ->
  nth_error (funs w) g = Some (Some (COwn c)) -> c_res c = Some k -> is_live w k ->
  fn_run act look w [CopyFn f g; DestroyFn f; DestroyFn g] = UB /\ fn_run act look w [CopyFn f g; DestroyFn f; CallFn g x] = UB.
Proof.
  exact copy_twice.
Qed.

Lemma c246_assign_refuted :
  forall act look n m ops w ys f st x, careful_run act look (fn_start n m) ops -> fn_run act look (fn_start n m) ops = Ok (w, ys) ->
  (exists c, nth_error (funs w) f = Some (Some c)) ->
  fn_run act look w [AssignTemp f false st true; CallFn f x] = UB /\ fn_run act look w [AssignTemp f false st true; DestroyFn f] = UB.
Proof.
  intros act look n m ops w ys f st x C E. pose proof (careful_run_ok act look n m ops _ (start_finv n m) C) as H. rewrite E in H.
  exact (assign_temp_dead act look n m w f st x H).
Qed.

Lemma c247_values :
  forall moved n ops,
  match poly_run moved (repeat None n) ops with
  | Some (s, ys) => exists w, pv_run moved (pv_start n) ops = Ok (w, ys) /\ pv_shown w = s /\ count_some (heap w) = count_some s
  | None => pv_run moved (pv_start n) ops = Throw
  end.
Proof.
  intros moved n ops. destruct (pv_start_ok n) as (P & S). pose proof (poly_run_ok moved ops (pv_start n) P) as H. rewrite S in H.
  destruct (poly_run moved (repeat None n) ops) as [(s, ys)|]; auto. destruct H as (w & E & P' & <-). exists w. split; auto. split; auto.
  rewrite (objects_ok w P'). unfold count_some. clear E.
  assert (K : forall l, (forall x, In x l -> In x (pvars w)) ->
     length (filter (fun o : option nat => match o with Some _ => true | None => false end) l) =
     length (filter (fun o : option pval => match o with Some _ => true | None => false end) (map (at_heap (heap w)) l))).
  { induction l as [|a l IH]; intros Hl; auto. cbn [map filter]. specialize (IH (fun x Hx => Hl x (or_intror Hx))).
    destruct a as [k|]; cbn [at_heap]; auto. assert (Hk : In (Some k) (pvars w)) by (apply Hl; left; auto). apply In_nth_error in Hk. destruct Hk as (i & Hk).
    pose proof (cnt_ge (pP k) _ _ _ Hk) as G. cbn [pP] in G. rewrite eqb_refl_b in G. rewrite (P' k) in G. unfold alive in G.
    destruct (nth_error (heap w) k) as [[v|]|]; try lia. cbn [length]. now rewrite IH. }
  exact (K (pvars w) (fun x Hx => Hx)).
Qed.
