(** Proofs about the benchmark functions. *)
From Coq Require Import QArith Qround Qabs Lqa.
From Verif Require Import Common Ints BitsModel BitsProofs Floats Benchmark SpecBenchmark.
Open Scope Z_scope.

Lemma calibrate_spec now n : forall tick base,
  (forall x, In x (timings now 2 tick n) -> x <= base) -> (0 < n)%nat ->
  least (timings now 2 tick n) (calibrate now n tick base).
Proof.
  assert (G : forall n tick base, calibrate now n tick base <= base /\
    (forall x, In x (timings now 2 tick n) -> calibrate now n tick base <= x) /\
    (calibrate now n tick base = base \/ In (calibrate now n tick base) (timings now 2 tick n))).
  { clear n. induction n as [|n IH]; intros tick base; cbn [calibrate timings].
    - split; [lia|]. split; [intros x []|]. left. reflexivity.
    - set (d := now (tick + 1) - now tick). specialize (IH (tick + 2) (if d <? base then d else base)).
      destruct IH as (A & B & C). destruct (Z.ltb_spec d base) as [L|L].
      + split; [lia|]. split; [intros x [<-|I]; [exact A|auto]|]. right. destruct C as [->|C]; [left|right]; auto.
      + split; [lia|]. split; [intros x [<-|I]; [lia|auto]|]. destruct C as [->|C]; [left; reflexivity|right; right; auto]. }
  intros tick base H N. destruct (G n tick base) as (A & B & C). split; [|exact B]. destruct C as [C|C]; [|exact C].
  destruct n as [|n]; [lia|]. cbn [timings] in *. set (d := now (tick + 1) - now tick) in *.
  pose proof (H d (or_introl eq_refl)). pose proof (B d (or_introl eq_refl)). rewrite C in *. left. lia.
Qed.

Lemma timings_range now step : steady now -> forall n first x, In x (timings now step first n) -> 0 <= x < 2 ^ 63.
Proof.
  intros (M & R). induction n as [|n IH]; cbn [timings]; intros first x I; [destruct I|].
  destruct I as [<-|I]; [|eauto]. pose proof (M first (first + 1) ltac:(lia)). pose proof (R first). pose proof (R (first + 1)). lia.
Qed.

Lemma max_double_big : 2 ^ 63 <= max_double.
Proof. unfold max_double. vm_compute. discriminate. Qed.

Lemma overhead_calibrate now b : steady now -> 2 ^ 63 - 1 <= b -> overhead now (calibrate now calibrations 0 b).
Proof.
  intros S B. unfold overhead. apply calibrate_spec.
  - intros x I. apply (timings_range now 2 S) in I. lia.
  - apply Nat.ltb_lt. vm_compute. reflexivity.
Qed.

Lemma least_unique l a b : least l a -> least l b -> a = b.
Proof. intros (A & B) (C & D). apply B in C. apply D in A. lia. Qed.

Lemma timed_runs_spec {R} now (call : Z -> outcome R) n : forall tick k mn mx,
  let '(tick', k', mn', mx') := timed_runs now call n tick k mn mx in
  tick' = tick + 2 * Z.of_nat n /\ k' = k + Z.of_nat n /\
  mn' <= mn /\ mx <= mx' /\
  (forall x, In x (timings now 2 tick n) -> mn' <= x <= mx') /\
  (mn' = mn \/ In mn' (timings now 2 tick n)) /\ (mx' = mx \/ In mx' (timings now 2 tick n)).
Proof.
  induction n as [|n IH]; intros tick k mn mx; cbn [timed_runs timings].
  - repeat split; try lia; try (intros; contradiction); auto; destruct H.
  - set (d := now (tick + 1) - now tick).
    replace (match call k with Returns _ => k + 1 | Throws _ => k + 1 end) with (k + 1) by (destruct (call k); reflexivity).
    rewrite Z.gtb_ltb.
    specialize (IH (tick + 2) (k + 1) (if d <? mn then d else mn) (if mx <? d then d else mx)).
    destruct (timed_runs now call n (tick + 2) (k + 1) _ _) as [[[t' k'] mn'] mx']. destruct IH as (A & B & C & D & E & F & G).
    split; [lia|]. split; [lia|].
    destruct (Z.ltb_spec d mn), (Z.ltb_spec mx d); split; try lia; split; try lia.
    all: split; [intros x [<-|I]; [lia|auto]|].
    all: split; [destruct F as [->|F]|destruct G as [->|G]]; cbn [In]; auto.
Qed.

Lemma timed_least {R} now (call : Z -> outcome R) n tick k : steady now -> (0 < n)%nat ->
  exists mn mx, timed_runs now call n tick k max_double 0 = (tick + 2 * Z.of_nat n, k + Z.of_nat n, mn, mx) /\
    least (timings now 2 tick n) mn /\ greatest (timings now 2 tick n) mx.
Proof.
  intros S N. pose proof (timed_runs_spec now call n tick k max_double 0) as H.
  destruct (timed_runs now call n tick k max_double 0) as [[[t' k'] mn] mx]. destruct H as (-> & -> & C & D & E & F & G).
  exists mn, mx. split; [reflexivity|]. pose proof max_double_big as MB. generalize dependent max_double. intros M C F MB.
  assert (X : exists d, In d (timings now 2 tick n)). { destruct n; [lia|]. cbn [timings]. eexists. left. reflexivity. }
  destruct X as (d & I). pose proof (timings_range now 2 S _ _ _ I) as Rd. pose proof (E _ I) as Ed.
  split; (split; [|intros x Ix; apply E in Ix; lia]).
  - destruct F as [F|F]; [lia|exact F].
  - destruct G as [G|G]; [|exact G]. subst mx. assert (d = 0) by lia. subst d. exact I.
Qed.

Lemma bench_n_test_spec {R} now (call : Z -> outcome R) runs : steady now -> (0 < runs)%nat ->
  exists base mn mx, overhead now base /\ least (timings now 2 2001 runs) mn /\ greatest (timings now 2 2001 runs) mx /\
    let total := now (2001 + 2 * Z.of_nat runs) - now 2000 - Z.of_nat runs * base in
    bench_n_test now call runs = (Z.of_nat runs + 1, call (Z.of_nat runs), Report total (avg_time runs total (mx - base) base) (mn - base) (mx - base)) /\
    bench_n_test_mbs now call runs = (Z.of_nat runs + 1, call (Z.of_nat runs),
      match call (Z.of_nat runs) with Returns _ => Some (Report total (avg_time runs total (mx - base) base) (mn - base) (mx - base)) | Throws _ => None end).
Proof.
  intros S N. destruct (timed_least now call runs 2001 0 S N) as (mn & mx & E & A & B).
  exists (calibrate now calibrations 0 max_double), mn, mx.
  split; [apply overhead_calibrate; [exact S|pose proof max_double_big; lia]|]. split; [exact A|]. split; [exact B|]. cbv zeta.
  unfold bench_n_test, bench_n_test_mbs. rewrite E. rewrite Z.add_0_l.
  split; [reflexivity|]. destruct (call (Z.of_nat runs)); reflexivity.
Qed.

Lemma timings_length now step n : forall first, length (timings now step first n) = n.
Proof. induction n as [|n IH]; intros first; cbn [timings length]; [reflexivity|]. rewrite IH. reflexivity. Qed.

Lemma timings_sum now n : forall first,
  (forall i, 0 <= i < Z.of_nat n -> now (first + 2 * i + 1) = now (first + 2 * i + 2)) ->
  sum (timings now 2 first n) = now (first + 2 * Z.of_nat n) - now first.
Proof.
  induction n as [|n IH]; intros first H; cbn [timings].
  - cbn. rewrite Z.add_0_r. lia.
  - unfold sum. cbn [fold_right]. fold (sum (timings now 2 (first + 2) n)). rewrite IH.
    + pose proof (H 0 ltac:(lia)) as E. replace (first + 2 * 0 + 1) with (first + 1) in E by lia. replace (first + 2 * 0 + 2) with (first + 2) in E by lia.
      replace (first + 2 * Z.of_nat (S n)) with (first + 2 + 2 * Z.of_nat n) by lia. lia.
    + intros i I. specialize (H (i + 1) ltac:(lia)). replace (first + 2 + 2 * i + 1) with (first + 2 * (i + 1) + 1) by lia.
      replace (first + 2 + 2 * i + 2) with (first + 2 * (i + 1) + 2) by lia. exact H.
Qed.

Lemma back_elapsed now runs : back_to_back now runs ->
  now (2001 + 2 * Z.of_nat runs) - now 2000 = sum (timings now 2 2001 runs).
Proof. intros (A & B). rewrite timings_sum by exact B. lia. Qed.

Lemma injz_nz z : z <> 0 -> ~ (inject_Z z == 0)%Q.
Proof. intros H E. apply H. unfold Qeq in E. cbn in E. lia. Qed.

Lemma avg_small runs S base mx : (2 <= runs < 10)%nat ->
  (avg_time runs (S - Z.of_nat runs * base) mx base == inject_Z S / inject_Z (Z.of_nat runs) - inject_Z (2 * base))%Q.
Proof.
  intros L. unfold avg_time. replace (10 <=? runs)%nat with false by (symmetry; apply Nat.leb_gt; lia).
  replace (1 <? runs)%nat with true by (symmetry; apply Nat.ltb_lt; lia). cbv zeta.
  unfold Z.sub. rewrite inject_Z_plus, inject_Z_opp, !inject_Z_mult. field. apply injz_nz. lia.
Qed.
Lemma avg_large runs S base mx : (10 <= runs)%nat ->
  (avg_time runs (S - Z.of_nat runs * base) (mx - base) base == inject_Z (S - mx) / inject_Z (Z.of_nat runs - 1) - inject_Z (2 * base))%Q.
Proof.
  intros L. unfold avg_time. replace (10 <=? runs)%nat with true by (symmetry; apply Nat.leb_le; lia). cbv zeta.
  replace (S - Z.of_nat runs * base - (mx - base)) with ((S - mx) - (Z.of_nat runs - 1) * base) by lia.
  set (k := Z.of_nat runs - 1). assert (~ (inject_Z k == 0)%Q) by (apply injz_nz; lia).
  set (a := S - mx). unfold Z.sub. rewrite inject_Z_plus, inject_Z_opp, !inject_Z_mult. field. assumption.
Qed.
Lemma avg_one S base : (avg_time 1 (S - 1 * base) (S - base) base == - inject_Z base)%Q.
Proof. unfold avg_time. change (10 <=? 1)%nat with false. change (1 <? 1)%nat with false. cbv zeta. replace (S - 1 * base - (S - base)) with 0 by lia. change (inject_Z 0) with 0%Q. field. Qed.

(** * The loops that keep every time *)

Lemma mbs2_good {R} now (call : Z -> outcome R) valid n : forall tick k acc,
  (forall i, k <= i < k + Z.of_nat n -> good call valid i) ->
  mbs2_loop now call valid n tick k acc = (k + Z.of_nat n, Returns (acc ++ timings now 4 tick n)).
Proof.
  induction n as [|n IH]; intros tick k acc H; cbn [mbs2_loop timings].
  - rewrite app_nil_r, Z.add_0_r. reflexivity.
  - destruct (H k ltac:(lia)) as (r & -> & V). rewrite V. cbn [negb]. cbv zeta. rewrite IH by (intros i I; apply H; lia).
    rewrite <- app_assoc. cbn [app]. f_equal. lia.
Qed.
Lemma mbs2_bad {R} now (call : Z -> outcome R) valid e : forall j n tick k acc,
  (j < n)%nat -> (forall i, k <= i < k + Z.of_nat j -> good call valid i) -> failure call valid (k + Z.of_nat j) e ->
  mbs2_loop now call valid n tick k acc = (k + Z.of_nat j + 1, Throws e).
Proof.
  induction j as [|j IH]; intros n tick k acc L H F; (destruct n as [|n]; [lia|]); cbn [mbs2_loop].
  - rewrite Z.add_0_r in *. destruct F as [->|(r & -> & V & ->)]; [reflexivity|]. rewrite V. reflexivity.
  - destruct (H k ltac:(lia)) as (r & -> & V). rewrite V. cbn [negb]. cbv zeta. rewrite IH.
    + f_equal; lia.
    + lia.
    + intros i I. apply H. lia.
    + replace (k + 1 + Z.of_nat j) with (k + Z.of_nat (S j)) by lia. exact F.
Qed.
Lemma json_val_good {R} now (call : Z -> outcome R) valid base n : forall tick k acc,
  (forall i, k <= i < k + Z.of_nat n -> good call valid i) ->
  json_val_loop now call valid base n tick k acc = (k + Z.of_nat n, Returns (acc ++ map (fun d => d - base) (timings now 2 tick n))).
Proof.
  induction n as [|n IH]; intros tick k acc H; cbn [json_val_loop timings map].
  - rewrite app_nil_r, Z.add_0_r. reflexivity.
  - destruct (H k ltac:(lia)) as (r & -> & V). rewrite V. cbn [negb]. cbv zeta. rewrite IH by (intros i I; apply H; lia).
    rewrite <- app_assoc. cbn [app]. f_equal. lia.
Qed.
Lemma json_val_bad {R} now (call : Z -> outcome R) valid base e : forall j n tick k acc,
  (j < n)%nat -> (forall i, k <= i < k + Z.of_nat j -> good call valid i) -> failure call valid (k + Z.of_nat j) e ->
  json_val_loop now call valid base n tick k acc = (k + Z.of_nat j + 1, Throws e).
Proof.
  induction j as [|j IH]; intros n tick k acc L H F; (destruct n as [|n]; [lia|]); cbn [json_val_loop].
  - rewrite Z.add_0_r in *. destruct F as [->|(r & -> & V & ->)]; [reflexivity|]. rewrite V. reflexivity.
  - destruct (H k ltac:(lia)) as (r & -> & V). rewrite V. cbn [negb]. cbv zeta. rewrite IH.
    + f_equal; lia.
    + lia.
    + intros i I. apply H. lia.
    + replace (k + 1 + Z.of_nat j) with (k + Z.of_nat (S j)) by lia. exact F.
Qed.
Lemma json_is_val {R} now (call : Z -> outcome R) base n : forall tick k acc,
  json_loop now call base n tick k acc = json_val_loop now call (fun _ => true) base n tick k acc.
Proof. induction n as [|n IH]; intros tick k acc; cbn [json_loop json_val_loop negb]; [reflexivity|]. destruct (call k); [apply IH|reflexivity]. Qed.

(** * Texts *)

Lemma fixed_digits_near prec val : (Qabs.Qabs (shown (fixed_digits prec val) prec - val) * inject_Z (2 * 10 ^ Z.of_nat prec) <= 1)%Q.
Proof.
  set (P := inject_Z (10 ^ Z.of_nat prec)). assert (HP : (0 < P)%Q). { unfold P. change 0%Q with (inject_Z 0). rewrite <- Zlt_Qlt. apply Z.pow_pos_nonneg; lia. }
  assert (A : (Qabs.Qabs (inject_Z (fixed_digits prec val) - val * P) <= 1 # 2)%Q).
  { unfold fixed_digits. cbv zeta. fold P. set (x := (val * P)%Q). pose proof (Qfloor_le x) as F1. pose proof (Qlt_floor x) as F2. rewrite inject_Z_plus in F2. change (inject_Z 1) with 1%Q in F2.
    apply Qabs.Qabs_Qle_condition. destruct (Qlt_le_dec (x - inject_Z (Qfloor x)) (1 # 2)) as [H|H].
    - split; lra.
    - destruct (Qlt_le_dec (1 # 2) (x - inject_Z (Qfloor x))) as [K|K].
      + rewrite inject_Z_plus. change (inject_Z 1) with 1%Q. split; lra.
      + destruct (Z.even (Qfloor x)); [|rewrite inject_Z_plus; change (inject_Z 1) with 1%Q]; split; lra. }
  rewrite inject_Z_mult. fold P. unfold shown. fold P. set (d := inject_Z (fixed_digits prec val)) in *.
  assert (E : (Qabs.Qabs (d / P - val) * (inject_Z 2 * P) == Qabs.Qabs (d - val * P) * 2)%Q).
  { transitivity (Qabs.Qabs ((d / P - val) * P) * 2)%Q.
    - rewrite Qabs.Qabs_Qmult, (Qabs.Qabs_pos P) by lra. change (inject_Z 2) with 2%Q. ring.
    - apply Qmult_comp; [|reflexivity]. apply Qabs.Qabs_wd. field. lra. }
  rewrite E. lra.
Qed.

(** The chain of divisions keeps the amount: a unit is 1000 times the one before. *)
Lemma pick_value {U} (size : U -> Q) : forall rest val u,
  (forall l1 a b l2, u :: rest = l1 ++ a :: b :: l2 -> (size b == (1000 # 1) * size a)%Q) ->
  let '(v, w) := pick val u rest in (v * size w == val * size u)%Q.
Proof.
  induction rest as [|u' rest IH]; intros val u H; cbn [pick]; [reflexivity|].
  destruct (Qlt_le_dec val (1000 # 1)) as [L|L]; [reflexivity|].
  specialize (IH (val / (1000 # 1))%Q u'). destruct (pick (val / (1000 # 1)) u' rest) as [v w]. rewrite IH.
  - rewrite (H [] u u' rest eq_refl). field.
  - intros l1 a b l2 E. apply (H (u :: l1) a b l2). rewrite E. reflexivity.
Qed.
Lemma pick_small {U} : forall rest val (u : U),
  let '(v, w) := pick val u rest in ((v < 1000 # 1)%Q \/ w = last rest u) /\ (w <> u -> (1 <= v)%Q).
Proof.
  induction rest as [|u' rest IH]; intros val u; cbn [pick]; [split; [right; reflexivity|congruence]|].
  destruct (Qlt_le_dec val (1000 # 1)) as [L|L]; [split; [left; exact L|congruence]|].
  specialize (IH (val / (1000 # 1))%Q u'). destruct (pick (val / (1000 # 1)) u' rest) as [v w] eqn:E. destruct IH as (A & B). split.
  - destruct A as [A| ->]; [left; exact A|right]. symmetry. clear. revert u u'. induction rest as [|x rest IH]; intros u u'; [reflexivity|]. change (last (u' :: x :: rest) u) with (last (x :: rest) u). rewrite (IH u x), (IH u' x). reflexivity.
  - intros _. assert (G : (1 <= val / (1000 # 1))%Q) by (apply Qle_shift_div_l; lra).
    clear - E G. revert val u' v w E G. induction rest as [|u2 rest IH]; intros val u' v w E G; cbn [pick] in E; [inversion E; subst; exact G|].
    destruct (Qlt_le_dec (val / (1000 # 1)) (1000 # 1)) as [L|L]; [inversion E; subst; exact G|]. eapply IH; [exact E|]. apply Qle_shift_div_l; lra.
Qed.

(** * The statements of the properties *)

Lemma cx_equal_same T U t u : cx_cmp_equal T U t u = cmp_equal T U t u.
Proof.
  unfold cx_cmp_equal, cmp_equal. cbv zeta. destruct (Bool.eqb (signed T) (signed U)); [reflexivity|].
  destruct (signed T).
  - destruct (Z.leb_spec 0 t), (Z.ltb_spec t 0); try lia; reflexivity.
  - destruct (Z.leb_spec 0 u), (Z.ltb_spec u 0); try lia; reflexivity.
Qed.
Lemma cx_less_same T U t u : cx_cmp_less T U t u = cmp_less T U t u.
Proof.
  unfold cx_cmp_less, cmp_less. cbv zeta. destruct (Bool.eqb (signed T) (signed U)); [reflexivity|].
  destruct (signed T).
  - destruct (Z.ltb_spec t 0); reflexivity.
  - destruct (Z.leb_spec 0 u), (Z.ltb_spec u 0); try lia; reflexivity.
Qed.

Lemma c288_bench_n_test :
  forall (R : Type) now (call : Z -> outcome R) runs, steady now -> (0 < runs)%nat ->
  exists base mn mx avg, overhead now base /\ least (timings now 2 2001 runs) mn /\ greatest (timings now 2 2001 runs) mx /\
    let total := now (2001 + 2 * Z.of_nat runs) - now 2000 - Z.of_nat runs * base in
    bench_n_test now call runs = (Z.of_nat runs + 1, call (Z.of_nat runs), Report total avg (mn - base) (mx - base)).
Proof.
  intros R now call runs S N. destruct (bench_n_test_spec now call runs S N) as (base & mn & mx & A & B & C & D & _). exists base, mn, mx. eexists. split; [exact A|]. split; [exact B|]. split; [exact C|]. exact D.
Qed.

Lemma c288_bench_n_test_mbs :
  forall (R : Type) now (call : Z -> outcome R) runs, let '(calls, result, report) := bench_n_test now call runs in
  bench_n_test_mbs now call runs = (calls, result, match result with Returns _ => Some report | Throws _ => None end).
Proof.
  intros R now call runs. unfold bench_n_test, bench_n_test_mbs. destruct (timed_runs now call runs 2001 0 max_double 0) as [[[t k] mn] mx]. cbv zeta. destruct (call k); reflexivity.
Qed.

Lemma c288_bench_test :
  forall (R : Type) now (call : Z -> outcome R), fst (bench_test now call) = call 0 /\
  (forall r, call 0 = Returns r -> snd (bench_test now call) = Some (now 1 - now 0) /\ benchmark now call = Returns (now 1 - now 0)) /\
  (forall e, call 0 = Throws e -> snd (bench_test now call) = None /\ benchmark now call = Throws e).
Proof.
  intros R now call. unfold bench_test, benchmark. split; [destruct (call 0); reflexivity|]. split; intros x ->; split; reflexivity.
Qed.

Lemma c289_average_partial :
  forall (R : Type) now (call : Z -> outcome R) runs, steady now -> back_to_back now runs -> overhead now 0 -> (2 <= runs < 10)%nat ->
  (r_avg (snd (bench_n_test now call runs)) == mean (timings now 2 2001 runs))%Q.
Proof.
  intros R now call runs S B H L. destruct (bench_n_test_spec now call runs S ltac:(lia)) as (base & mn & mx & A & _ & _ & E & _). rewrite (least_unique _ _ _ A H) in E. rewrite E. cbn [snd r_avg].
  rewrite (back_elapsed _ _ B). rewrite avg_small by exact L. unfold mean. rewrite timings_length. cbn. unfold Qminus. rewrite Qplus_0_r. reflexivity.
Qed.

Lemma c289_average_refuted :
  forall (R : Type) now (call : Z -> outcome R) runs base, steady now -> back_to_back now runs -> overhead now base ->
  let avg := r_avg (snd (bench_n_test now call runs)) in let times := timings now 2 2001 runs in
  (runs = 1%nat -> (avg == - inject_Z base)%Q) /\
  ((2 <= runs < 10)%nat -> (avg == mean times - inject_Z (2 * base))%Q) /\
  ((10 <= runs)%nat -> exists mx, greatest times mx /\ (avg == inject_Z (sum times - mx) / inject_Z (Z.of_nat runs - 1) - inject_Z (2 * base))%Q).
Proof.
  intros R now call runs base S B H. cbv zeta. split; [|split]; intros L.
  - subst runs. destruct (bench_n_test_spec now call 1 S ltac:(lia)) as (b & mn & mx & A & _ & G & E & _). rewrite (least_unique _ _ _ A H) in E. rewrite E. cbn [snd r_avg].
    rewrite (back_elapsed _ _ B). assert (mx = sum (timings now 2 2001 1)) as -> by (destruct G as ([<-|[]] & _); unfold sum; cbn [timings fold_right]; lia). change (Z.of_nat 1) with 1. apply avg_one.
  - destruct (bench_n_test_spec now call runs S ltac:(lia)) as (b & mn & mx & A & _ & G & E & _). rewrite (least_unique _ _ _ A H) in E. rewrite E. cbn [snd r_avg].
    rewrite (back_elapsed _ _ B). rewrite avg_small by exact L. unfold mean. rewrite timings_length. reflexivity.
  - destruct (bench_n_test_spec now call runs S ltac:(lia)) as (b & mn & mx & A & _ & G & E & _). rewrite (least_unique _ _ _ A H) in E. rewrite E. cbn [snd r_avg].
    exists mx. split; [exact G|]. rewrite (back_elapsed _ _ B). apply avg_large. exact L.
Qed.

Lemma c290_times :
  forall (R : Type) now (call : Z -> outcome R) valid runs base, steady now -> overhead now base -> (forall k, 0 <= k < Z.of_nat runs -> good call valid k) ->
  bench_n_test_mbs2 now call valid runs = (Z.of_nat runs, Returns (timings now 4 2000 runs)) /\
  bench_n_test_json_val now call valid runs = (Z.of_nat runs, Returns (map (fun d => d - base) (timings now 2 2000 runs))).
Proof.
  intros R now call valid runs base S O H. unfold bench_n_test_mbs2, bench_n_test_json_val. rewrite mbs2_good by exact H. rewrite json_val_good by exact H. cbn [app]. split; [reflexivity|].
  rewrite (least_unique _ _ _ (overhead_calibrate now max_ll S ltac:(unfold max_ll; lia)) O). reflexivity.
Qed.

Lemma c290_invalid :
  forall (R : Type) now (call : Z -> outcome R) valid runs k e, (k < runs)%nat -> (forall i, 0 <= i < Z.of_nat k -> good call valid i) -> failure call valid (Z.of_nat k) e ->
  bench_n_test_mbs2 now call valid runs = (Z.of_nat k + 1, Throws e) /\ bench_n_test_json_val now call valid runs = (Z.of_nat k + 1, Throws e).
Proof.
  intros R now call valid runs k e L H F. unfold bench_n_test_mbs2, bench_n_test_json_val. split; [rewrite (mbs2_bad now call valid e k) by (auto; lia)|rewrite (json_val_bad now call valid _ e k) by (auto; lia)]; rewrite Z.add_0_l; reflexivity.
Qed.

Lemma c290_json :
  forall (R : Type) now (call : Z -> outcome R) runs, bench_n_test_json now call runs = bench_n_test_json_val now call (fun _ => true) runs.
Proof.
  intros. apply json_is_val.
Qed.

Lemma c290_negative_refuted :
  exists now, steady now /\ forall call : Z -> outcome unit, (forall k, call k = Returns tt) -> bench_n_test_json now call 1 = (1, Returns [-1]).
Proof.
  exists (fun i => Z.max 0 (Z.min i 2000)). split; [split; intros; lia|]. intros call H. unfold bench_n_test_json. cbn [json_loop]. rewrite H.
  replace (calibrate (fun i => Z.max 0 (Z.min i 2000)) calibrations 0 max_ll) with 1 by (vm_compute; reflexivity). reflexivity.
Qed.

Lemma c291_compare :
  forall T U t u, 0 < width T -> 0 < width U -> fits T t -> fits U u ->
  cx_cmp_equal T U t u = (t =? u) /\ cx_cmp_not_equal T U t u = negb (t =? u) /\ cx_cmp_less T U t u = (t <? u) /\ cx_cmp_greater T U t u = (u <? t) /\ cx_cmp_less_equal T U t u = (t <=? u) /\ cx_cmp_greater_equal T U t u = (u <=? t).
Proof.
  intros T U t u HT HU Ft Fu. unfold cx_cmp_not_equal, cx_cmp_greater, cx_cmp_less_equal, cx_cmp_greater_equal. rewrite !cx_equal_same, !cx_less_same. rewrite cmp_equal_ok by assumption. rewrite (cmp_less_ok T U), (cmp_less_ok U T) by assumption.
  rewrite <- !Z.leb_antisym. repeat split.
Qed.

Lemma c291_expecting :
  (forall T U t u, 0 < width T -> 0 < width U -> fits T t -> fits U u -> expecting T U t u = if t =? u then Returns tt else Throws expected_failure) /\
  (forall b, expecting_true b = if b then Returns tt else Throws expected_failure) /\ (forall b, expecting_message b = if b then Returns tt else Throws expected_failure).
Proof.
  split; [|split; intros []; reflexivity]. intros T U t u HT HU Ft Fu. unfold expecting. rewrite cx_equal_same, cmp_equal_ok by assumption. destruct (t =? u); reflexivity.
Qed.

Lemma c291_expecting_exception :
  forall (R : Type) is_a pred (expression : outcome R), (forall e, exists b, pred e = Returns b) ->
  (expecting_exception is_a pred expression = Returns tt <-> exists e, expression = Throws e /\ is_a e = true /\ pred e = Returns true) /\
  (forall e, expression = Throws e -> is_a e = false -> expecting_exception is_a pred expression = Throws e) /\
  (forall e, expression = Throws e -> is_a e = true -> pred e = Returns false -> expecting_exception is_a pred expression = Throws expected_failure) /\
  (forall r, expression = Returns r -> expecting_exception is_a pred expression = Throws expected_failure).
Proof.
  intros R is_a pred x Hp. split; [split|].
  - unfold expecting_exception. destruct x as [r|e]; [discriminate|]. destruct (is_a e) eqn:A; [|discriminate]. destruct (pred e) as [[|]|] eqn:P; try discriminate. intros _. exists e. auto.
  - intros (e & -> & A & P). cbn. rewrite A, P. reflexivity.
  - split; [intros e -> A; cbn; rewrite A; reflexivity|]. split; [intros e -> A P; cbn; rewrite A, P; reflexivity|]. intros r ->. reflexivity.
Qed.

Lemma c291_nan_refuted :
  forall x, fle NaN x = false /\ fle x NaN = false /\ fp_cmp_less_equal NaN x = true /\ fp_cmp_less_equal x NaN = true /\ fp_cmp_greater_equal NaN x = true /\ fp_cmp_greater_equal x NaN = true.
Proof.
  intros x. destruct x; repeat split.
Qed.

Lemma c292_format_seconds :
  forall t prec, let '(digits, u) := format_seconds t prec in
  exists v, (v * seconds_of u == t)%Q /\ (Qabs.Qabs (shown digits prec - v) * inject_Z (2 * 10 ^ Z.of_nat prec) <= 1)%Q /\ ((v < 1000 # 1)%Q \/ u = s_) /\ (u <> fs -> (1 <= v)%Q).
Proof.
  intros t prec. unfold format_seconds.
  pose proof (pick_value seconds_of [ps; ns; us; ms; s_] (t * inject_Z (10 ^ 15))%Q fs) as A. pose proof (pick_small [ps; ns; us; ms; s_] (t * inject_Z (10 ^ 15))%Q fs) as B.
  destruct (pick _ fs _) as [v u]. destruct B as (B1 & B2). exists v. split; [rewrite A; [change (inject_Z (10 ^ 15)) with (1000000000000000 # 1); unfold seconds_of; field|]|].
  - intros l1 a b l2 E. repeat (destruct l1 as [|? l1]; cbn [app] in E; [injection E as <- <- _; reflexivity|injection E as _ E]). exfalso. apply (f_equal (@length _)) in E. rewrite app_length in E. cbn [length] in E. lia.
  - split; [apply fixed_digits_near|]. split; [exact B1|exact B2].
Qed.

Lemma c292_bytes :
  forall bytes t prec, ~ (t == 0)%Q -> let '(digits, u) := to_bytes_per_second bytes t prec in
  exists v, (v * bytes_of u == bytes / t)%Q /\ (Qabs.Qabs (shown digits prec - v) * inject_Z (2 * 10 ^ Z.of_nat prec) <= 1)%Q /\ ((v < 1000 # 1)%Q \/ u = PB) /\ (u <> bytes_ -> (1 <= v)%Q).
Proof.
  intros bytes t prec _. unfold to_bytes_per_second.
  pose proof (pick_value bytes_of [KB; MB; GB; TB; PB] (bytes / t)%Q bytes_) as A. pose proof (pick_small [KB; MB; GB; TB; PB] (bytes / t)%Q bytes_) as B.
  destruct (pick _ bytes_ _) as [v u]. destruct B as (B1 & B2). exists v. split; [rewrite A; [unfold bytes_of; ring|]|].
  - intros l1 a b l2 E. repeat (destruct l1 as [|? l1]; cbn [app] in E; [injection E as <- <- _; reflexivity|injection E as _ E]). exfalso. apply (f_equal (@length _)) in E. rewrite app_length in E. cbn [length] in E. lia.
  - split; [|split; [exact B1|exact B2]]. pose proof (fixed_digits_near prec (v * (100 # 1) / (100 # 1))%Q) as N.
    assert (E : (v * (100 # 1) / (100 # 1) == v)%Q) by field. generalize dependent (fixed_digits prec (v * (100 # 1) / (100 # 1))%Q). intros d N. rewrite E in N. exact N.
Qed.

Lemma c292_shown_refuted :
  format_seconds (9999999 # 10000000) 2 = (100000, ms) /\ forall t prec, (t < 0)%Q -> snd (format_seconds t prec) = fs.
Proof.
  split; [vm_compute; reflexivity|]. intros t prec H. unfold format_seconds. cbn [pick]. destruct (Qlt_le_dec (t * inject_Z (10 ^ 15)) (1000 # 1)) as [L|L]; [reflexivity|exfalso]. change (inject_Z (10 ^ 15)) with (1000000000000000 # 1) in L. lra.
Qed.

Lemma c291_numbers_l :
  forall x y, x <> NaN -> y <> NaN ->
  fp_cmp_equal x y = feq x y /\ fp_cmp_not_equal x y = negb (feq x y) /\ fp_cmp_less x y = flt x y /\ fp_cmp_greater x y = flt y x /\
  fp_cmp_less_equal x y = fle x y /\ fp_cmp_greater_equal x y = fle y x.
Proof.
  intros x y NX NY. destruct x as [a|s|], y as [b|t|]; try congruence; unfold fp_cmp_equal, fp_cmp_not_equal, fp_cmp_less, fp_cmp_greater, fp_cmp_less_equal, fp_cmp_greater_equal, fle, flt, feq, fp_cmp_equal, fp_cmp_less;
    repeat split; try (destruct s, t; reflexivity); try (destruct s; reflexivity); try (destruct t; reflexivity); unfold flt; try (destruct (Z.ltb_spec a b), (Z.ltb_spec b a), (Z.eqb_spec a b), (Z.eqb_spec b a); try reflexivity; lia).
Qed.
