(** Properties C112-C116: timed waits, waits for a predicate, allow_once, counted
    resources and atomic<T>.

    [val t] and [clk t]: what a load and a reading of the clock by the waiting thread
    at its step [t] would return; they are arbitrary, so they stand for everything
    the other threads may do. *)
From Verif Require Import Common Ints Math SpecBits Atomics SpecAtomics AtomicsProofs.
From Coq Require Import Permutation.
Open Scope Z_scope.

(** * C112: timed waits. *)
(** found: the condition held at a moment of the call. *)
Theorem C112_found_partial val clk p fuel rel n :
  atomic_wait_if_for val clk fuel p rel = Ok (found, n) -> exists t, (t < n)%nat /\ p (val t) = true.
Proof. exact (wait_found val clk p fuel rel n). Qed.
Theorem C112_changed_partial val clk fuel old rel n :
  atomic_wait_for val clk fuel old rel = Ok (found, n) -> exists t, (t < n)%nat /\ negb (val t =? old) = true.
Proof. exact (wait_found val clk (fun c => negb (c =? old)) fuel rel n). Qed.
Theorem C112_equal_partial val clk fuel desired rel n :
  atomic_wait_value_equal_for val clk fuel desired rel = Ok (found, n) -> exists t, (t < n)%nat /\ (val t =? desired) = true.
Proof. exact (wait_found val clk (fun c => c =? desired) fuel rel n). Qed.
(** timeout: the time is over, and the condition did not hold at the last load (at
    most two steps before the end). *)
Theorem C112_timeout_partial val clk p fuel rel n : monotone clk ->
  atomic_wait_if_for val clk fuel p rel = Ok (timeout, n) ->
  (exists t, (t < n)%nat /\ clk 0%nat + rel <= clk t) /\ exists t, (t < n <= t + 3)%nat /\ p (val t) = false.
Proof. exact (wait_timeout val clk p fuel rel n). Qed.
(** The wait ends once the time is over, or the condition holds for good. *)
Theorem C112_ends_partial val clk p rel t0 : clock_fits clk -> fits i64 (clk 0%nat + rel) ->
  (forall t, (t0 <= t)%nat -> clk 0%nat + rel <= clk t) \/ (forall t, (t0 <= t)%nat -> p (val t) = true) ->
  exists r, atomic_wait_if_for val clk (S t0) p rel = Ok r.
Proof. exact (wait_terminates val clk p rel t0). Qed.
(** A condition that comes to hold for good before the time is over is found. *)
Theorem C112_not_missed_partial val clk p fuel rel st n t0 : monotone clk ->
  (forall t, (t0 <= t)%nat -> p (val t) = true) -> (forall t, (t <= t0 + 1)%nat -> clk t < clk 0%nat + rel) ->
  atomic_wait_if_for val clk fuel p rel = Ok (st, n) -> st = found.
Proof. exact (wait_not_missed val clk p fuel rel st n t0). Qed.
(** A condition that was seen to hold, by the first load, is reported as a timeout if
    it does not hold later. *)
Theorem C112_lost_refuted val clk p rel t0 : clock_fits clk -> fits i64 (clk 0%nat + rel) ->
  (forall t, (t0 <= t)%nat -> clk 0%nat + rel <= clk t) ->
  p (val 1%nat) = true -> (forall t, (2 <= t)%nat -> p (val t) = false) ->
  exists n, atomic_wait_if_for val clk (S t0) p rel = Ok (timeout, n).
Proof. exact (wait_lost val clk p rel t0). Qed.
(** A time that does not fit the clock (wait for ever) overflows. *)
Theorem C112_overflow_refuted val clk p fuel rel : ~ fits i64 (clk 0%nat + rel) ->
  atomic_wait_if_for val clk fuel p rel = UB.
Proof. exact (wait_overflow val clk p fuel rel). Qed.
Print Assumptions C112_found_partial.
Print Assumptions C112_changed_partial.
Print Assumptions C112_equal_partial.
Print Assumptions C112_timeout_partial.
Print Assumptions C112_ends_partial.
Print Assumptions C112_not_missed_partial.
Print Assumptions C112_lost_refuted.
Print Assumptions C112_overflow_refuted.

(** One nanosecond per step.  The value becomes 7 at step 60 and stays: found.  It
    never changes: timeout.  It is 7 only at step 1: timeout. *)
Definition ticking (t : nat) : Z := Z.of_nat t.
Example C112_nontrivial :
  atomic_wait_for (fun t => if (60 <=? t)%nat then 7 else 0) ticking 300 0 200 = Ok (found, 62%nat) /\
  atomic_wait_for (fun t => 0) ticking 300 0 100 = Ok (timeout, 101%nat) /\
  atomic_wait_for (fun t => if (t =? 1)%nat then 7 else 0) ticking 300 0 100 = Ok (timeout, 101%nat) /\
  atomic_wait_value_equal_for (fun t => Z.of_nat t) ticking 300 50 100 = Ok (timeout, 101%nat) /\
  atomic_wait_if_for (fun t => Z.of_nat t) ticking 300 (fun v => v >? 50) 100 = Ok (found, 52%nat).
Proof. repeat split; vm_compute; reflexivity. Qed.
Example C112_overflow_nontrivial : ~ fits i64 (ticking 0 + 2 ^ 63) /\ monotone ticking /\ clock_fits (fun t => Z.min (ticking t) 1000).
Proof.
  unfold monotone, clock_fits, ticking. split; [cbv; intros [_ H]; apply H; reflexivity|]. split; [intros; lia|].
  intros t. assert (highest i64 = 2 ^ 63 - 1) by reflexivity. lia.
Qed.

(** * C113: waits for a predicate. *)
Theorem C113_holds val fuel p c n : atomic_wait_if val fuel p = Ok (c, n) ->
  exists t, c = val t /\ p c = true /\ n = S t.
Proof. exact (wait_if_holds val fuel p c n). Qed.
Theorem C113_equal val fuel desired c n : atomic_wait_value_equal val fuel desired = Ok (c, n) -> c = desired.
Proof. exact (wait_equal_holds val fuel desired c n). Qed.
Theorem C113_ends val p t0 : (forall t, (t0 <= t)%nat -> p (val t) = true) ->
  exists r, atomic_wait_if val (S t0) p = Ok r.
Proof. exact (wait_if_terminates val p t0). Qed.
Print Assumptions C113_holds.
Print Assumptions C113_equal.
Print Assumptions C113_ends.
Example C113_nontrivial :
  atomic_wait_if (fun t => Z.of_nat (t / 4)) 100 (fun v => v >? 5) = Ok (6, 26%nat) /\
  atomic_wait_value_equal (fun t => if (t <? 30)%nat then Z.of_nat (Nat.modulo t 3) else 9) 100 9 = Ok (9, 31%nat).
Proof. split; vm_compute; reflexivity. Qed.

(** * C114: allow_once.

    [pre]: all calls of all threads, in their order, before the one looked at. *)
(** A check answers whether there was a check since the last reset. *)
Theorem C114_first pre post : nth_error (allow_once (pre ++ OnceCheck :: post)) (length pre) =
  Some (Some (checked_since_reset pre)).
Proof. exact (once_meaning pre post). Qed.
(** Among any number of checks exactly the first is told it is first. *)
Theorem C114_one_winner n : allow_once (repeat OnceCheck (S n)) = Some false :: repeat (Some true) n.
Proof. exact (once_fresh n). Qed.
(** Between two resets exactly one check gets the answer false. *)
Theorem C114_per_reset pre n post :
  firstn (S n) (skipn (length pre + 1) (allow_once (pre ++ OnceReset :: repeat OnceCheck (S n) ++ post))) =
  Some false :: repeat (Some true) n.
Proof. exact (once_after_reset pre n post). Qed.
Print Assumptions C114_first.
Print Assumptions C114_one_winner.
Print Assumptions C114_per_reset.
Example C114_nontrivial :
  allow_once [OnceCheck; OnceCheck; OnceReset; OnceReset; OnceCheck; OnceCheck] =
    [Some false; Some true; None; None; Some false; Some true].
Proof. reflexivity. Qed.

(** * C115: the number of living counted resources. *)
Theorem C115_live_partial T ops n : 0 < width T -> fits T n -> ~ In CountAssign ops ->
  count_run T n ops = Ok (conv T (n + live ops)).
Proof. exact (count_live T ops n). Qed.
Theorem C115_exact_partial T ops n : 0 < width T -> fits T n -> ~ In CountAssign ops -> fits T (n + live ops) ->
  count_run T n ops = Ok (n + live ops).
Proof. exact (count_exact T ops n). Qed.
(** An assignment is undefined behaviour: operator= has no return statement. *)
Theorem C115_assign_refuted T n ops : count_run T n (CountAssign :: ops) = UB.
Proof. exact (eq_refl UB). Qed.
Print Assumptions C115_live_partial.
Print Assumptions C115_exact_partial.
Print Assumptions C115_assign_refuted.
Example C115_nontrivial : count_run i32 0 [CountConstruct; CountCopy; CountDestroy; CountCopy; CountConstruct; CountDestroy] = Ok 2.
Proof. reflexivity. Qed.

(** * C116: atomic<T>.

    [ops]: the operations of all threads in the order in which they take effect. *)
(** No update is lost, whatever the order. *)
Theorem C116_no_lost_update T v ops threads : 0 < width T -> fits T v -> Forall (fun op => amount op <> None) ops ->
  Permutation ops (concat threads) -> exists rs, atomic_run T false v ops = Ok (conv T (v + total (concat threads)), rs).
Proof. exact (run_any_order T v ops threads). Qed.
(** x++ hands out consecutive values, all different. *)
Theorem C116_tickets T n v : 0 < width T -> fits T v -> Z.of_nat n <= 2 ^ width T ->
  exists v' rs, atomic_run T false v (repeat APostInc n) = Ok (v', rs) /\ length rs = n /\ NoDup rs /\
    forall i, (i < n)%nat -> nth_error rs i = Some (RValue (conv T (v + Z.of_nat i))).
Proof. exact (tickets_all T n v). Qed.
(** Of several compare_exchange operations that expect the current value and want
    another one, exactly the first succeeds, and the others learn its value. *)
Theorem C116_one_winner T c e d ds : d <> e ->
  atomic_run T c e (map (ACas e) (d :: ds)) = Ok (d, RCas true e :: map (fun _ => RCas false d) ds).
Proof. exact (cas_winner T c e d ds). Qed.
(** What constant evaluation accepts it computes as at run time. *)
Theorem C116_constexpr T ops v r : std_width (width T) -> atomic_run T true v ops = Ok r -> atomic_run T false v ops = Ok r.
Proof. exact (fun W => run_agrees T W ops v r). Qed.
(** Plain loads, stores and exchanges; the bit operations. *)
Theorem C116_plain T c v b : atomic_run T c v [AStore b; ALoad; AExchange v; ALoad] = Ok (v, [RNone; RValue b; RValue b; RValue v]).
Proof. exact (eq_refl _). Qed.
Theorem C116_bits T c v a k : exists v1 v2 v3,
  atomic_run T c v [AFetchAnd a] = Ok (v1, [RValue v]) /\ Z.testbit v1 k = Z.testbit v k && Z.testbit a k /\
  atomic_run T c v [AFetchOr a] = Ok (v2, [RValue v]) /\ Z.testbit v2 k = Z.testbit v k || Z.testbit a k /\
  atomic_run T c v [AFetchXor a] = Ok (v3, [RValue v]) /\ Z.testbit v3 k = xorb (Z.testbit v k) (Z.testbit a k).
Proof. exact (atomic_bits T c v a k). Qed.
Theorem C116_old_or_new T v op a : 0 < width T -> fits T v -> amount op = Some a ->
  atomic_step T false v op = Ok (conv T (v + a), RValue (if returns_old op then v else conv T (v + a))).
Proof. exact (step_result T v op a). Qed.
Print Assumptions C116_no_lost_update.
Print Assumptions C116_tickets.
Print Assumptions C116_one_winner.
Print Assumptions C116_constexpr.
Print Assumptions C116_plain.
Print Assumptions C116_bits.
Print Assumptions C116_old_or_new.
Example C116_nontrivial :
  atomic_run u8 false 250 [AFetchAdd 10; APreInc; APostDec; ASubAssign 5] = Ok (255, [RValue 250; RValue 5; RValue 5; RValue 255]) /\
  atomic_run i32 true 2147483647 [APreInc] = UB /\
  atomic_run i32 true 5 [APreInc; ACas 6 9; ACas 6 1; AFetchXor 3] = Ok (10, [RValue 6; RCas true 6; RCas false 9; RValue 9]).
Proof. repeat split; vm_compute; reflexivity. Qed.
