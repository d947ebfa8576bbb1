(** Model of daw_benchmark.h and of the comparison objects of daw_cxmath.h.

    The clock and the callable are parameters: [now i] is the i-th reading of
    std::chrono::steady_clock in nanoseconds, counted from 0 within one call of the
    modelled function, and [call k] is what the k-th call of the callable does.
    Simplifications: durations in seconds (doubles in the code) are exact numbers of
    nanoseconds and averages are exact rationals, so that rounding of the statistics is
    not modelled; what is printed is returned as numbers and not as text; arguments of
    the callable are part of [call]; do_not_optimize does nothing.  Builds with
    exceptions.  No proofs in this file. *)
From Coq Require Import QArith Qround.
From Verif Require Import Common Ints BitsModel Floats.
Open Scope Z_scope.

(** What a call does. *)
Inductive outcome (R : Type) := Returns (r : R) | Throws (e : Z).
Arguments Returns {R} r.
Arguments Throws {R} e.

(** max_value<double> seconds, in nanoseconds; max_value<long long>. *)
Definition max_double : Z := (2 ^ 53 - 1) * 2 ^ 971 * 10 ^ 9.
Definition max_ll : Z := 2 ^ 63 - 1.

(** * Timing, lines 41-50 and 141-596 *)
Section Bench.
  Context {R : Type}.
  Variable now : Z -> Z.
  Variable call : Z -> outcome R.

  (** benchmark, lines 42-50: the time of one call; an exception leaves the function. *)
  Definition benchmark : outcome Z :=
    let start := now 0 in
    match call 0 with
    | Throws e => Throws e
    | Returns _ => let finish := now 1 in Returns (finish - start)
    end.

  (** The calibration loop, lines 221-241, 333-351, 387-405, 497-517 and 553-573: the
      least of [n] timings of an empty function, starting with reading [tick]. *)
  Fixpoint calibrate (n : nat) (tick base : Z) : Z :=
    match n with
    | O => base
    | S n => let start := now tick in
             let finish := now (tick + 1) in
             let duration := finish - start in
             calibrate n (tick + 2) (if duration <? base then duration else base)
    end.
  Definition calibrations : nat := 1000.

  (** The loop of the timed runs, lines 246-267 and 410-431.  Exceptions of the callable
      are swallowed.  The result is the next reading and call, min_time and max_time. *)
  Fixpoint timed_runs (n : nat) (tick k mn mx : Z) : Z * Z * Z * Z :=
    match n with
    | O => (tick, k, mn, mx)
    | S n => let start := now tick in
             let k' := match call k with Returns _ => k + 1 | Throws _ => k + 1 end in
             let finish := now (tick + 1) in
             let duration := finish - start in
             timed_runs n (tick + 2) k'
               (if duration <? mn then duration else mn)
               (if duration >? mx then duration else mx)
    end.

  (** What is printed by bench_n_test. *)
  Record report := Report { r_total : Z; r_avg : Q; r_min : Z; r_max : Z }.

  (** avg_time, lines 289-299 and 456-465. *)
  Definition avg_time (runs : nat) (total mx base : Z) : Q :=
    let avg :=
      if (10 <=? runs)%nat then (inject_Z (total - mx) / inject_Z (Z.of_nat runs - 1))%Q
      else if (1 <? runs)%nat then (inject_Z total / inject_Z (Z.of_nat runs))%Q
      else (inject_Z (total - mx) / 1)%Q in
    (avg - inject_Z base)%Q.

  (** bench_n_test< Runs >, lines 213-307: the number of calls, the expected_t result
      and the report. *)
  Definition bench_n_test (runs : nat) : Z * outcome R * report :=
    let base := calibrate calibrations 0 max_double in
    let total_start := now 2000 in
    let '(tick, k, mn, mx) := timed_runs runs 2001 0 max_double 0 in
    let total_finish := now tick in
    let result := call k in
    let mn := mn - base in
    let mx := mx - base in
    let total := total_finish - total_start - Z.of_nat runs * base in
    (k + 1, result, Report total (avg_time runs total mx base) mn mx).

  (** bench_n_test_mbs< Runs >, lines 380-482: as before, but nothing is printed when the
      last call throws.  The throughputs are computed from the same times. *)
  Definition bench_n_test_mbs (runs : nat) : Z * outcome R * option report :=
    let base := calibrate calibrations 0 max_double in
    let total_start := now 2000 in
    let '(tick, k, mn, mx) := timed_runs runs 2001 0 max_double 0 in
    let total_finish := now tick in
    match call k with
    | Throws e => (k + 1, Throws e, None)
    | Returns r =>
        let mn := mn - base in
        let mx := mx - base in
        let total := total_finish - total_start - Z.of_nat runs * base in
        (k + 1, Returns r, Some (Report total (avg_time runs total mx base) mn mx))
    end.

  (** bench_test, lines 142-167: the expected_t result and the printed time, if any. *)
  Definition bench_test : outcome R * option Z :=
    let start := now 0 in
    match call 0 with
    | Throws e => (Throws e, None)
    | Returns r => let finish := now 1 in (Returns r, Some (finish - start))
    end.

  (** expected_failure. *)
  Definition expected_failure : Z := 0.

  (** The loop of bench_n_test_mbs2, lines 354-377: [valid r] is what the validator says.
      Every run takes four readings: two for the callable, two for the validator. *)
  Variable valid : R -> bool.
  Fixpoint mbs2_loop (n : nat) (tick k : Z) (results : list Z) : Z * outcome (list Z) :=
    match n with
    | O => (k, Returns results)
    | S n => let start := now tick in
             match call k with
             | Throws e => (k + 1, Throws e)
             | Returns r =>
                 let finish := now (tick + 1) in
                 if negb (valid r) then (k + 1, Throws expected_failure)
                 else let duration := finish - start in
                      mbs2_loop n (tick + 4) (k + 1) (results ++ [duration])
             end
    end.
  Definition bench_n_test_mbs2 (runs : nat) : Z * outcome (list Z) := mbs2_loop runs 2000 0 [].

  (** bench_n_test_json_val, lines 542-596. *)
  Fixpoint json_val_loop (base : Z) (n : nat) (tick k : Z) (results : list Z) : Z * outcome (list Z) :=
    match n with
    | O => (k, Returns results)
    | S n => let start := now tick in
             match call k with
             | Throws e => (k + 1, Throws e)
             | Returns r =>
                 let finish := now (tick + 1) in
                 if negb (valid r) then (k + 1, Throws expected_failure)
                 else let duration := finish - start - base in
                      json_val_loop base n (tick + 2) (k + 1) (results ++ [duration])
             end
    end.
  Definition bench_n_test_json_val (runs : nat) : Z * outcome (list Z) :=
    json_val_loop (calibrate calibrations 0 max_ll) runs 2000 0 [].

  (** bench_n_test_json, lines 490-532: without a validator. *)
  Fixpoint json_loop (base : Z) (n : nat) (tick k : Z) (results : list Z) : Z * outcome (list Z) :=
    match n with
    | O => (k, Returns results)
    | S n => let start := now tick in
             match call k with
             | Throws e => (k + 1, Throws e)
             | Returns _ =>
                 let finish := now (tick + 1) in
                 let duration := finish - start - base in
                 json_loop base n (tick + 2) (k + 1) (results ++ [duration])
             end
    end.
  Definition bench_n_test_json (runs : nat) : Z * outcome (list Z) :=
    json_loop (calibrate calibrations 0 max_ll) runs 2000 0 [].
End Bench.

(** * Texts of times and sizes, lines 52-121 *)

(** The chain of [if( val < 1000 ) … val /= 1000.0;], for units given from the smallest;
    the last unit takes what is left.  Exact rationals instead of doubles. *)
Fixpoint pick {U : Type} (val : Q) (u : U) (rest : list U) : Q * U :=
  match rest with
  | [] => (val, u)
  | u' :: rest => if Qlt_le_dec val (1000 # 1) then (val, u) else pick (val / (1000 # 1)) u' rest
  end.

(** operator<< with std::fixed and std::setprecision( prec ): the digits without the
    point, that is the number of 10^-prec, to nearest, ties to even. *)
Definition fixed_digits (prec : nat) (val : Q) : Z :=
  let x := (val * inject_Z (10 ^ Z.of_nat prec))%Q in
  let q := Qfloor x in
  let r := (x - inject_Z q)%Q in
  if Qlt_le_dec r (1 # 2) then q
  else if Qlt_le_dec (1 # 2) r then q + 1
  else if Z.even q then q else q + 1.

Inductive time_unit := fs | ps | ns | us | ms | s_.
(** format_seconds( t, prec ), lines 53-85: the digits and the unit. *)
Definition format_seconds (t : Q) (prec : nat) : Z * time_unit :=
  let '(val, u) := pick (t * inject_Z (10 ^ 15))%Q fs [ps; ns; us; ms; s_] in
  (fixed_digits prec val, u).

Inductive size_unit := bytes_ | KB | MB | GB | TB | PB.
(** to_bytes_per_second( bytes, t, prec ), lines 87-121.  [t] is not zero. *)
Definition to_bytes_per_second (bytes t : Q) (prec : nat) : Z * size_unit :=
  let '(val, u) := pick (bytes / t)%Q bytes_ [KB; MB; GB; TB; PB] in
  (fixed_digits prec (val * (100 # 1) / (100 # 1))%Q, u).

(** * Comparison objects, daw_cxmath.h lines 1397-1491 *)

(** cmp_equal and cmp_less on integers, lines 1400-1419 and 1437-1456. *)
Definition cx_cmp_equal (T U : ity) (t u : Z) : bool :=
  if Bool.eqb (signed T) (signed U) then op_eq T U t u
  else if signed T then (0 <=? t) && op_eq (unsigned_of T) U (conv (unsigned_of T) t) u
  else (0 <=? u) && op_eq T (unsigned_of U) t (conv (unsigned_of U) u).
Definition cx_cmp_less (T U : ity) (t u : Z) : bool :=
  if Bool.eqb (signed T) (signed U) then op_lt T U t u
  else if signed T then (t <? 0) || op_lt (unsigned_of T) U (conv (unsigned_of T) t) u
  else (0 <=? u) && op_lt T (unsigned_of U) t (conv (unsigned_of U) u).
(** cmp_not_equal, cmp_greater, cmp_less_equal, cmp_greater_equal, lines 1423-1431 and
    1459-1490. *)
Definition cx_cmp_not_equal (T U : ity) (t u : Z) : bool := negb (cx_cmp_equal T U t u).
Definition cx_cmp_greater (T U : ity) (t u : Z) : bool := cx_cmp_less U T u t.
Definition cx_cmp_less_equal (T U : ity) (t u : Z) : bool := negb (cx_cmp_less U T u t).
Definition cx_cmp_greater_equal (T U : ity) (t u : Z) : bool := negb (cx_cmp_less T U t u).
(** The same objects on two floating point numbers: the built-in operators. *)
Definition fp_cmp_equal (x y : fp) : bool := feq x y.
Definition fp_cmp_less (x y : fp) : bool := flt x y.
Definition fp_cmp_not_equal (x y : fp) : bool := negb (fp_cmp_equal x y).
Definition fp_cmp_greater (x y : fp) : bool := fp_cmp_less y x.
Definition fp_cmp_less_equal (x y : fp) : bool := negb (fp_cmp_less y x).
Definition fp_cmp_greater_equal (x y : fp) : bool := negb (fp_cmp_less x y).

(** * Checks of tests, lines 626-709.  [Returns tt]: the function returns. *)

(** expecting( expected, result ) of integers of types [T] and [U], lines 626-643. *)
Definition expecting (T U : ity) (expected result : Z) : outcome unit :=
  if negb (cx_cmp_equal T U expected result) then Throws expected_failure else Returns tt.
(** expecting( b ), lines 645-655, and expecting_message( b, message ), lines 657-671. *)
Definition expecting_true (b : bool) : outcome unit :=
  if negb b then Throws expected_failure else Returns tt.
Definition expecting_message (b : bool) : outcome unit :=
  if negb b then Throws expected_failure else Returns tt.

(** expecting_exception< Exception >( expression, pred ), lines 682-709.  [is_a e] says
    whether the handler for Exception catches [e]. *)
Definition expecting_exception {R : Type} (is_a : Z -> bool) (pred : Z -> outcome bool) (expression : outcome R) : outcome unit :=
  match expression with
  | Returns _ => Throws expected_failure
  | Throws e =>
      if is_a e then
        match pred e with
        | Returns true => Returns tt
        | Returns false => Throws expected_failure
        | Throws e' => Throws e'
        end
      else Throws e
  end.
