(** Benchmark functions and checks of tests: theorems. *)
From Coq Require Import QArith Qabs.
From Verif Require Import Common Ints BitsModel Floats Benchmark SpecBenchmark BenchmarkProofs.
Open Scope Z_scope.

(** * C288 Benchmarks run and report what they say *)

(** bench_n_test calls the function Runs times, whether or not calls throw, and once more for the result, which is what that last call gives; the total, least and greatest times are those of the timed runs less the overhead of a measurement. *)
Theorem C288_bench_n_test :
  forall (R : Type) now (call : Z -> outcome R) runs, steady now -> (0 < runs)%nat ->
  exists base mn mx avg, overhead now base /\ least (timings now 2 2001 runs) mn /\ greatest (timings now 2 2001 runs) mx /\
    let total := now (2001 + 2 * Z.of_nat runs) - now 2000 - Z.of_nat runs * base in
    bench_n_test now call runs = (Z.of_nat runs + 1, call (Z.of_nat runs), Report total avg (mn - base) (mx - base)).
Proof. exact c288_bench_n_test. Qed.

(** bench_n_test_mbs does and reports the same, unless the last call throws: then nothing is reported. *)
Theorem C288_bench_n_test_mbs :
  forall (R : Type) now (call : Z -> outcome R) runs, let '(calls, result, report) := bench_n_test now call runs in
  bench_n_test_mbs now call runs = (calls, result, match result with Returns _ => Some report | Throws _ => None end).
Proof. exact c288_bench_n_test_mbs. Qed.

(** bench_test gives what the single call gives, also an exception; the time is the one between the readings before and after it. *)
Theorem C288_bench_test :
  forall (R : Type) now (call : Z -> outcome R), fst (bench_test now call) = call 0 /\
  (forall r, call 0 = Returns r -> snd (bench_test now call) = Some (now 1 - now 0) /\ benchmark now call = Returns (now 1 - now 0)) /\
  (forall e, call 0 = Throws e -> snd (bench_test now call) = None /\ benchmark now call = Throws e).
Proof. exact c288_bench_test. Qed.

(** A clock that advances by 3 with every reading, so that an empty measurement and a run take 3. *)
Example C288_nonvacuous : let now := fun i => Z.max 0 (Z.min (3 * i) 9000000) in let call := fun k => if k =? 1 then Throws 7 else Returns (10 * k) in
  steady now /\ timings now 2 2001 4 = [3; 3; 3; 3] /\ fst (bench_n_test now call 4) = (5, Returns 40) /\ r_total (snd (bench_n_test now call 4)) = 15 /\ r_min (snd (bench_n_test now call 4)) = 0.
Proof. cbv zeta. split; [split; intros; lia|]. repeat (match goal with |- _ /\ _ => split end); vm_compute; reflexivity. Qed.
Print Assumptions C288_bench_n_test.
Print Assumptions C288_bench_n_test_mbs.
Print Assumptions C288_bench_test.

(** * C289 The average time *)

(** If the clock is too coarse to see an empty measurement, the average of 2 to 9 runs without gaps is their mean. *)
Theorem C289_average_partial :
  forall (R : Type) now (call : Z -> outcome R) runs, steady now -> back_to_back now runs -> overhead now 0 -> (2 <= runs < 10)%nat ->
  (r_avg (snd (bench_n_test now call runs)) == mean (timings now 2 2001 runs))%Q.
Proof. exact c289_average_partial. Qed.

(** The average is not the mean run time less the overhead: for one run it is minus the overhead, whatever the run took; for more runs the overhead is taken off twice, and from 10 runs on the slowest run is left out. *)
Theorem C289_average_refuted :
  forall (R : Type) now (call : Z -> outcome R) runs base, steady now -> back_to_back now runs -> overhead now base ->
  let avg := r_avg (snd (bench_n_test now call runs)) in let times := timings now 2 2001 runs in
  (runs = 1%nat -> (avg == - inject_Z base)%Q) /\
  ((2 <= runs < 10)%nat -> (avg == mean times - inject_Z (2 * base))%Q) /\
  ((10 <= runs)%nat -> exists mx, greatest times mx /\ (avg == inject_Z (sum times - mx) / inject_Z (Z.of_nat runs - 1) - inject_Z (2 * base))%Q).
Proof. exact c289_average_refuted. Qed.

(** Runs of 5 each, without gaps, and empty measurements of 2: the average of one run is -2, that of 3 runs is 1 instead of 3. *)
Example C289_nonvacuous : let now := fun i => if i <? 0 then 0 else if i <? 2001 then 2 * i else 4000 + 5 * (Z.min (i - 2000) 90 / 2) in let call := fun _ : Z => Returns tt in
  now 2000 = now 2001 /\ now 2002 = now 2003 /\ timings now 2 2001 3 = [5; 5; 5] /\ r_min (snd (bench_n_test now call 1)) = 3 /\
  (r_avg (snd (bench_n_test now call 1)) == (-2 # 1))%Q /\ (r_avg (snd (bench_n_test now call 3)) == 1)%Q.
Proof. cbv zeta. repeat (match goal with |- _ /\ _ => split end); vm_compute; reflexivity. Qed.
Print Assumptions C289_average_partial.
Print Assumptions C289_average_refuted.

(** * C290 Benchmarks that return all times *)

(** The functions that return all times call the function Runs times and return one time per run, in order; the json forms take off the overhead. *)
Theorem C290_times :
  forall (R : Type) now (call : Z -> outcome R) valid runs base, steady now -> overhead now base -> (forall k, 0 <= k < Z.of_nat runs -> good call valid k) ->
  bench_n_test_mbs2 now call valid runs = (Z.of_nat runs, Returns (timings now 4 2000 runs)) /\
  bench_n_test_json_val now call valid runs = (Z.of_nat runs, Returns (map (fun d => d - base) (timings now 2 2000 runs))).
Proof. exact c290_times. Qed.

(** The first result that the validator rejects ends the benchmark with expected_failure, the first exception with that exception; no further call is made. *)
Theorem C290_invalid :
  forall (R : Type) now (call : Z -> outcome R) valid runs k e, (k < runs)%nat -> (forall i, 0 <= i < Z.of_nat k -> good call valid i) -> failure call valid (Z.of_nat k) e ->
  bench_n_test_mbs2 now call valid runs = (Z.of_nat k + 1, Throws e) /\ bench_n_test_json_val now call valid runs = (Z.of_nat k + 1, Throws e).
Proof. exact c290_invalid. Qed.

(** bench_n_test_json is bench_n_test_json_val with a validator that accepts everything. *)
Theorem C290_json :
  forall (R : Type) now (call : Z -> outcome R) runs, bench_n_test_json now call runs = bench_n_test_json_val now call (fun _ => true) runs.
Proof. exact c290_json. Qed.

(** A returned time can be negative: the run took less than the least empty measurement. *)
Theorem C290_negative_refuted :
  exists now, steady now /\ forall call : Z -> outcome unit, (forall k, call k = Returns tt) -> bench_n_test_json now call 1 = (1, Returns [-1]).
Proof. exact c290_negative_refuted. Qed.

Example C290_nonvacuous : let now := fun i => Z.max 0 (Z.min (i * i) 9000000) in let call := fun k => Returns (10 * k) in let valid := fun r => r <? 20 in
  good call valid 0 /\ good call valid 1 /\ failure call valid 2 expected_failure /\ bench_n_test_mbs2 now call valid 2 = (2, Returns [4001; 4009]) /\ bench_n_test_json_val now call valid 2 = (2, Returns [4000; 4004])
  /\ bench_n_test_mbs2 now call valid 5 = (3, Throws expected_failure).
Proof. cbv zeta. split; [exists 0; split; reflexivity|]. split; [exists 10; split; reflexivity|]. split; [right; exists 20; repeat split|]. repeat (match goal with |- _ /\ _ => split end); vm_compute; reflexivity. Qed.
Print Assumptions C290_times.
Print Assumptions C290_invalid.
Print Assumptions C290_json.
Print Assumptions C290_negative_refuted.

(** * C291 Checks of tests and comparison objects *)

(** The comparison objects of cxmath compare integers of any types, signed or not, by value. *)
Theorem C291_compare :
  forall T U t u, 0 < width T -> 0 < width U -> fits T t -> fits U u ->
  cx_cmp_equal T U t u = (t =? u) /\ cx_cmp_not_equal T U t u = negb (t =? u) /\ cx_cmp_less T U t u = (t <? u) /\ cx_cmp_greater T U t u = (u <? t) /\ cx_cmp_less_equal T U t u = (t <=? u) /\ cx_cmp_greater_equal T U t u = (u <=? t).
Proof. exact c291_compare. Qed.

(** expecting returns exactly if the two values are equal (the condition holds); otherwise it throws expected_failure. *)
Theorem C291_expecting :
  (forall T U t u, 0 < width T -> 0 < width U -> fits T t -> fits U u -> expecting T U t u = if t =? u then Returns tt else Throws expected_failure) /\
  (forall b, expecting_true b = if b then Returns tt else Throws expected_failure) /\ (forall b, expecting_message b = if b then Returns tt else Throws expected_failure).
Proof. exact c291_expecting. Qed.

(** expecting_exception returns exactly if the expression throws an exception of the given type that satisfies the predicate; other exceptions pass through, and a missing or refused one gives expected_failure. *)
Theorem C291_expecting_exception :
  forall (R : Type) is_a pred (expression : outcome R), (forall e, exists b, pred e = Returns b) ->
  (expecting_exception is_a pred expression = Returns tt <-> exists e, expression = Throws e /\ is_a e = true /\ pred e = Returns true) /\
  (forall e, expression = Throws e -> is_a e = false -> expecting_exception is_a pred expression = Throws e) /\
  (forall e, expression = Throws e -> is_a e = true -> pred e = Returns false -> expecting_exception is_a pred expression = Throws expected_failure) /\
  (forall r, expression = Returns r -> expecting_exception is_a pred expression = Throws expected_failure).
Proof. exact c291_expecting_exception. Qed.

(** On floating point numbers <= and >= are computed as the negation of the opposite <, so a NaN is less than or equal to, and greater than or equal to, everything. *)
Theorem C291_nan_refuted :
  forall x, fle NaN x = false /\ fle x NaN = false /\ fp_cmp_less_equal NaN x = true /\ fp_cmp_less_equal x NaN = true /\ fp_cmp_greater_equal NaN x = true /\ fp_cmp_greater_equal x NaN = true.
Proof. exact c291_nan_refuted. Qed.

Example C291_nonvacuous : fits i32 (-1) /\ fits u32 4294967295 /\ cx_cmp_equal i32 u32 (-1) 4294967295 = false /\ cx_cmp_less i32 u32 (-1) 0 = true /\ op_eq i32 u32 (-1) 4294967295 = true
  /\ expecting i32 u64 (-1) 18446744073709551615 = Throws expected_failure /\ expecting_exception (fun e => 5 <? e) (fun e => Returns (e =? 7)) (@Throws unit 7) = Returns tt
  /\ expecting_exception (fun e => 5 <? e) (fun e => Returns (e =? 7)) (@Throws unit 3) = Throws 3.
Proof. split; [split; vm_compute; discriminate|]. split; [split; vm_compute; discriminate|]. repeat split. Qed.
(** On two floating point numbers none of which is a NaN they all agree with the operators. *)
Theorem C291_numbers :
  forall x y, x <> NaN -> y <> NaN ->
  fp_cmp_equal x y = feq x y /\ fp_cmp_not_equal x y = negb (feq x y) /\ fp_cmp_less x y = flt x y /\ fp_cmp_greater x y = flt y x /\
  fp_cmp_less_equal x y = fle x y /\ fp_cmp_greater_equal x y = fle y x.
Proof. exact c291_numbers_l. Qed.
Print Assumptions C291_numbers.
Print Assumptions C291_compare.
Print Assumptions C291_expecting.
Print Assumptions C291_expecting_exception.
Print Assumptions C291_nan_refuted.

(** * C292 Texts of times and throughputs *)

(** The text of a time is the time in the chosen unit, rounded to the given number of decimals; the unit is the one in which the number is below 1000 and, above femtoseconds, at least 1. *)
Theorem C292_format_seconds :
  forall t prec, let '(digits, u) := format_seconds t prec in
  exists v, (v * seconds_of u == t)%Q /\ (Qabs.Qabs (shown digits prec - v) * inject_Z (2 * 10 ^ Z.of_nat prec) <= 1)%Q /\ ((v < 1000 # 1)%Q \/ u = s_) /\ (u <> fs -> (1 <= v)%Q).
Proof. exact c292_format_seconds. Qed.

(** The text of a throughput is bytes / time in the chosen unit, rounded; units go by factors of 1000. *)
Theorem C292_bytes :
  forall bytes t prec, ~ (t == 0)%Q -> let '(digits, u) := to_bytes_per_second bytes t prec in
  exists v, (v * bytes_of u == bytes / t)%Q /\ (Qabs.Qabs (shown digits prec - v) * inject_Z (2 * 10 ^ Z.of_nat prec) <= 1)%Q /\ ((v < 1000 # 1)%Q \/ u = PB) /\ (u <> bytes_ -> (1 <= v)%Q).
Proof. exact c292_bytes. Qed.

(** The unit is chosen before rounding, so that 0.9999999 s is shown as 1000.00ms; negative times, which the statistics do produce, are always shown in femtoseconds. *)
Theorem C292_shown_refuted :
  format_seconds (9999999 # 10000000) 2 = (100000, ms) /\ forall t prec, (t < 0)%Q -> snd (format_seconds t prec) = fs.
Proof. exact c292_shown_refuted. Qed.

(** 1.5 ms, and 2 000 000 bytes in half a second. *)
Example C292_nonvacuous : format_seconds (15 # 10000) 2 = (150, ms) /\ shown 150 2 = (150 # 100)%Q /\ to_bytes_per_second (2000000 # 1) (1 # 2) 1 = (40, MB) /\ format_seconds (-1 # 1) 0 = (- 10 ^ 15, fs).
Proof. repeat (match goal with |- _ /\ _ => split end); vm_compute; reflexivity. Qed.
Print Assumptions C292_format_seconds.
Print Assumptions C292_bytes.
Print Assumptions C292_shown_refuted.
