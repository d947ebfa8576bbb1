(** Vocabulary of the properties of the benchmark functions. *)
From Coq Require Import QArith.
From Verif Require Import Common Benchmark.
Open Scope Z_scope.

(** The readings of a clock that never goes back and fits a 64-bit integer. *)
Definition steady (now : Z -> Z) : Prop :=
  (forall i j, i <= j -> now i <= now j) /\ (forall i, 0 <= now i < 2 ^ 63).

(** The durations of [n] consecutive measurements, each by two readings, [step] readings
    apart, from reading [first] on. *)
Fixpoint timings (now : Z -> Z) (step first : Z) (n : nat) : list Z :=
  match n with
  | O => []
  | S n => (now (first + 1) - now first) :: timings now step (first + step) n
  end.

Definition least (l : list Z) (m : Z) : Prop := In m l /\ forall x, In x l -> m <= x.
Definition greatest (l : list Z) (m : Z) : Prop := In m l /\ forall x, In x l -> x <= m.
Definition sum (l : list Z) : Z := fold_right Z.add 0 l.
Definition mean (l : list Z) : Q := (inject_Z (sum l) / inject_Z (Z.of_nat (length l)))%Q.

(** The cost of an empty measurement: the least of the 1000 that precede the runs. *)
Definition overhead (now : Z -> Z) (base : Z) : Prop := least (timings now 2 0 1000) base.

(** No time passes between the measurements of the runs. *)
Definition back_to_back (now : Z -> Z) (runs : nat) : Prop :=
  now 2000 = now 2001 /\ forall i, 0 <= i < Z.of_nat runs -> now (2001 + 2 * i + 1) = now (2001 + 2 * i + 2).

(** Call [k] returns a value that the validator accepts. *)
Definition good {R : Type} (call : Z -> outcome R) (valid : R -> bool) (k : Z) : Prop :=
  exists r, call k = Returns r /\ valid r = true.
(** What a bad call makes of the benchmark. *)
Definition failure {R : Type} (call : Z -> outcome R) (valid : R -> bool) (k e : Z) : Prop :=
  call k = Throws e \/ (exists r, call k = Returns r /\ valid r = false /\ e = expected_failure).

(** The length of a unit in seconds and the size of a unit in bytes. *)
Definition seconds_of (u : time_unit) : Q :=
  match u with
  | fs => (1 # 1000000000000000) | ps => (1 # 1000000000000) | ns => (1 # 1000000000)
  | us => (1 # 1000000) | ms => (1 # 1000) | s_ => 1
  end.
Definition bytes_of (u : size_unit) : Q :=
  match u with
  | bytes_ => 1 | KB => (1000 # 1) | MB => (1000000 # 1)
  | GB => (1000000000 # 1) | TB => (1000000000000 # 1) | PB => (1000000000000000 # 1)
  end.
(** The number that is shown by digits with [prec] decimals. *)
Definition shown (digits : Z) (prec : nat) : Q := (inject_Z digits / inject_Z (10 ^ Z.of_nat prec))%Q.
