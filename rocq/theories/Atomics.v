(** Model of include/daw/daw_atomic_wait.h, daw_allow_once.h,
    daw_countable_resource.h and daw_cx_atomic.h.  No proofs in this file.

    Every atomic operation is one indivisible step, so an execution of several
    threads is one sequence of steps; memory orders weaker than sequential
    consistency are not modelled. *)
From Verif Require Import Common Ints Math.
Open Scope Z_scope.

(** ** daw_atomic_wait.h

    The calling thread sees the rest of the world through two functions of the
    number of steps it has made: the value a load at that step returns, and the time
    (nanoseconds, a 64-bit count) a clock read at that step returns. *)
Inductive wait_status := found | timeout.

Section World.
Variable val : nat -> Z.
Variable clk : nat -> Z.

Section Wait.
(** [ok]: the condition waited for, "current != old" in atomic_wait_for, the
    predicate in atomic_wait_if_for. *)
Variable ok : Z -> bool.

(** 95-98 and 215-219: up to [tries] more loads.  A yield is one step. *)
Fixpoint spin (tries : nat) (current : Z) (t : nat) : Z * nat :=
  match tries with
  | O => (current, t)
  | S tries => if ok current then (current, t) else spin tries (val (S t)) (S (S t))
  end.

(** 99-107 and 220-229 poll_fn: its result, the loaded value, the next step. *)
Definition poll_fn (final_time : Z) (t : nat) : bool * Z * nat :=
  let current := val t in
  if ok current then (true, current, S t)
  else (clk (S t) >=? final_time, current, S (S t)).

(** 41-64 poll_with_backoff with timed_backoff_policy (24-38), which never stops the
    loop; a sleep is one step.  The variable count is an int that stops at 64.
    [fuel] iterations; the last loaded value and the next step. *)
Fixpoint poll_loop (fuel : nat) (start_time max_elapsed final_time : Z) (count : nat) (t : nat) : res (Z * nat) :=
  match fuel with
  | O => OutOfFuel
  | S fuel =>
      let '(b, current, t) := poll_fn final_time t in
      if (b : bool) then Ok (current, t)
      else if (count <? 64)%nat then poll_loop fuel start_time max_elapsed final_time (S count) t
      else
        elapsed <- calc i64 (clk t - start_time) ;;
        if elapsed >=? max_elapsed then Ok (current, S t)
        else poll_loop fuel start_time max_elapsed final_time count (S (S t))
  end.

(** 86-113 atomic_wait_for and 206-237 atomic_wait_if_for: the status and the number
    of steps made.  [rel_time] in nanoseconds. *)
Definition wait_for (fuel : nat) (rel_time : Z) : res (wait_status * nat) :=
  final_time <- calc i64 (clk 0 + rel_time) ;;
  let current := val 1 in
  let '(current, t) := spin 16 current 2 in
  let start_time := clk t in
  ' (current, t) <- poll_loop fuel start_time rel_time final_time 0 (S t) ;;
  Ok (if ok current then found else timeout, t).
End Wait.

Definition atomic_wait_for (fuel : nat) (old rel_time : Z) : res (wait_status * nat) :=
  wait_for (fun current => negb (current =? old)) fuel rel_time.
Definition atomic_wait_if_for (fuel : nat) (predicate : Z -> bool) (rel_time : Z) : res (wait_status * nat) :=
  wait_for predicate fuel rel_time.
(** 310-322 atomic_wait_value_equal_for. *)
Definition atomic_wait_value_equal_for (fuel : nat) (desired_value rel_time : Z) : res (wait_status * nat) :=
  atomic_wait_if_for fuel (fun current_value => current_value =? desired_value) rel_time.

(** std::atomic_wait_explicit( object, current ): returns once a load differs from
    [current] (every change is assumed to be notified). *)
Fixpoint std_wait (fuel : nat) (current : Z) (t : nat) : res nat :=
  match fuel with
  | O => OutOfFuel
  | S fuel => if val t =? current then std_wait fuel current (S t) else Ok (S t)
  end.
(** 162-172 atomic_wait_if: the value that ended the wait, and the next step. *)
Fixpoint wait_if_loop (fuel : nat) (predicate : Z -> bool) (current : Z) (t : nat) : res (Z * nat) :=
  if predicate current then Ok (current, t)
  else
    match fuel with
    | O => OutOfFuel
    | S fuel' =>
        t <- std_wait fuel current t ;;
        wait_if_loop fuel' predicate (val t) (S t)
    end.
Definition atomic_wait_if (fuel : nat) (predicate : Z -> bool) : res (Z * nat) :=
  wait_if_loop fuel predicate (val 0) 1.
(** 276-287 atomic_wait_value_equal. *)
Definition atomic_wait_value_equal (fuel : nat) (desired_value : Z) : res (Z * nat) :=
  atomic_wait_if fuel (fun current_value => current_value =? desired_value).
End World.

(** ** daw_allow_once.h: 14-31 allow_once_t; a call by any thread is one step. *)
Inductive once_op := OnceCheck | OnceReset.
Definition once_step (m_called : bool) (op : once_op) : bool * option bool :=
  match op with
  | OnceCheck => (true, Some m_called)
  | OnceReset => (false, None)
  end.
Fixpoint once_run (m_called : bool) (ops : list once_op) : list (option bool) :=
  match ops with
  | [] => []
  | op :: ops => let (m_called, r) := once_step m_called op in r :: once_run m_called ops
  end.
(** The answers of a new allow_once_t to calls in this order. *)
Definition allow_once (ops : list once_op) : list (option bool) := once_run false ops.

(** ** daw_countable_resource.h: 16-42; the counter after an operation on some
    object.  operator= increments and then has no return statement. *)
Inductive count_op := CountConstruct | CountCopy | CountAssign | CountDestroy.
Definition count_step (T : ity) (n : Z) (op : count_op) : res Z :=
  match op with
  | CountConstruct | CountCopy => Ok (conv T (n + 1))
  | CountAssign => UB
  | CountDestroy => Ok (conv T (n - 1))
  end.
Fixpoint count_run (T : ity) (n : Z) (ops : list count_op) : res Z :=
  match ops with
  | [] => Ok n
  | op :: ops => n <- count_step T n op ;; count_run T n ops
  end.

(** ** daw_cx_atomic.h: atomic<T> for an integral T.  One operation: the new value
    and the result.  At run time (std::atomic_ref) arithmetic wraps; in constant
    evaluation it is the built-in operator. *)
Inductive atomic_op :=
| AStore (b : Z) | ALoad | AExchange (b : Z) | ACas (expected desired : Z)
| AFetchAdd (a : Z) | AFetchSub (a : Z) | AAddAssign (a : Z) | ASubAssign (a : Z)
| APreInc | APostInc | APreDec | APostDec
| AFetchAnd (a : Z) | AFetchOr (a : Z) | AFetchXor (a : Z).
(** The result: a value, or for compare_exchange whether it succeeded and the new
    value of expected. *)
Inductive atomic_result := RNone | RValue (v : Z) | RCas (b : bool) (expected : Z).

Section Cx.
Variable T : ity.
Variable consteval_ : bool.
(** m_value op= arg *)
Definition cx_arith (z : Z) : res Z := if consteval_ then assign_op T z else Ok (conv T z).
(** 79-318. *)
Definition atomic_step (m_value : Z) (op : atomic_op) : res (Z * atomic_result) :=
  match op with
  | AStore b => Ok (b, RNone)
  | ALoad => Ok (m_value, RValue m_value)
  | AExchange b => Ok (b, RValue m_value)
  | ACas expected desired =>
      if m_value =? expected then Ok (desired, RCas true expected) else Ok (m_value, RCas false m_value)
  | AFetchAdd a => v <- cx_arith (m_value + a) ;; Ok (v, RValue m_value)
  | AFetchSub a => v <- cx_arith (m_value - a) ;; Ok (v, RValue m_value)
  | AAddAssign a => v <- cx_arith (m_value + a) ;; Ok (v, RValue v)
  | ASubAssign a => v <- cx_arith (m_value - a) ;; Ok (v, RValue v)
  | APreInc => v <- cx_arith (m_value + 1) ;; Ok (v, RValue v)
  | APostInc => v <- cx_arith (m_value + 1) ;; Ok (v, RValue m_value)
  | APreDec => v <- cx_arith (m_value - 1) ;; Ok (v, RValue v)
  | APostDec => v <- cx_arith (m_value - 1) ;; Ok (v, RValue m_value)
  | AFetchAnd a => Ok (Z.land m_value a, RValue m_value)
  | AFetchOr a => Ok (Z.lor m_value a, RValue m_value)
  | AFetchXor a => Ok (Z.lxor m_value a, RValue m_value)
  end.
Fixpoint atomic_run (m_value : Z) (ops : list atomic_op) : res (Z * list atomic_result) :=
  match ops with
  | [] => Ok (m_value, [])
  | op :: ops =>
      ' (v, r) <- atomic_step m_value op ;;
      ' (v, rs) <- atomic_run v ops ;;
      Ok (v, r :: rs)
  end.
End Cx.
