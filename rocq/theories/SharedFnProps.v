(** The properties of daw_shared_function.h: C242-C244.
    The vocabulary is in SpecSharedFn.v. *)
From Coq Require Import List ZArith Bool Lia.
From Verif Require Import Common Ints SharedFn SpecSharedFn SharedFnProofs.
Import ListNotations.
Open Scope Z_scope.

(** * C242 Shared functions are safe to use from several threads *)

(** Whatever the threads do and in whatever order: no deleted storage is used, no storage is deleted twice, no function is called that is not there. (Throw: the using program made a mistake with a variable, see SharedFn.v.) *)
Theorem C242_safe :
  forall n m es, room n m -> (exists w, run (initial n m) es = Ok w) \/ run (initial n m) es = Throw.
Proof. exact c242_safe. Qed.

(** A statement that has started is not a mistake any more: it can always go on. *)
Theorem C242_inside :
  forall n m w t op b, room n m -> reachable n m w -> (t < length (pcs w))%nat -> ~ idle w t ->
  exists w', step w (t, op, b) = Ok w'.
Proof. exact c242_inside. Qed.

(** No thread waits for another: alone it ends its statement after at most seven accesses. *)
Theorem C242_finishes :
  forall n m w t op, room n m -> reachable n m w -> (t < length (pcs w))%nat ->
  exists c w', (c <= 7)%nat /\ run w (repeat (t, op, false) c) = Ok w' /\ idle w' t.
Proof. exact c242_finishes. Qed.

(** What a statement does to the variables when the other threads rest. *)
Theorem C242_alone :
  forall n m w t op w1, room n m -> reachable n m w -> all_idle w -> (t < length (pcs w))%nat -> step w (t, op, false) = Ok w1 ->
  exists c w', (c <= 7)%nat /\ run w1 (repeat (t, op, false) c) = Ok w' /\ all_idle w' /\ slots w' = meant w op.
Proof. exact c242_alone. Qed.

(** Thread 1 locks while thread 0 destroys the only owner; the lock sees the counter
    before and after. *)
Definition race : list event :=
  let x := Call 0 in
  [(0, Make 0, false); (0, GetWeak 1 0, false); (0, x, false); (1, Lock 2 1, false); (0, Destroy 0, false); (1, x, false)]%nat.
Example C242_nonvacuous :
  room 4 2 /\
  (exists w, run (initial 4 2) race = Ok w /\ nth_error (pcs w) 1 = Some (Cas 2 1 0 1) /\ nth_error (pcs w) 0 = Some (DecStrong 0)) /\
  run (initial 4 2) [(0, Make 0, false); (0, Copy 1 0, false); (1, Destroy 0, false)]%nat = Throw /\
  (let w := World [Some (Strong (Some 0)); Some (Weak (Some 0)); None; None] [Store 1 2 true false 0] [Idle; Idle] in
   run (initial 4 2) (firstn 3 race) = Ok w /\ meant w (Lock 2 1) = upd (slots w) 2 (Some (Strong (Some 0))) /\
   meant w (Move 3 0) = [Some (Strong None); Some (Weak (Some 0)); None; Some (Strong (Some 0))])%nat.
Proof. split; [unfold room; cbn; lia|]. split; [eexists; repeat split|]. split; [reflexivity|]. repeat split. Qed.
Print Assumptions C242_safe.
Print Assumptions C242_inside.
Print Assumptions C242_finishes.
Print Assumptions C242_alone.

(** * C243 How long a shared function lives *)

(** While a handle owns the function it is alive, at every moment of every schedule. *)
Theorem C243_owner :
  forall n m w k i, room n m -> reachable n m w -> owner w k i -> fn_lives w k.
Proof. exact c243_owner. Qed.

(** So is a function that is running. *)
Theorem C243_call :
  forall n m w t j k, room n m -> reachable n m w -> nth_error (pcs w) t = Some (InCall j k) -> fn_lives w k.
Proof. exact c243_call. Qed.

(** While a handle of either kind refers to it, its memory is there. *)
Theorem C243_memory :
  forall n m w k i, room n m -> reachable n m w -> refers w k i -> memory_allocated w k.
Proof. exact c243_memory. Qed.

(** A function is alive and not destroyed or it was destroyed exactly once. *)
Theorem C243_once :
  forall n m w k, room n m -> reachable n m w -> made w k -> fn_lives w k \/ fn_gone w k.
Proof. exact c243_once. Qed.

(** When no statement is under way, exactly the functions with an owner are alive and exactly those with a handle have memory. *)
Theorem C243_no_leak :
  forall n m w k, room n m -> reachable n m w -> all_idle w -> made w k ->
  (fn_lives w k <-> exists i, owner w k i) /\ (memory_allocated w k <-> exists i, refers w k i).
Proof. exact c243_no_leak. Qed.

(** One variable owns function 0 and one refers to it; then the owner goes, then the other. *)
Example C243_nonvacuous :
  (exists w, run (initial 4 2) (firstn 3 race) = Ok w /\ all_idle w /\ owner w 0 0 /\ refers w 0 1 /\ made w 0) /\
  (exists w, run (initial 4 2) (firstn 3 race ++ repeat (0%nat, Destroy 0, false) 4) = Ok w /\ all_idle w /\ fn_gone w 0 /\ memory_allocated w 0) /\
  (exists w, run (initial 4 2) (firstn 3 race ++ repeat (0%nat, Destroy 0, false) 4 ++ repeat (1%nat, Destroy 1, false) 3) = Ok w /\
     stores w = [Store 0 0 false true 1]) /\
  (exists w, run (initial 4 2) [(0, Make 0, false); (1, Call 0, false)]%nat = Ok w /\ nth_error (pcs w) 1 = Some (InCall 0 0)).
Proof.
  repeat split; eexists; repeat split; try reflexivity; try (repeat constructor; fail); try (right; reflexivity);
    try (eexists; repeat split; reflexivity).
Qed.
Print Assumptions C243_owner.
Print Assumptions C243_call.
Print Assumptions C243_memory.
Print Assumptions C243_once.
Print Assumptions C243_no_leak.

(** * C244 Locking a weak handle *)

(** lock( ) gives an empty handle only when no handle owns the function, and then no handle will ever own it again. *)
Theorem C244_empty :
  forall n m w t op b w' i k, room n m -> reachable n m w -> locking w t i k -> step w (t, op, b) = Ok w' ->
  nth_error (slots w') i = Some (Some (Strong None)) ->
  (forall o, ~ owner w k o) /\ (forall w'' o, later w' w'' -> ~ owner w'' k o).
Proof. exact c244_empty. Qed.

(** A function that was destroyed is not destroyed again and no handle, however it was made, owns it. *)
Theorem C244_gone :
  forall n m w k, room n m -> reachable n m w -> fn_gone w k ->
  forall w', later w w' -> fn_gone w' k /\ (forall o, ~ owner w' k o).
Proof. exact c244_gone. Qed.

(** lock( ) of a function with an owner gives an owner. *)
Theorem C244_lock :
  forall n m w t op i j k w1, room n m -> reachable n m w -> all_idle w -> (t < length (pcs w))%nat ->
  op = Lock i j -> variable w j = Some (Weak (Some k)) -> (exists o, owner w k o) -> step w (t, op, false) = Ok w1 ->
  exists c w', (c <= 7)%nat /\ run w1 (repeat (t, op, false) c) = Ok w' /\ owner w' k i.
Proof. exact c244_lock. Qed.

(** The lock of [race] fails when the destructor of the last owner gets in between and
    succeeds when it does not. *)
Example C244_nonvacuous :
  (exists w w', run (initial 4 2) (race ++ [(0%nat, Call 0, false)]) = Ok w /\ locking w 1 2 0 /\
     step w (1%nat, Call 0, false) = Ok w' /\ nth_error (slots w') 2 = Some (Some (Strong None)) /\
     (exists w'', later w' w'' /\ fn_gone w'' 0)) /\
  (exists w, run (initial 4 2) (race ++ [(1, Call 0, false); (0, Call 0, false); (1, Call 0, false)]%nat) = Ok w /\ owner w 0 2 /\ fn_lives w 0).
Proof.
  split.
  - eexists; eexists. split; [reflexivity|]. split; [exists 1%nat; right; exists 1; reflexivity|]. split; [reflexivity|]. split; [reflexivity|].
    eexists. split; [exists [(0%nat, Call 0, false)]; reflexivity|]. eexists; repeat split; reflexivity.
  - eexists. split; [reflexivity|]. split; [reflexivity|]. eexists; repeat split; reflexivity.
Qed.
Print Assumptions C244_empty.
Print Assumptions C244_gone.
Print Assumptions C244_lock.
