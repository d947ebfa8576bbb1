(** Property C117: shared ownership through rc_ptr.

    [arr]: rc_ptr<T[]> or rc_ptr<T>.  [good_program]: the statements use existing
    variables, and are not among those the refuted theorems are about. *)
From Verif Require Import Common Ints RcPtr SpecRc RcProofs.
Open Scope Z_scope.

(** * C117 *)
(** After every history the objects that exist are those some variable points to:
    each is deleted exactly when its last owner goes, never twice and never too
    early; every pointer can be dereferenced and use_count is the number of owners. *)
Theorem C117_ownership_partial arr ops : Z.of_nat (length ops) < 2 ^ 64 -> good_program arr rc_start ops ->
  exists w, rc_run arr rc_start ops = Ok w /\
    (forall k, (k < length (objects w))%nat -> (alive w k <-> exists i, points w i k)) /\
    (forall i k, points w i k -> rc_deref w i = Ok k) /\
    (forall i k p, nth_error (vars w) i = Some (Some p) -> m_pointer p = Some k ->
       exists r, ref_count w p = Ok (r, Z.of_nat (owners w k))).
Proof. exact (rc_sound arr ops). Qed.
(** reset of a shared pointer does not empty it, but gives up its share. *)
Theorem C117_reset_refuted arr ops w i k : Z.of_nat (length ops) < 2 ^ 64 -> good_program arr rc_start ops ->
  rc_run arr rc_start ops = Ok w -> points w i k -> shared w i ->
  exists w', rc_step arr w (RcReset i) = Ok w' /\ points w' i k.
Proof. exact (reset_shared arr ops w i k). Qed.
(** So the object is deleted while another variable points to it, and deleted again
    (undefined behaviour) when that variable goes. *)
Theorem C117_use_after_delete_refuted arr : exists w,
  rc_run arr rc_start [RcMake; RcCopy 0; RcReset 0; RcDestroy 0] = Ok w /\
  points w 1 0 /\ ~ alive w 0 /\ rc_deref w 1 = UB /\ rc_step arr w (RcDestroy 1) = UB.
Proof. exact (reset_dangles arr). Qed.
(** The same by assigning a null pointer, for single objects. *)
Theorem C117_assign_null_refuted : exists w,
  rc_run false rc_start [RcMake; RcCopy 0; RcNull; RcAssign 0 2; RcDestroy 0] = Ok w /\
  points w 1 0 /\ ~ alive w 0 /\ rc_deref w 1 = UB /\ rc_step false w (RcDestroy 1) = UB.
Proof. exact assign_null_dangles. Qed.
Print Assumptions C117_ownership_partial.
Print Assumptions C117_reset_refuted.
Print Assumptions C117_use_after_delete_refuted.
Print Assumptions C117_assign_null_refuted.

Example C117_nontrivial arr :
  good_program arr rc_start [RcMake; RcCopy 0; RcMake; RcAssign 0 2; RcMove 1; RcSwap 0 3; RcDestroy 0; RcDestroy 3] /\
  exists w, rc_run arr rc_start [RcMake; RcCopy 0; RcMake; RcAssign 0 2; RcMove 1; RcSwap 0 3; RcDestroy 0; RcDestroy 3] = Ok w /\
    objects w = [false; true] /\ points w 2 1 /\ is_null w 1.
Proof.
  split.
  - destruct arr; repeat (first [exact Logic.I |
      split; [cbn [well_used]; first [exact Logic.I | eexists; reflexivity | split; eexists; reflexivity] | split;
        [cbn [harmless]; first [exact Logic.I | left; reflexivity |
           right; right; left; intros (p & E & M); vm_compute in E; injection E as <-; discriminate M]
        | let w := fresh "w" in let E := fresh "E" in intros w E; vm_compute in E; injection E as <-]]]).
  - destruct arr; eexists; split; [vm_compute; reflexivity | | vm_compute; reflexivity |];
      (split; [reflexivity|]; split; eexists; split; reflexivity).
Qed.
