(** The properties of daw_stack_function.h and daw_poly_value.h: C245-C247.
    The vocabulary is in SpecStackFn.v. *)
From Coq Require Import List ZArith Bool Lia.
From Verif Require Import Common StackFn SpecStackFn StackFnProofs.
Import ListNotations.
Open Scope Z_scope.

(** * C245 daw::function is a value *)

(** Every program with functions made from temporary callables without resources sees values: a copy has its own state, an assignment replaces the callable, a call returns what the callable returns, an empty function throws. (Partial: see the next three theorems.) *)
Theorem C245_value_partial :
  forall act look n m ops, Forall plain ops ->
  match value_run act look (repeat None m) ops with
  | Some (v, ys) => exists w, fn_run act look (fn_start n m) ops = Ok (w, ys) /\ map shown (funs w) = v
  | None => fn_run act look (fn_start n m) ops = Throw
  end.
Proof. exact c245_value_partial. Qed.

(** A function made from a named callable does not copy it: it sees later changes and changes the callable itself, and calling it after the end of the callable is undefined. *)
Theorem C245_object_refuted :
  forall act look w f o st st' x, nth_error (funs w) f = Some None -> nth_error (objs w) o = Some (Some (Callable false st None)) ->
  (exists w', fn_run act look w [FromObject f o; SetObject o st'; CallFn f x] = Ok (w', [Done; Done; Returned (snd (act st' x))]) /\
     nth_error (objs w') o = Some (Some (Callable false (fst (act st' x)) None))) /\
  fn_run act look w [FromObject f o; EndObject o; CallFn f x] = UB.
Proof. exact c245_object_refuted. Qed.

(** A counter (its state goes up by the argument), a copy of it, and an empty function. *)
Example C245_nonvacuous :
  let act := fun st x => (st + x, st) in let look := fun st x => st in
  (exists w, fn_run act look (fn_start 0 3)
     [FromTemp 0 false 10 false; CallFn 0 5; CopyFn 1 0; CallFn 1 1; CallConst 0 0; AssignTemp 1 true 0 false; CallFn 1 2; AssignFn 1 0; CallFn 1 2; DestroyFn 0] =
   Ok (w, [Done; Returned 10; Done; Returned 15; Returned 15; Done; BadCall; Done; Returned 15; Done]) /\
   map shown (funs w) = [None; Some (Some 17); None]) /\
  fn_run act look (fn_start 0 1) [CallFn 0 1] = Throw.
Proof. cbv zeta. split; [eexists; split|]; reflexivity. Qed.
Print Assumptions C245_value_partial.
Print Assumptions C245_object_refuted.

(** * C246 Resources of the callables of a daw::function *)

(** As long as no function with a resource is copied or assigned and no such callable is assigned: no resource is used after its release or released twice, and exactly the resources of the callables that are alive are not released. *)
Theorem C246_careful_partial :
  forall act look n m ops, careful_run act look (fn_start n m) ops ->
  match fn_run act look (fn_start n m) ops with
  | Ok (w, _) => (forall k, is_live w k <-> in_use w k) /\
      (forall k f g, (exists c, nth_error (funs w) f = Some c /\ holds c k) -> (exists c, nth_error (funs w) g = Some c /\ holds c k) -> f = g)
  | Throw => True
  | _ => False
  end.
Proof. exact c246_careful_partial. Qed.

(** A copy, or a move, of a function copies the bytes of the callable: both destructors release the resource. *)
Theorem C246_copy_refuted :
  forall act look w f g c k x, f <> g -> nth_error (funs w) f = Some None ->
  nth_error (funs w) g = Some (Some (COwn c)) -> c_res c = Some k -> is_live w k ->
  fn_run act look w [CopyFn f g; DestroyFn f; DestroyFn g] = UB /\ fn_run act look w [CopyFn f g; DestroyFn f; CallFn g x] = UB.
Proof. exact c246_copy_refuted. Qed.

(** After the assignment of a callable with a resource the function holds a destroyed callable. *)
Theorem C246_assign_refuted :
  forall act look n m ops w ys f st x, careful_run act look (fn_start n m) ops -> fn_run act look (fn_start n m) ops = Ok (w, ys) ->
  (exists c, nth_error (funs w) f = Some (Some c)) ->
  fn_run act look w [AssignTemp f false st true; CallFn f x] = UB /\ fn_run act look w [AssignTemp f false st true; DestroyFn f] = UB.
Proof. exact c246_assign_refuted. Qed.

(** Two functions with resources, one replaced by a plain callable; an object. *)
Example C246_nonvacuous :
  let act := fun st x => (st + x, st) in let look := fun st x => st in
  let ops := [FromTemp 0 false 1 true; FromTemp 1 false 2 true; NewObject 0 false 3 true; CallFn 0 4; AssignTemp 1 false 5 false; CopyFn 2 1; DestroyFn 0] in
  careful_run act look (fn_start 1 3) ops /\
  exists w ys, fn_run act look (fn_start 1 3) ops = Ok (w, ys) /\ live w = [false; false; true] /\ in_use w 2 /\ ~ in_use w 0.
Proof.
  cbv zeta. split.
  - repeat (cbn [careful_run]; split; [try exact Logic.I; try (right; reflexivity)|intros ? ? E; inversion E; subst; clear E]); try exact Logic.I.
    intros c k E (x & -> & R). inversion E as [H]. rewrite <- H in R. discriminate.
  - eexists; eexists. split; [reflexivity|]. split; [reflexivity|]. split.
    + right. exists 0%nat, (Callable false 3 (Some 2%nat)). split; reflexivity.
    + intros [(f & c & E & x & -> & R)|(o & c & E & R)].
      * destruct f as [|[|[|[|f]]]]; cbn in E; try discriminate; inversion E; subst; discriminate.
      * destruct o as [|[|o]]; cbn in E; try discriminate. inversion E. subst. discriminate.
Qed.
Print Assumptions C246_careful_partial.
Print Assumptions C246_copy_refuted.
Print Assumptions C246_assign_refuted.

(** * C247 poly_value is a value *)

(** Whatever is made, copied, moved, assigned, changed, read and destroyed in whatever order: every poly_value is a value of its own with its own type, no object is used after its deletion or deleted twice, and there are as many objects as values. *)
Theorem C247_values :
  forall moved n ops,
  match poly_run moved (repeat None n) ops with
  | Some (s, ys) => exists w, pv_run moved (pv_start n) ops = Ok (w, ys) /\ pv_shown w = s /\ count_some (heap w) = count_some s
  | None => pv_run moved (pv_start n) ops = Throw
  end.
Proof. exact c247_values. Qed.

(** Values of types 1 and 2; a move leaves 0 behind; self-assignment. *)
Example C247_nonvacuous :
  let moved := fun (_ : nat) (_ : Z) => 0 in
  (exists w, pv_run moved (pv_start 4)
     [PvMake 0 1 10; PvMake 1 2 20; PvCopy 2 0; PvSet 0 11; PvAssign 2 1; PvMoveAssign 1 0; PvAssign 1 1; PvMove 3 2; PvGet 2; PvGet 1; PvEnd 0] =
   Ok (w, [None; None; None; None; None; None; None; None; Some (PVal 2 0); Some (PVal 1 11); None]) /\
   pv_shown w = [None; Some (PVal 1 11); Some (PVal 2 0); Some (PVal 2 20)] /\ count_some (heap w) = 3%nat) /\
  pv_run moved (pv_start 1) [PvGet 0] = Throw.
Proof. cbv zeta. split; [eexists; repeat split|reflexivity]. Qed.
Print Assumptions C247_values.
