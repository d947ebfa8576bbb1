(** Erased: theorems. *)
From Verif Require Import Common Erased SpecErased ErasedProofs.
Open Scope Z_scope.

(** * C305 Type-erased iterators *)

(** Whatever sequence of constructions, copies, moves, assignments of iterators of one type, increments and destructions: nothing undefined happens, and every iterator stands where an independent value would. *)
Theorem C305_values :
  forall ops a lost, spec_run ([], 0%nat) ops = Some (a, lost) ->
  exists s, irun ist0 ops = Ok s /\ length (i_hs s) = length a /\
    (forall i ty pos, val a i = At ty pos -> iread s i = Ok pos) /\
    (forall checked i j ty p ty2 q, val a i = At ty p -> val a j = At ty2 q ->
       (ty = ty2 -> iequal checked s i j = Ok (p =? q)) /\
       (ty <> ty2 -> iequal true s i j = Throw /\ iequal false s i j = UB)).
Proof. exact c305_values. Qed.

(** Without move assignments onto iterators in use there is exactly one heap object for each of them, and none is left when all are destroyed. *)
Theorem C305_no_leak :
  forall ops a, spec_run ([], 0%nat) ops = Some (a, 0%nat) ->
  exists s, irun ist0 ops = Ok s /\ ilive s = engaged a /\
    (Forall (fun v => v = Dead) a -> ilive s = 0%nat).
Proof. exact c305_no_leak. Qed.

(** Every move assignment onto an iterator in use leaks its heap object: one object for each is left for ever. *)
Theorem C305_move_assign_leak_refuted :
  forall ops a lost, spec_run ([], 0%nat) ops = Some (a, lost) ->
  exists s, irun ist0 ops = Ok s /\ ilive s = (engaged a + lost)%nat.
Proof. exact c305_move_assign_leak_refuted. Qed.

(** Copy assignment between iterators of different types deletes the old one with the functions of the new type. *)
Theorem C305_copy_assign_type_refuted :
  forall ops a lost d i ty p ty2 q, spec_run ([], 0%nat) ops = Some (a, lost) ->
  val a d = At ty p -> val a i = At ty2 q -> ty <> ty2 ->
  exists s, irun ist0 ops = Ok s /\ istep s (ICopyAssign d i) = UB.
Proof. exact c305_copy_assign_type_refuted. Qed.

Example C305_nonvacuous :
  let ops := [IMake 1 10; ICopy 0; IInc 0; IPostInc 1; IMove 0; ICopyAssign 1 3; IMake 1 5; IMoveAssign 4 3; IDestroy 2] in
  spec_run ([], 0%nat) ops = Some ([Moved; At 1 11; Dead; Moved; At 1 11], 1%nat) /\
  (exists s, irun ist0 ops = Ok s /\ ilive s = 3%nat /\ iread s 4 = Ok 11 /\ iequal true s 1 4 = Ok true) /\
  irun ist0 [IMake 1 0; IMake 2 0; ICopyAssign 0 1] = UB /\
  (exists s, irun ist0 [IMake 1 0; IMake 1 1; IMoveAssign 0 1; IDestroy 0; IDestroy 1] = Ok s /\ ilive s = 1%nat).
Proof.
  split; [vm_compute; reflexivity|]. split; [eexists; split; [vm_compute; reflexivity|]; vm_compute; repeat split|].
  split; [vm_compute; reflexivity|]. eexists; split; [vm_compute; reflexivity|]; vm_compute; reflexivity.
Qed.
Print Assumptions C305_values.
Print Assumptions C305_no_leak.
Print Assumptions C305_move_assign_leak_refuted.
Print Assumptions C305_copy_assign_type_refuted.

(** * C306 observer_ptr and its functions *)

(** and_then calls the function, once, exactly when the pointer is not null. *)
Theorem C306_and_then :
  forall (R : Type) (empty : R) (f : ptr -> R) p,
  (forall a, p = Some a -> and_then empty p f = (f p, [p])) /\ (p = None -> and_then empty p f = (empty, [])).
Proof. exact c306_and_then. Qed.

(** or_else keeps a pointer that is not null and otherwise takes the result of the function. *)
Theorem C306_or_else :
  forall (f : unit -> ptr) p q called, or_else p f = (q, called) ->
  (called = true <-> p = None) /\ (p <> None -> q = p) /\ (p = None -> q = f tt) /\
  (f tt <> None -> q <> None).
Proof. exact c306_or_else. Qed.

(** transform calls its function, once, with a pointer that is not null; null is the refuted case below. *)
Theorem C306_transform_partial :
  forall (R : Type) (f : ptr -> R) p a, p = Some a -> transform p f = (f p, [p]).
Proof. exact c306_transform_partial. Qed.

(** transform does not look at the pointer: its function is called with a null pointer. *)
Theorem C306_transform_null_refuted :
  forall (R : Type) (f : ptr -> R), transform None f = (f None, [None]).
Proof. exact c306_transform_null_refuted. Qed.

(** release and reset; a null observer_ptr is caught when dereferenced with assertions enabled. *)
Theorem C306_observer :
  forall (T : Type) (mem : Z -> T) checked p q,
  obs_release p = (p, None) /\ obs_reset p q = q /\
  (forall a, p = Some a -> obs_deref checked mem p = Ok (mem a)) /\
  (p = None -> obs_deref true mem p = Throw /\ obs_deref false mem p = UB).
Proof. exact c306_observer. Qed.

(** operator<=> is a total order of addresses; null comes first. *)
Theorem C306_order :
  forall p q r,
  (obs_cmp p q = Eq <-> addr_of p = addr_of q) /\
  (obs_cmp p q = Lt <-> obs_cmp q p = Gt) /\
  (obs_cmp p q = Lt -> obs_cmp q r = Lt -> obs_cmp p r = Lt) /\
  ((forall a, p = Some a -> 0 < a) -> p <> None -> obs_cmp None p = Lt).
Proof. exact c306_order. Qed.

Example C306_nonvacuous :
  and_then 0 (Some 8) (fun p => addr_of p + 1) = (9, [Some 8]) /\ and_then 0 None (fun p => addr_of p + 1) = (0, []) /\
  or_else None (fun _ => Some 3) = (Some 3, true) /\ transform None (fun p => addr_of p + 1) = (1, [None]) /\
  obs_cmp (Some 4) (Some 9) = Lt.
Proof. vm_compute. repeat split. Qed.
Print Assumptions C306_and_then.
Print Assumptions C306_or_else.
Print Assumptions C306_transform_partial.
Print Assumptions C306_transform_null_refuted.
Print Assumptions C306_observer.
Print Assumptions C306_order.

(** * C307 References handed out by wrappers *)

(** A rw_ref reads and writes its object; assigning an object makes it refer to that one and changes no value. *)
Theorem C307_rw_ref :
  forall (T : Type) (mem : Z -> T) a b x,
  load mem (rw_get a) = Ok (mem a) /\
  (exists mem2, store mem (rw_get a) x = Ok mem2 /\ load mem2 (rw_get a) = Ok x /\
     (forall c, c <> a -> mem2 c = mem c)) /\
  rw_get (rw_assign a b) = InMemory b.
Proof. exact c307_rw_ref. Qed.

(** prop_const_ptr moves like a pointer. *)
Theorem C307_prop_const_ptr :
  forall this p d q,
  pcp_sub (pcp_add p d) d = p /\ pcp_diff (pcp_add p d) p = d /\ pcp_add q (pcp_diff p q) = p /\
  fst (pcp_pre_inc this p) = pcp_add p 1 /\ snd (pcp_pre_inc this p) = InMemory this /\
  fst (pcp_post_inc this p) = pcp_add p 1 /\ fst (pcp_post_dec this p) = pcp_sub p 1.
Proof. exact c307_prop_const_ptr. Qed.

(** The results of it++ and it-- of a prop_const_ptr refer to an object that is gone: using them is undefined. *)
Theorem C307_postfix_refuted :
  forall (T : Type) (mem : Z -> T) this p,
  load mem (snd (pcp_post_inc this p)) = UB /\ load mem (snd (pcp_post_dec this p)) = UB.
Proof. exact c307_postfix_refuted. Qed.

(** operator-> of a poly_var reaches the stored object; the constant operator* refers to a copy of its base that is gone. *)
Theorem C307_poly_var_refuted :
  forall (T : Type) (mem : Z -> T) a,
  load mem (pv_arrow a) = Ok (mem a) /\ load mem (pv_star a) = UB.
Proof. exact c307_poly_var_refuted. Qed.

Example C307_nonvacuous :
  load (fun a => a * 2) (rw_get (rw_assign 3 4)) = Ok 8 /\ pcp_post_inc 100 7 = (8, Gone) /\
  load (fun a => a * 2) (pv_arrow 5) = Ok 10.
Proof. vm_compute. repeat split. Qed.
Print Assumptions C307_rw_ref.
Print Assumptions C307_prop_const_ptr.
Print Assumptions C307_postfix_refuted.
Print Assumptions C307_poly_var_refuted.
