(** function_ref, function_view and not_null: theorems. *)
From Verif Require Import Common RefTools SpecRefTools RefToolsProofs.
Open Scope Z_scope.

(** * C298 function_ref *)

(** Bound to an object, a function_ref calls that object in its present state, whatever happened since; if the object is gone, the call is undefined. *)
Theorem C298_calls :
  forall (function : nat -> Z -> Z) (method : nat -> Z -> Z -> Z) (stateless : nat -> bool) m h m1 m2 r a c s x n,
  m a = Callable c s -> act stateless m (RefOf r a) = Ok m1 -> acts stateless m1 h = Ok m2 -> untouched r h ->
  gives method m2 a c x (call function method (S (S n)) m2 r x).
Proof. exact c298_calls. Qed.

(** Bound to a function pointer, it calls that function. *)
Theorem C298_pointer :
  forall (function : nat -> Z -> Z) (method : nat -> Z -> Z -> Z) (stateless : nat -> bool) m h m1 m2 r f x n,
  act stateless m (RefFun r (Some f)) = Ok m1 -> acts stateless m1 h = Ok m2 -> untouched r h -> call function method (S n) m2 r x = Ok (function f x).
Proof. exact c298_pointer. Qed.

(** A copy, or an assignment of another function_ref, refers to what the source referred to at that time: rebinding or destroying the source later has no effect on it. *)
Theorem C298_copy :
  forall (function : nat -> Z -> Z) (method : nat -> Z -> Z -> Z) (stateless : nat -> bool) m h m1 m2 r q a c s x n,
  m q = FRef (TObj a) -> m a = Callable c s -> act stateless m (RefOf r q) = Ok m1 -> acts stateless m1 h = Ok m2 -> untouched r h ->
  gives method m2 a c x (call function method (S (S n)) m2 r x).
Proof. exact c298_copy. Qed.

(** Null function pointers are accepted by both constructors; calling what they give is undefined. *)
Theorem C298_null_pointer :
  forall (function : nat -> Z -> Z) (method : nat -> Z -> Z -> Z) (stateless : nat -> bool) m h m1 m2 r x n,
  act stateless m (RefFun r None) = Ok m1 \/ act stateless m (ViewFun r None) = Ok m1 -> acts stateless m1 h = Ok m2 -> untouched r h -> call function method (S n) m2 r x = UB.
Proof. exact c298_null_pointer. Qed.

Example C298_nonvacuous : let f := fun k x => Z.of_nat k * x in let g := fun (c : nat) s x => s + x in
  exists m, acts (fun _ => false) (fun _ => Unborn) [Create 0 5 10; Create 1 5 20; RefOf 2 0; RefOf 3 2; RefOf 2 1; Change 0 11; Destroy 2; RefFun 4 (Some 3%nat)] = Ok m /\
    call f g 5 m 3 100 = Ok 111 /\ call f g 5 m 4 100 = Ok 300 /\ call f g 5 m 2 1 = UB.
Proof. cbv zeta. eexists. split; [reflexivity|]. repeat split; vm_compute; reflexivity. Qed.
Print Assumptions C298_calls.
Print Assumptions C298_pointer.
Print Assumptions C298_copy.
Print Assumptions C298_null_pointer.

(** * C299 function_view *)

(** Made from a callable object, a function_view calls that object in its present state; objects without state may be gone. *)
Theorem C299_calls :
  forall (function : nat -> Z -> Z) (method : nat -> Z -> Z -> Z) (stateless : nat -> bool) m h m1 m2 r a c s k x n,
  m a = Callable c s -> act stateless m (ViewOf r a k) = Ok m1 -> acts stateless m1 h = Ok m2 -> untouched r h ->
  (stateless c = false -> gives method m2 a c x (call function method (S (S n)) m2 r x)) /\
  (stateless c = true -> call function method (S n) m2 r x = Ok (method c 0 x)).
Proof. exact c299_calls. Qed.

(** Made from a function pointer, it calls that function. *)
Theorem C299_pointer :
  forall (function : nat -> Z -> Z) (method : nat -> Z -> Z -> Z) (stateless : nat -> bool) m h m1 m2 r f x n,
  act stateless m (ViewFun r (Some f)) = Ok m1 -> acts stateless m1 h = Ok m2 -> untouched r h -> call function method (S n) m2 r x = Ok (function f x).
Proof. exact c299_pointer. Qed.

(** A copy of a const function_view or of an rvalue, and an assignment, refer to what the source referred to at that time. *)
Theorem C299_copy :
  forall (function : nat -> Z -> Z) (method : nat -> Z -> Z -> Z) (stateless : nat -> bool) m h m1 m2 r q a c s x n,
  m q = FView (TObj a) -> m a = Callable c s -> act stateless m (ViewOf r q true) = Ok m1 \/ act stateless m (ViewAssign r q) = Ok m1 ->
  acts stateless m1 h = Ok m2 -> untouched r h ->
  gives method m2 a c x (call function method (S (S n)) m2 r x).
Proof. exact c299_copy. Qed.

(** A copy of a function_view that is not const refers to the original view: it calls what the original refers to later, is undefined once the original is destroyed, and after the original is assigned the copy its calls never end. *)
Theorem C299_copy_refuted :
  forall (function : nat -> Z -> Z) (method : nat -> Z -> Z -> Z) (stateless : nat -> bool) m h m1 m2 r q t x,
  m q = FView t -> act stateless m (ViewOf r q false) = Ok m1 -> acts stateless m1 h = Ok m2 -> untouched r h ->
  (forall n, call function method (S n) m2 r x = call function method n m2 q x) /\
  (m2 q = Dead -> forall n, call function method (S (S n)) m2 r x = UB) /\
  (forall m3, q <> r -> act stateless m2 (ViewAssign q r) = Ok m3 -> forall n, call function method n m3 q x = OutOfFuel).
Proof. exact c299_copy_refuted. Qed.

(** v2( v1 ) from a view that is not const, and v3 from it as const; then v1 is rebound. *)
Example C299_nonvacuous : let f := fun k x => Z.of_nat k * x in let g := fun (c : nat) s x => s + x in
  exists m, acts (fun c => (c =? 9)%nat) (fun _ => Unborn) [Create 0 5 10; Create 1 5 20; ViewOf 11 0 false; ViewOf 12 11 false; ViewOf 13 11 true; ViewOf 11 1 false; Create 2 9 0; ViewOf 14 2 true; Destroy 2] = Ok m /\
    call f g 5 m 11 100 = Ok 120 /\ call f g 5 m 12 100 = Ok 120 /\ call f g 5 m 13 100 = Ok 110 /\ call f g 5 m 14 7 = Ok 7.
Proof. cbv zeta. eexists. split; [reflexivity|]. repeat split; vm_compute; reflexivity. Qed.
Print Assumptions C299_calls.
Print Assumptions C299_pointer.
Print Assumptions C299_copy.
Print Assumptions C299_copy_refuted.

(** * C300 not_null *)

(** Whatever is done with not_null objects of raw pointers, none of them ever is null, and get is defined. *)
Theorem C300_never_null :
  forall same_array, (forall p q, same_array p q = true -> q <> 0) -> forall xs l, nn_acts false same_array [] xs = Ok l ->
  forall i p, nth_error l i = Some p -> p <> 0 /\ nn_get l i = Ok p.
Proof. exact c300_never_null. Qed.

(** Making a not_null from a null pointer, or assigning one, terminates the program; any other pointer is kept. *)
Theorem C300_refuses :
  forall moves same_array l i, nn_act moves same_array l (NnNew 0) = Throw /\ nn_act moves same_array l (NnAssign i 0) = Throw /\
  forall p, p <> 0 -> nn_act moves same_array l (NnNew p) = Ok (l ++ [p]).
Proof. exact c300_refuses. Qed.

(** Differences and comparisons are those of the pointers. *)
Theorem C300_pointer_operations :
  forall l i j p q, nth_error l i = Some p -> nth_error l j = Some q -> p <> 0 -> q <> 0 ->
  nn_sub l i j = Ok (p - q) /\ (nn_eq l i j = Ok true <-> p = q) /\ (nn_lt l i j = Ok true <-> p < q).
Proof. exact c300_pointer_operations. Qed.

(** A not_null of a pointer class such as shared_ptr is null after it was moved from, and using it then is undefined behaviour. *)
Theorem C300_moved_from_refuted :
  forall same_array xs l i p, nn_acts true same_array [] xs = Ok l -> nth_error l i = Some p -> p <> 0 ->
  exists l', nn_acts true same_array [] (xs ++ [NnMove i]) = Ok l' /\ nth_error l' i = Some 0 /\ nn_get l' i = UB.
Proof. exact c300_moved_from_refuted. Qed.

Example C300_nonvacuous : let sa := fun p q => (0 <? p) && (100 <=? q) && (q <=? 110) in
  (forall p q, sa p q = true -> q <> 0) /\ nn_acts false sa [] [NnNew 100; NnCopy 0; NnAdd 1 10; NnPost 1 (-3); NnMove 0; NnAssign 0 105] = Ok [105; 107; 110; 100].
Proof. cbv zeta. split; [intros p q H; apply andb_prop in H as [H _]; apply andb_prop in H as [_ H]; lia|vm_compute; reflexivity]. Qed.
Print Assumptions C300_never_null.
Print Assumptions C300_refuses.
Print Assumptions C300_pointer_operations.
Print Assumptions C300_moved_from_refuted.
