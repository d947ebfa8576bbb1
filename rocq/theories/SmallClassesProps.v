(** SmallClasses: theorems. *)
From Verif Require Import Common OldRange SmallClasses SpecSmallClasses SmallClassesProofs.
Open Scope Z_scope.

(** * C314 CFile *)

(** No operation of a client that hands over only open files that no object holds is undefined: no file is closed twice. *)
Theorem C314_safe :
  forall s o, reachable s -> allowed s o -> exists s', cstep s o = Ok s'.
Proof. exact c314_safe. Qed.

(** What an object holds is open, and no other object holds it. *)
Theorem C314_one_owner :
  forall s i j f, reachable s -> owns s i f -> is_open s f /\ (owns s j f -> j = i).
Proof. exact c314_one_owner. Qed.

(** A file is closed exactly by the client itself, or by closing, resetting or destroying the object that holds it. *)
Theorem C314_closed_exactly :
  forall s o s' f, reachable s -> allowed s o -> cstep s o = Ok s' -> is_open s f ->
  (~ is_open s' f <-> o = CClient f \/ exists i, owns s i f /\ closes_what o i).
Proof. exact c314_closed_exactly. Qed.

(** An object keeps its file until it is moved to a new object, released to the client, or closed: none is lost. *)
Theorem C314_kept :
  forall s o s' i f, reachable s -> allowed s o -> cstep s o = Ok s' -> owns s i f ->
  owns s' i f \/ (o = CMove i /\ owns s' (length (c_objs s)) f) \/ o = CRelease i \/ (closes_what o i /\ ~ is_open s' f).
Proof. exact c314_kept. Qed.

(** After reset( f ) the object holds f; after being moved from, release, reset( ) and close it holds nothing. *)
Theorem C314_after :
  forall s i, reachable s -> alive s i ->
  (forall f, may_hand_over s f -> exists s', cstep s (CReset i f) = Ok s' /\ nth_error (c_objs s') i = Some (Some f)) /\
  (forall o, o = CMove i \/ o = CRelease i \/ o = CReset0 i \/ o = CClose i -> exists s', cstep s o = Ok s' /\ nth_error (c_objs s') i = Some (Some None)) /\
  exists s', cstep s (CDestroy i) = Ok s' /\ nth_error (c_objs s') i = Some None.
Proof. exact c314_after. Qed.

(** Move assignment does nothing: the target gives its own file to itself, and the source keeps its file. *)
Theorem C314_move_assign_refuted :
  forall s d i, alive s d -> alive s i -> cstep s (CMoveAssign d i) = Ok s.
Proof. exact c314_move_assign_refuted. Qed.

Example C314_nonvacuous :
  crun cst0 [COpen; COpen; CMake (Some 0%nat); CMake (Some 1%nat); CMove 0; CMoveAssign 1 2; CRelease 1; CClient 1; CReset0 0; CDestroy 2] =
  Ok (mk_cst [false; false] [Some None; Some None; None]).
Proof. reflexivity. Qed.
Example C314_nonvacuous_reach : exists s, reachable s /\ owns s 0 0 /\ owns s 1 1.
Proof.
  exists (mk_cst [true; true] [Some (Some 0%nat); Some (Some 1%nat)]). split; [|split; reflexivity].
  apply (reach_step (mk_cst [true; true] [Some (Some 0%nat)]) (CMake (Some 1%nat))); [| |reflexivity].
  - apply (reach_step (mk_cst [true; true] []) (CMake (Some 0%nat))); [| |reflexivity].
    + apply (reach_step (mk_cst [true] []) COpen); [|exact I|reflexivity]. apply (reach_step cst0 COpen); [constructor|exact I|reflexivity].
    + split; [reflexivity|]. intros [|i] W; discriminate.
  - split; [reflexivity|]. intros [|[|i]] W; discriminate.
Qed.
Print Assumptions C314_safe.
Print Assumptions C314_one_owner.
Print Assumptions C314_closed_exactly.
Print Assumptions C314_kept.
Print Assumptions C314_after.
Print Assumptions C314_move_assign_refuted.

(** * C315 random, wrapped and pointer iterators *)

(** RandomIterator is a pointer: each operation moves it, and returns, what it would for a pointer; plus and minus do not move it. *)
Theorem C315_random :
  forall len p o, 0 <= p <= len -> (inside len p o -> random_op len p o = Ok (after p o, value_of p o)) /\ (~ inside len p o -> random_op len p o = UB).
Proof. exact c315_random. Qed.

(** So is wrap_iter; that it negates offsets makes no difference in arrays that can exist. *)
Theorem C315_wrap :
  forall len p o, 0 <= p <= len -> len < 2 ^ 63 -> (inside len p o -> wrap_op len p o = Ok (after p o, value_of p o)) /\ (~ inside len p o -> wrap_op len p o = UB).
Proof. exact c315_wrap. Qed.

(** An operation on the result of a moving operation, as in --( --it ), moves the same iterator again. *)
Theorem C315_chain :
  forall op len p a b, (op = random_op len \/ (op = wrap_op len /\ len < 2 ^ 63)) -> 0 <= p <= len -> value_of p a = Self -> inside len p a -> inside len (after p a) b ->
  then_op op p a b = Ok (after (after p a) b).
Proof. exact c315_chain. Qed.

(** pointer_iterator agrees with pointers except for the three operations below. *)
Theorem C315_pointer_partial :
  forall len p o, 0 <= p <= len -> o <> OpDec -> o <> OpPostInc -> (forall n, o <> OpMinus n) ->
  exists r, pointer_op len p o = Some r /\ (inside len p o -> r = Ok (after p o, value_of p o)) /\ (~ inside len p o -> r = UB).
Proof. exact c315_pointer_partial. Qed.

(** pointer_iterator: it++ returns a reference to a local, whose use is undefined; --( --it ) moves once; there is no it - n, but const iterators accept it -= n and are not changed by it. *)
Theorem C315_pointer_refuted :
  (forall len p, 0 <= p < len -> pointer_op len p OpPostInc = Some (Ok (p + 1, GoneIt))) /\
  (forall len p b, 1 < p <= len -> then_op (fun p o => match pointer_op len p o with Some r => r | None => UB end) p OpDec OpDec = Ok (p - 1) /\
     (0 <= p < len -> then_op (fun p o => match pointer_op len p o with Some r => r | None => UB end) p OpPostInc b = UB)) /\
  (forall len p n, 0 <= p - n <= len -> pointer_const_sub_assign len p n = Ok (p, NewIt (p - n))) /\
  forall len p n, pointer_op len p (OpMinus n) = None.
Proof. exact c315_pointer_refuted. Qed.

Example C315_nonvacuous : random_op 5 2 (OpMinus 2) = Ok (2, NewIt 0) /\ random_op 5 2 (OpPlus 4) = UB /\ wrap_op 5 2 OpPostDec = Ok (1, NewIt 2) /\
  then_op (random_op 5) 4 OpDec OpDec = Ok 2 /\ inside 5 4 OpDec.
Proof. repeat split; try reflexivity; discriminate. Qed.
Print Assumptions C315_random.
Print Assumptions C315_wrap.
Print Assumptions C315_chain.
Print Assumptions C315_pointer_partial.
Print Assumptions C315_pointer_refuted.

(** * C316 checks that throw *)

(** The checks throw exactly when the condition is not met (the dbg_ forms only in debug configurations), and end the program when there are no exceptions. *)
Theorem C316_checks :
  forall exceptions debug e test,
  is_check exceptions e test tt (daw_throw_on_false exceptions e test) /\
  is_check exceptions e (negb test) tt (daw_throw_on_true exceptions e test) /\
  is_check exceptions e (negb debug || test) tt (dbg_throw_on_false exceptions debug e test) /\
  is_check exceptions e (negb debug || negb test) tt (dbg_throw_on_true exceptions debug e test).
Proof. exact c316_checks. Qed.

(** The forms that return a value return it unchanged when the check passes. *)
Theorem C316_values :
  forall exceptions debug e p,
  is_check exceptions e (negb (p =? 0)) p (daw_throw_on_null_or_return exceptions e p) /\
  is_check exceptions e (negb debug || negb (p =? 0)) p (dbg_throw_on_null_or_return exceptions debug e p) /\
  forall (T : Type) (v : T) test, is_check exceptions e test v (daw_throw_on_false_or_return exceptions e v test).
Proof. exact c316_values. Qed.

(** precondition_check and postcondition_check with an exception type throw it; without one they end the program. *)
Theorem C316_preconditions :
  forall exceptions e c,
  is_check exceptions e c tt (precondition_check exceptions (Some e) c) /\
  (c = true -> precondition_check exceptions None c = Returned tt) /\ (c = false -> precondition_check exceptions None c = Aborted).
Proof. exact c316_preconditions. Qed.

(** dbg_precondition_check and dbg_postcondition_check end the program although an exception type was given and exceptions are enabled. *)
Theorem C316_dbg_precondition_refuted :
  forall exceptions e, exceptions = true -> dbg_precondition_check true e false = Aborted /\ ~ is_check exceptions e false tt (dbg_precondition_check true e false).
Proof. exact c316_dbg_precondition_refuted. Qed.

(** They do so exactly when the condition does not hold, in debug configurations. *)
Theorem C316_dbg_precondition :
  forall debug e c, (debug = false \/ c = true -> dbg_precondition_check debug e c = Returned tt) /\ (debug = true -> c = false -> dbg_precondition_check debug e c = Aborted).
Proof. exact c316_dbg_precondition. Qed.

(** assert_all_true and assert_all_false test the elements in order; the first bad one ends the test with a failure, and without one all are tested. *)
Theorem C316_all :
  forall (T : Type) exceptions e (pred : T -> bool) l1 x l2,
  (forallb pred l1 = true -> assert_all_true exceptions e l1 pred = (Returned tt, length l1)) /\
  (forallb pred l1 = true -> pred x = false -> assert_all_true exceptions e (l1 ++ x :: l2) pred = (daw_throw exceptions e, S (length l1))) /\
  (existsb pred l1 = false -> assert_all_false exceptions e l1 pred = (Returned tt, length l1)) /\
  (existsb pred l1 = false -> pred x = true -> assert_all_false exceptions e (l1 ++ x :: l2) pred = (daw_throw exceptions e, S (length l1))).
Proof. exact c316_all. Qed.

(** No exception leaves no_exception, and it hides nothing else. *)
Theorem C316_no_exception :
  forall r, (forall e, no_exception r <> Thrown e) /\ (r = Aborted <-> no_exception r = Aborted).
Proof. exact c316_no_exception. Qed.

Example C316_nonvacuous : daw_throw_on_false true 3 false = Thrown 3 /\ dbg_throw_on_true true false 3 true = Returned tt /\ daw_throw_on_null_or_return false 3 0 = Aborted /\
  assert_all_true true 3 [2; 4; 5; 6; 7] Z.even = (Thrown 3, 3%nat).
Proof. repeat split; reflexivity. Qed.
Print Assumptions C316_checks.
Print Assumptions C316_values.
Print Assumptions C316_preconditions.
Print Assumptions C316_dbg_precondition_refuted.
Print Assumptions C316_dbg_precondition.
Print Assumptions C316_all.
Print Assumptions C316_no_exception.

(** * C317 zip_container *)

(** With variables of equal length, the loop visits the rows in order. *)
Theorem C317_rows :
  forall st cs ls n, held st cs ls -> ls <> [] -> Forall (fun l => length l = n) ls ->
  exists bs es, zip_make st (map ZVariable cs) = Ok (st, bs, es) /\
    forall fuel, (n < fuel)%nat -> z_loop fuel st bs es = Ok (map (row ls) (seq 0 n)).
Proof. exact c317_rows. Qed.

(** With containers of different lengths the loop runs past the end of the shortest, as all the iterators have to reach their ends together. *)
Theorem C317_unequal_refuted :
  forall st cs ls a b, held st cs ls -> In a ls -> In b ls -> length a <> length b ->
  exists bs es, zip_make st (map ZVariable cs) = Ok (st, bs, es) /\ exists n, forall fuel, (n < fuel)%nat -> z_loop fuel st bs es = UB.
Proof. exact c317_unequal_refuted. Qed.

(** If any container was given as a temporary, every loop is undefined: the object keeps iterators only, and the container is gone. *)
Theorem C317_temporary_refuted :
  forall st args st' bs es l fuel, zip_make st args = Ok (st', bs, es) -> In (ZTemporary l) args -> z_loop (S fuel) st' bs es = UB.
Proof. exact c317_temporary_refuted. Qed.

Example C317_nonvacuous : let st := [(true, [1; 2]); (true, [3; 4])] in
  held st [0; 1; 0]%nat [[1; 2]; [3; 4]; [1; 2]] /\
  ('(st, bs, es) <- zip_make st [ZVariable 0; ZVariable 1; ZVariable 0] ;; z_loop 5 st bs es) = Ok [[1; 3; 1]; [2; 4; 2]] /\
  ('(st, bs, es) <- zip_make st [ZVariable 0; ZTemporary [3; 4]] ;; z_loop 5 st bs es) = UB.
Proof. cbv zeta. split; [repeat constructor|split; reflexivity]. Qed.
Print Assumptions C317_rows.
Print Assumptions C317_unequal_refuted.
Print Assumptions C317_temporary_refuted.

(** * C318 safe strings *)

(** After any history, get returns the cleaned form, by the current cleaning function, of the string that was assigned last, and unsafe_get the string itself; assigning another safe string replaces both. *)
Theorem C318_get :
  forall sanitize s ops o ts,
  s_get sanitize (srun s (map SAssign ts)) = sanitize (s_fun s) (last ts (s_raw s)) /\
  s_unsafe (srun s (map SAssign ts)) = last ts (s_raw s) /\
  s_get sanitize (srun s (ops ++ SCopy o :: map SAssign ts)) = sanitize (s_fun o) (last ts (s_raw o)) /\
  s_unsafe (srun s (ops ++ SCopy o :: map SAssign ts)) = last ts (s_raw o).
Proof. exact c318_get. Qed.

Example C318_nonvacuous : let sanitize := fun (f : nat) (t : list Z) => match f with O => filter Z.even t | _ => rev t end in
  s_get sanitize (srun (mk_sstr [1; 2] 0) [SAssign [3; 4]; SCopy (mk_sstr [5] 1); SAssign [6; 7]]) = [7; 6] /\
  s_get sanitize (srun (mk_sstr [1; 2] 0) [SAssign [3; 4]]) = [4].
Proof. split; reflexivity. Qed.
Print Assumptions C318_get.

(** * C319 orderings and logic *)

(** The conversion keeps the four orderings apart, whichever representation the library uses for unordered; only equal counts as equal, before and after it. *)
Theorem C319_ordering :
  forall u o o', -128 <= u < 128 -> ~ (-1 <= u <= 1) ->
  (order_to_enum u o = order_to_enum u o' <-> o = o') /\
  (equal_or_equivalent u o = true <-> o = OEqual) /\
  (enum_equal_or_equivalent (order_to_enum u o) = true <-> o = OEqual).
Proof. exact c319_ordering. Qed.

(** nsc_and is true when all arguments are, nsc_or when one is. *)
Theorem C319_logic :
  forall lhs rhs, (nsc_and lhs rhs = true <-> lhs = true /\ Forall (fun b => b = true) rhs) /\ (nsc_or lhs rhs = true <-> lhs = true \/ In true rhs).
Proof. exact c319_logic. Qed.

Example C319_nonvacuous : order_to_enum (-127) OUnordered = -127 /\ enum_equal_or_equivalent (order_to_enum 2 OUnordered) = false /\ nsc_and true [true; false] = false /\ nsc_or false [false; true] = true.
Proof. repeat split; reflexivity. Qed.
Print Assumptions C319_ordering.
Print Assumptions C319_logic.
