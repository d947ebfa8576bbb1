(** C190-C195: optional, optional_poly, expected, checked_expected, safe_pointer and
    to_reference_vector.  The vocabulary is in SpecWrappers.v. *)
From Verif Require Import Common Wrappers SpecWrappers WrappersProofs.
Open Scope Z_scope.

(** C190 daw::optional compares as if empty came before every value: two optionals, *)
Theorem C190_optional {V} cmp (ops : cmp_ops V) : compares cmp ops -> forall x y,
  opt_eq ops x y = Ok (is_eq (opt_cmp cmp x y)) /\ opt_ne ops x y = Ok (negb (is_eq (opt_cmp cmp x y))) /\
  opt_lt ops x y = Ok (is_lt (opt_cmp cmp x y)) /\ opt_le ops x y = Ok (negb (is_gt (opt_cmp cmp x y))) /\
  opt_gt ops x y = Ok (is_gt (opt_cmp cmp x y)) /\ opt_ge ops x y = Ok (negb (is_lt (opt_cmp cmp x y))).
Proof. exact (opt_ok cmp ops). Qed.
(** an optional and nullopt, *)
Theorem C190_nullopt {V} (cmp : V -> V -> comparison) : forall x y : option V, y = None ->
  null_eq x = is_eq (opt_cmp cmp x y) /\ null_ne x = negb (is_eq (opt_cmp cmp x y)) /\
  null_lt x = is_lt (opt_cmp cmp x y) /\ null_le x = negb (is_gt (opt_cmp cmp x y)) /\
  null_gt x = is_gt (opt_cmp cmp x y) /\ null_ge x = negb (is_lt (opt_cmp cmp x y)) /\
  null_eq_r x = is_eq (opt_cmp cmp y x) /\ null_ne_r x = negb (is_eq (opt_cmp cmp y x)) /\
  null_lt_r x = is_lt (opt_cmp cmp y x) /\ null_le_r x = negb (is_gt (opt_cmp cmp y x)) /\
  null_gt_r x = is_gt (opt_cmp cmp y x).
Proof. exact (null_ok cmp). Qed.
(** an optional and a value. *)
Theorem C190_value {V} cmp (ops : cmp_ops V) : compares cmp ops ->
  agrees (fun x v => opt_cmp cmp x (Some v)) (val_eq ops) (val_ne ops) (val_lt ops) (val_le ops) (val_gt ops) (val_ge ops).
Proof. exact (val_ok cmp ops). Qed.
Theorem C190_value_left {V} cmp (ops : cmp_ops V) : compares cmp ops -> forall v x,
  val_eq_r ops v x = is_eq (opt_cmp cmp (Some v) x) /\ val_ne_r ops v x = negb (is_eq (opt_cmp cmp (Some v) x)) /\
  val_lt_r ops v x = is_lt (opt_cmp cmp (Some v) x) /\ val_le_r ops v x = negb (is_gt (opt_cmp cmp (Some v) x)) /\
  val_gt_r ops v x = is_gt (opt_cmp cmp (Some v) x).
Proof. exact (val_r_ok cmp ops). Qed.
(** nullopt >= opt and value >= opt, the two that are left, compute <. *)
Theorem C190_nullopt_ge_refuted {V} (cmp : V -> V -> comparison) : forall x : option V,
  null_ge_r x = is_lt (opt_cmp cmp None x).
Proof. exact (null_bad cmp). Qed.
Theorem C190_value_ge_refuted {V} cmp (ops : cmp_ops V) : compares cmp ops -> forall v x,
  val_ge_r ops v (Some x) = is_lt (cmp v x).
Proof. exact (val_ge_bad cmp ops). Qed.
(** Without a value, value( ) throws and * is undefined. *)
Theorem C190_access :
  forall (V : Type) (v : V), opt_value (Some v) = Ok v /\ opt_deref (Some v) = Ok v /\
  opt_value (@None V) = Throw /\ opt_deref (@None V) = UB.
Proof. exact c190_access_l. Qed.
Print Assumptions C190_access.
Print Assumptions C190_optional.
Print Assumptions C190_nullopt.
Print Assumptions C190_value.
Print Assumptions C190_value_left.
Print Assumptions C190_nullopt_ge_refuted.
Print Assumptions C190_value_ge_refuted.
Definition z_ops : cmp_ops Z :=
  CmpOps Z Z.eqb (fun x y => negb (Z.eqb x y)) Z.ltb Z.leb Z.gtb Z.geb.
Example C190_nontrivial : compares Z.compare z_ops /\ val_ge_r z_ops 3 (Some 3) = false /\ val_ge z_ops (Some 3) 3 = true.
Proof.
  split; [split|split; reflexivity].
  - intros x y. cbn. unfold Z.ltb, Z.leb, Z.gtb, Z.geb. rewrite Z.eqb_compare.
    destruct (Z.compare x y); repeat split.
  - intros x y. apply Z.compare_antisym.
Qed.

(** C191 optional_poly: the same order ... *)
Theorem C191_compare {V} cmp (ops : cmp_ops V) : compares cmp ops -> forall x y,
  poly_eq ops x y = Ok (is_eq (opt_cmp cmp x y)) /\ poly_ne ops x y = Ok (negb (is_eq (opt_cmp cmp x y))) /\
  poly_le ops x y = Ok (negb (is_gt (opt_cmp cmp x y))) /\ poly_gt ops x y = Ok (is_gt (opt_cmp cmp x y)) /\
  (x <> None \/ y <> None -> poly_lt ops x y = Ok (is_lt (opt_cmp cmp x y)) /\
     poly_ge ops x y = Ok (negb (is_lt (opt_cmp cmp x y)))).
Proof. exact (poly_ok cmp ops). Qed.
(** ... except that an empty one is less than, and not >=, an empty one. *)
Theorem C191_empty_refuted {V} (ops : cmp_ops V) : poly_lt ops None None = Ok true /\ poly_ge ops None None = Ok false.
Proof. exact (poly_bad ops). Qed.
(** A copy is equal if the object is of the base class; otherwise it is cut down to it. *)
Theorem C191_copy {V} (slice : V -> V) x : (forall v, x = Some v -> slice v = v) -> op_copy slice x = x.
Proof. exact (op_copies slice x). Qed.
Theorem C191_slice_refuted {V} (slice : V -> V) v :
  op_copy slice (op_make v) = Some (slice v) /\ op_assign slice v = Some (slice v).
Proof. exact (op_slices slice v). Qed.
Print Assumptions C191_compare.
Print Assumptions C191_empty_refuted.
Print Assumptions C191_copy.
Print Assumptions C191_slice_refuted.
Example C191_nontrivial : poly_lt z_ops None (Some 3) = Ok true /\
  op_copy (fun p : nat * option nat => (fst p, None)) (op_make (1%nat, Some 2%nat)) = Some (1%nat, None).
Proof. split; reflexivity. Qed.

(** C192 expected_t: its state is that of the last operation, never valueless; one of the
    three tests is true; get returns the value, rethrows the exception or terminates. *)
Theorem C192_history {V E} (os : list (xop V E)) x :
  fold_left ex_step os x = last (map (last_state x) os) x /\ fold_left ex_step os ex_default <> Valueless.
Proof. exact (conj (ex_history os x) (ex_reachable os)). Qed.
Theorem C192_states {V E} (x : expected V E) : x <> Valueless ->
  (ex_empty x = true /\ ex_has_value x = false /\ ex_has_exception x = false) \/
  (ex_empty x = false /\ ex_has_value x = true /\ ex_has_exception x = false) \/
  (ex_empty x = false /\ ex_has_value x = false /\ ex_has_exception x = true).
Proof. exact (ex_one x). Qed.
Theorem C192_get {V E} (x : expected V E) :
  ex_get x = match x with
             | Empty => Terminates
             | Value v => Gives v
             | Exception (Some e) => Raises e
             | Exception None => Undefined
             | Valueless => Undefined
             end.
Proof. exact (ex_get_spec x). Qed.
Theorem C192_from_code {V E} (f : outcome V E) :
  ex_get (ex_from_code f) = match f with Returns v => Gives v | Throws e => Raises e end.
Proof. exact (ex_code f). Qed.
Theorem C192_equal {V E} eqv eqe : (forall v w, eqv v w = true <-> v = w) -> (forall e f, eqe e f = true <-> e = f) ->
  forall x y : expected V E, ex_eq eqv eqe x y = true <-> x = y.
Proof. exact (ex_eq_spec eqv eqe). Qed.
(** expected_from_code< Result > loses the result. *)
Theorem C192_from_code_as_refuted {V E} (f : outcome V E) : ex_get (ex_expected_from_code_as f) = Terminates.
Proof. exact (ex_code_as f). Qed.
(** A value whose copy throws leaves what was there if it can be moved without throwing,
    else an expected that is in none of its states. *)
Theorem C192_throwing_copy_refuted {V E} (x : expected V E) : ex_has_value x = false ->
  ex_set_value_throws true x = x /\ ex_set_value_throws false x = Valueless /\
  ex_get (ex_set_value_throws false x) = Undefined.
Proof. exact (ex_throwing x). Qed.
Theorem C192_made :
  forall (V E : Type) (v : V) (e : E) (f : outcome V E),
  ex_get (ex_of_value v : expected V E) = Gives v /\ ex_get (ex_of_exception (Some e) : expected V E) = Raises e /\
  ex_get (ex_expected_from_code f) = match f with Returns v => Gives v | Throws e => Raises e end.
Proof. exact c192_made_l. Qed.
(** operator bool is true of one that holds an exception as well. *)
Theorem C192_bool :
  forall (V E : Type) (x : expected V E), x <> Valueless ->
  (ex_bool x = true <-> ex_has_value x = true \/ ex_has_exception x = true).
Proof. exact c192_bool_l. Qed.
(** get_exception_ptr of one that holds no exception is undefined. *)
Theorem C192_exception_ptr :
  forall (V E : Type) (x : expected V E) p,
  (ex_get_exception_ptr x = Ok p <-> x = Exception p) /\ (ex_has_exception x = false <-> ex_get_exception_ptr x = UB).
Proof. exact c192_exception_ptr_l. Qed.
Print Assumptions C192_exception_ptr.
Print Assumptions C192_bool.
Print Assumptions C192_made.
Print Assumptions C192_history.
Print Assumptions C192_states.
Print Assumptions C192_get.
Print Assumptions C192_from_code.
Print Assumptions C192_equal.
Print Assumptions C192_from_code_as_refuted.
Print Assumptions C192_throwing_copy_refuted.
Example C192_nontrivial :
  fold_left ex_step [SetValue 3; SetException (Some true); FromCode (Returns 4)] (ex_default : expected Z bool) = Value 4 /\
  ex_get (Exception (Some true) : expected Z bool) = Raises true /\ ex_get (Value 4 : expected Z bool) = Gives 4.
Proof. repeat split. Qed.

(** C193 checked_expected_t: from_code keeps the value or a listed exception; one that is
    not listed gets out. *)
Theorem C193_from_code {V E} listed none_listed (f : outcome V E) :
  match f with
  | Returns v => exists x, ck_from_code listed none_listed f = Ok x /\ ck_get x = Gives v
  | Throws e => if none_listed || listed e then exists x, ck_from_code listed none_listed f = Ok x /\ ck_get x = Raises e
                else ck_from_code listed none_listed f = Throw
  end.
Proof. exact (ck_code listed none_listed f). Qed.
Theorem C193_set {V E} (x : checked V E) v e :
  ck_get (ck_set_value x v) = Gives v /\ ck_get (ck_set_exception x (Some e)) = Raises e.
Proof. exact (ck_set x v e). Qed.
Theorem C193_empty {V E} (x : checked V E) : ck_empty x = true <-> m_value x = None /\ m_exception x = None.
Proof. exact (ck_states (fun _ => true) x). Qed.
(** Copy assignment of checked_expected_t< void >: *)
Theorem C193_void_assign_partial {E} (x rhs : checked unit E) :
  m_exception x = None \/ m_exception rhs <> None -> cv_copy_assign x rhs = rhs.
Proof. exact (cv_assign_ok x rhs). Qed.
(** an exception survives the assignment of one without. *)
Theorem C193_void_assign_refuted {E} (x rhs : checked unit E) e : m_exception x = Some e -> m_exception rhs = None ->
  cv_get rhs = Gives tt /\ cv_get (cv_copy_assign x rhs) = Raises e.
Proof. exact (cv_assign_bad x rhs e). Qed.
Theorem C193_void :
  forall (E : Type) (x : checked unit E),
  cv_get (cv_set_value x) = Gives tt /\ ck_empty (ck_default : checked unit E) = true /\ cv_copy x = x /\
  fst (cv_move x) = x /\ ck_empty (snd (cv_move x)) = true.
Proof. exact c193_void_l. Qed.
Print Assumptions C193_void.
Print Assumptions C193_from_code.
Print Assumptions C193_set.
Print Assumptions C193_empty.
Print Assumptions C193_void_assign_partial.
Print Assumptions C193_void_assign_refuted.
Example C193_nontrivial :
  ck_from_code Z.even false (Throws 3 : outcome bool Z) = Throw /\
  ck_from_code Z.even false (Throws 4 : outcome bool Z) = Ok (Checked None (Some 4)) /\
  cv_get (cv_copy_assign (Checked None (Some 4)) (Checked (Some tt) None)) = Raises 4.
Proof. repeat split. Qed.

(** C194 safe_pointer: it moves as a pointer does while it stays inside its array or at
    its end, and stops the program otherwise; -> reads the element it is at. *)
Theorem C194_moves {V} (mem : list V) os p : Z.of_nat (length mem) < 2 ^ 63 -> Forall small os ->
  0 <= at_index p <= Z.of_nat (length mem) -> destroyed p = false ->
  sp_run mem p os = match walk (Z.of_nat (length mem)) (at_index p) os with Some j => Ok (SPtr j false) | None => Throw end.
Proof. exact (fun S F => sp_history mem os S F p). Qed.
Theorem C194_arrow {V} (mem : list V) i v : nth_error mem (Z.to_nat i) = Some v -> sp_arrow mem (SPtr i false) = Ok v.
Proof. exact (sp_arrow_spec mem i v). Qed.
Theorem C194_destroyed {V} (mem : list V) p o : destroyed p = true ->
  sp_deref mem p = Throw /\ sp_arrow mem p = Throw /\ (o = SInc \/ o = SDec -> sp_step mem p o = Throw).
Proof. exact (sp_dead mem p o). Qed.
(** The difference is right unless the pointer subtracted is at the end, which is refused. *)
Theorem C194_distance {V} (mem : list V) p q : 0 <= at_index q <= Z.of_nat (length mem) ->
  sp_distance mem p q = if at_index q =? Z.of_nat (length mem) then Throw else Ok (at_index p - at_index q).
Proof. exact (sp_distance_spec mem p q). Qed.
(** operator* and operator[] read the first element wherever the pointer is. *)
Theorem C194_deref_refuted {V} (mem : list V) p v : destroyed p = false -> nth_error mem 0 = Some v -> sp_deref mem p = Ok v.
Proof. exact (sp_deref_first mem p v). Qed.
Theorem C194_index_refuted {V} (mem : list V) p n v : Z.of_nat (length mem) < 2 ^ 63 -> destroyed p = false ->
  0 <= at_index p <= Z.of_nat (length mem) -> - 2 ^ 63 < n < 2 ^ 63 ->
  0 <= at_index p + n < Z.of_nat (length mem) -> nth_error mem 0 = Some v -> sp_index mem p n = Ok v.
Proof. exact (sp_index_first mem p n v). Qed.
(** += of a destroyed pointer is not refused. *)
Theorem C194_destroyed_add_refuted {V} (mem : list V) p n : Z.of_nat (length mem) < 2 ^ 63 -> destroyed p = true ->
  0 <= at_index p -> 0 <= n -> at_index p + n <= Z.of_nat (length mem) ->
  sp_step mem p (SAdd n) = Ok (SPtr (at_index p + n) true).
Proof. exact (sp_dead_add mem p n). Qed.
Theorem C194_from_start :
  forall (V : Type) (mem : list V) os, Z.of_nat (length mem) < 2 ^ 63 -> Forall small os ->
  sp_run mem sp_start os = match walk (Z.of_nat (length mem)) 0 os with Some j => Ok (SPtr j false) | None => Throw end.
Proof. exact c194_from_start_l. Qed.
Theorem C194_destroy :
  forall (V : Type) (mem : list V) p, at_index (sp_destroy p) = at_index p /\
  sp_deref mem (sp_destroy p) = Throw /\ sp_arrow mem (sp_destroy p) = Throw.
Proof. exact c194_destroy_l. Qed.
Print Assumptions C194_destroy.
Print Assumptions C194_from_start.
Print Assumptions C194_moves.
Print Assumptions C194_arrow.
Print Assumptions C194_destroyed.
Print Assumptions C194_distance.
Print Assumptions C194_deref_refuted.
Print Assumptions C194_index_refuted.
Print Assumptions C194_destroyed_add_refuted.
Example C194_nontrivial :
  sp_run [7; 8; 9] sp_start [SInc; SAdd 2; SDec; SSub 1; SSub (-2)] = Ok (SPtr 3 false) /\
  sp_run [7; 8; 9] sp_start [SAdd 3; SInc] = Throw /\ sp_arrow [7; 8; 9] (SPtr 2 false) = Ok 9 /\
  sp_deref [7; 8; 9] (SPtr 2 false) = Ok 7.
Proof. repeat split. Qed.

(** C195 to_reference_vector of a range that is not empty never returns. *)
Theorem C195_never_refuted {V} (mem : list V) first last : first <> last -> (first < length mem)%nat ->
  forall fuel result, to_reference_vector fuel first last mem result = OutOfFuel.
Proof. exact (trv_never mem first last). Qed.
Print Assumptions C195_never_refuted.
Example C195_nontrivial : to_reference_vector 9 0 2 [5; 6] [] = OutOfFuel /\ to_reference_vector 9 1 1 [5; 6] [] = Ok [].
Proof. split; reflexivity. Qed.
