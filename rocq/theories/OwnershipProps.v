(** C179-C189: the classes that own one object, scope guards, union_pair, sbo_storage,
    validated and take.  The vocabulary is in SpecOwnership.v. *)
From Coq Require Import Permutation.
From Verif Require Import Common Ownership SpecOwnership OwnershipProofs.

(** C179 daw::unique_ptr: in every history each object has one owner, is deleted once,
    by its owner, and the variables hold what assigning pointers without a heap says. *)
Theorem C179_history {V} : owns_properly (V := V) up_step false unique_ops.
Proof. exact up_histories. Qed.
(** Of any of the classes: once all variables have ended and the program owns nothing,
    every object has been deleted. *)
Theorem C179_no_leak {V A} (s : st V A) h : represents s h -> Forall (eq None) (held h) -> mine h = [] ->
  Forall (eq None) (cells s).
Proof. exact (no_leak s h). Qed.
(** ==, <, > and >= of the addresses. *)
Theorem C179_order p q :
  up_lt p q = (p <? q) /\ up_gt p q = (q <? p) /\ up_ge p q = (q <=? p) /\ up_eq p q = (p =? q).
Proof. exact (up_order p q). Qed.
(** <= of different addresses is wrong. *)
Theorem C179_le_refuted p q : p <> q -> up_le p q = negb (p <=? q).
Proof. exact (up_le_wrong p q). Qed.
(** The deleter set for an object deletes it in place, but is lost when the pointer is
    moved or swapped: another deletes it. *)
Theorem C179_deleter {V} (v : V) d :
  exists s1 s2 s3, up_step start (Make v) = Ok s1 /\ up_set_deleter s1 0 d = Ok s2 /\
    up_step s2 (Destroy 0) = Ok s3 /\ log s3 = [(0, d)].
Proof. exact (up_deleter_kept v d). Qed.
Theorem C179_deleter_moved_refuted {V} (v : V) d :
  exists s1 s2 s3 s4, up_step start (Make v) = Ok s1 /\ up_set_deleter s1 0 d = Ok s2 /\
    up_step s2 (MoveNew 0) = Ok s3 /\ up_step s3 (Destroy 1) = Ok s4 /\ log s4 = [(0, 0)].
Proof. exact (up_deleter_lost v d). Qed.
Theorem C179_deleter_swapped_refuted {V} (v w : V) d :
  exists s1 s2 s3 s4 s5, up_step start (Make v) = Ok s1 /\ up_set_deleter s1 0 d = Ok s2 /\
    up_step s2 (Make w) = Ok s3 /\ up_step s3 (SwapWith 0 1) = Ok s4 /\ up_step s4 (Destroy 1) = Ok s5 /\ log s5 = [(0, 0)].
Proof. exact (up_deleter_swapped v w d). Qed.
Print Assumptions C179_history.
Print Assumptions C179_no_leak.
Print Assumptions C179_order.
Print Assumptions C179_le_refuted.
Print Assumptions C179_deleter.
Print Assumptions C179_deleter_moved_refuted.
Print Assumptions C179_deleter_swapped_refuted.
Example C179_nontrivial :
  effects false unique_ops
    [Make 5; Make 6; MoveTo 0 1; MoveTo 0 0; MoveNew 0; Release 2; Adopt 0; ResetTo 0 7; Write 0 8; SwapWith 0 3; Reset 3;
     Destroy 0; Destroy 1; Destroy 2; Destroy 3] at_first = Some (Holding [None; None; None; None] []) /\
  effects false unique_ops [Make 5; Make 6; MoveTo 0 1; MoveNew 0; Release 2; ResetTo 0 7] at_first
    = Some (Holding [Some (Some 7); Some None; Some None] [6]).
Proof. split; reflexivity. Qed.

(** C180 maybe_unique_ptr of owned objects; one that borrows leaves the object alone... *)
Theorem C180_history {V} : owns_properly (V := V) mu_step false maybe_ops.
Proof. exact mu_histories. Qed.
Theorem C180_borrowed {V} (s : st V bool) k a : nth_error (loose s) k = Some a ->
  exists s1 s2, mu_borrow s k = Ok s1 /\ mu_destroy s1 (length (vars s)) = Ok s2 /\
    cells s2 = cells s /\ log s2 = log s /\ loose s2 = loose s.
Proof. exact (mu_borrow_end s k a). Qed.
(** ... unless it is moved: then the object, which belongs to the program, is deleted. *)
Theorem C180_borrowed_moved_refuted {V} (s : st V bool) k a v :
  nth_error (loose s) k = Some a -> nth_error (cells s) a = Some (Some v) ->
  exists s1 s2 s3, mu_borrow s k = Ok s1 /\ mu_move s1 (length (vars s)) = Ok s2 /\
    mu_destroy s2 (S (length (vars s))) = Ok s3 /\ loose s3 = loose s /\ nth_error (cells s3) a = Some None.
Proof. exact (mu_borrow_moved s k a v). Qed.
(** reset( p ) after any history deletes p and keeps it: the end of the variable is UB. *)
Theorem C180_reset_to_refuted {V} os (h : holding V) i v :
  effects false maybe_ops os at_first = Some h -> lives h i = true ->
  exists s s' a, run mu_step os start = Ok s /\ mu_step s (ResetTo i v) = Ok s' /\
    var s' i = Ok (Own (Some a) true) /\ nth_error (cells s') a = Some None /\ mu_step s' (Destroy i) = UB.
Proof. exact (mu_reset_to_reached os h i v). Qed.
Print Assumptions C180_history.
Print Assumptions C180_borrowed.
Print Assumptions C180_borrowed_moved_refuted.
Print Assumptions C180_reset_to_refuted.
Example C180_nontrivial :
  effects false maybe_ops [Make 5; MakeNull; MoveTo 1 0; MoveNew 1; Make 4; SwapWith 2 3; Release 3; Adopt 0; Reset 2; Destroy 0] at_first
    = Some (Holding [None; Some None; Some None; Some None; Some (Some 5)] []) /\
  nth_error (loose (St [Some 5; Some 6] [] [] [1] : st nat bool)) 0 = Some 1 /\
  nth_error (cells (St [Some 5; Some 6] [] [] [1] : st nat bool)) 1 = Some (Some 6).
Proof. repeat split. Qed.

(** C181 copiable_unique_ptr: copies are deep and null is copied to null; move
    assignment exchanges. *)
Theorem C181_history {V} : owns_properly (V := V) cu_step true copiable_ops.
Proof. exact cu_histories. Qed.
Print Assumptions C181_history.
Example C181_nontrivial :
  effects true copiable_ops [Make 5; CopyNew 0; Write 1 6; MakeNull; CopyTo 0 1; CopyTo 1 2; CopyTo 2 0; MoveTo 1 0; CopyNew 0] at_first
    = Some (Holding [Some None; Some (Some 6); Some (Some 6); Some None] []).
Proof. reflexivity. Qed.

(** C182 value_ptr and heap_value, of which only full ones are copied. *)
Theorem C182_value_ptr {V} : owns_properly (V := V) vp_step false value_ops.
Proof. exact vp_histories. Qed.
Theorem C182_heap_value {V} : owns_properly (V := V) hv_step false heap_ops.
Proof. exact hv_histories. Qed.
(** Copying an empty value_ptr dereferences null. *)
Theorem C182_copy_null_refuted {V} (s : st V unit) h i : represents s h -> deleted_once s ->
  nth_error (held h) i = Some (Some None) -> vp_step s (CopyNew i) = UB.
Proof. exact (vp_copy_null s h i). Qed.
(** Assigning an rvalue works for a full value_ptr and dereferences null otherwise. *)
Theorem C182_assign_rvalue {V} (s : st V unit) h i v : represents s h -> deleted_once s ->
  (nth_error (held h) i = Some (Some None) -> vp_assign_rvalue s i v = UB) /\
  (full h i = true -> exists s', vp_assign_rvalue s i v = Ok s' /\ represents s' (change h i (Some (Some v))) /\ deleted_once s').
Proof. exact (vp_rvalue s h i v). Qed.
(** The sign of compare: null is before everything, else the order of the values. *)
Theorem C182_compare {V} (comp : V -> V -> bool) : strict_weak comp -> forall x y : option V,
  let lt a b := match a, b with None, Some _ => true | Some a, Some b => comp a b | _, _ => false end in
  ((vp_compare comp x y < 0)%Z <-> lt x y = true) /\
  ((0 < vp_compare comp x y)%Z <-> lt y x = true) /\
  (vp_compare comp x y = - vp_compare comp y x)%Z.
Proof. exact (vp_compare_spec comp). Qed.
(** A heap_value that was moved from cannot be copied from or copy-assigned to. *)
Theorem C182_heap_value_moved_refuted {V} (s : st V unit) h i j : represents s h -> deleted_once s ->
  nth_error (held h) i = Some (Some None) ->
  hv_step s (CopyNew i) = UB /\
  (lives h j = true -> j <> i -> hv_step s (CopyTo i j) = UB /\ hv_step s (CopyTo j i) = UB).
Proof. exact (hv_null s h i j). Qed.
Print Assumptions C182_value_ptr.
Print Assumptions C182_heap_value.
Print Assumptions C182_copy_null_refuted.
Print Assumptions C182_assign_rvalue.
Print Assumptions C182_compare.
Print Assumptions C182_heap_value_moved_refuted.
Example C182_nontrivial :
  effects false value_ops [Make 5; CopyNew 0; Assign 0 6; MakeNull; Assign 2 7; MoveTo 1 2; SwapWith 0 2; Reset 2; Destroy 2] at_first
    = Some (Holding [Some None; Some (Some 7); None] []) /\
  effects false heap_ops [Make 5; CopyNew 0; Write 0 6; CopyTo 1 0; MoveNew 0; SwapWith 0 1; Destroy 1] at_first
    = Some (Holding [Some (Some 6); None; Some (Some 6)] []) /\
  vp_compare Nat.ltb (Some 3) (Some 4) = (-1)%Z.
Proof. repeat split. Qed.

(** C183 unique_resource, used as resource_ops says. *)
Theorem C183_history_partial {V} : owns_properly (V := V) ur_step false resource_ops.
Proof. exact ur_histories. Qed.
(** reset( ) leaves the handle in place: the end, and a further reset, release it again. *)
Theorem C183_reset_refuted {V} (s : st V unit) h i : represents s h -> deleted_once s -> full h i = true ->
  exists s', ur_step s (Reset i) = Ok s' /\ ur_step s' (Destroy i) = UB /\ ur_step s' (Reset i) = UB /\
    (forall v, ur_step s' (ResetTo i v) = UB).
Proof. exact (ur_reset_twice s h i). Qed.
(** Move assignment from an empty one and release( ) of it read an absent handle. *)
Theorem C183_empty_refuted {V} (s : st V unit) h i j : represents s h -> deleted_once s ->
  nth_error (held h) j = Some (Some None) -> ur_step s (MoveTo i j) = UB /\ ur_step s (Release j) = UB.
Proof. exact (ur_from_empty s h i j). Qed.
Print Assumptions C183_history_partial.
Print Assumptions C183_reset_refuted.
Print Assumptions C183_empty_refuted.
Example C183_nontrivial :
  effects false resource_ops [Make 5; MoveNew 0; Reset 0; ResetTo 0 6; MoveTo 1 0; Make 8; Release 2; Adopt 0; Destroy 1] at_first
    = Some (Holding [Some None; None; Some None; Some (Some 8)] []).
Proof. reflexivity. Qed.

(** C184 unique_array: as unique_ptr, and size, empty, [], front and back. *)
Theorem C184_history {T} os (h : holding (list T)) : effects false array_ops os at_first = Some h ->
  exists s, run ua_step os start = Ok s /\ represents s h /\ deleted_once s /\
    (forall i ov, nth_error (held h) i = Some (Some ov) ->
     exists o, var s i = Ok o /\ aux o = size_of ov /\ ua_empty o = match ov with Some _ => false | None => true end /\
       (forall l pos, ov = Some l -> ua_get s o pos = rd l pos) /\
       (forall l, ov = Some l -> ua_front s o = rd l 0) /\
       (forall l x, ov = Some (l ++ [x]) -> ua_back s o = Ok x)).
Proof. exact (ua_all os h). Qed.
(** at throws for every position inside the array and reads outside of it. *)
Theorem C184_at_refuted {T} os (h : holding (list T)) i l : effects false array_ops os at_first = Some h ->
  nth_error (held h) i = Some (Some (Some l)) ->
  exists s o, run ua_step os start = Ok s /\ var s i = Ok o /\
    (forall pos, pos < length l -> ua_at s o pos = Throw) /\ (forall pos, length l <= pos -> ua_at s o pos = UB).
Proof. exact (ua_at_wrong os h i l). Qed.
(** An array with no elements is not empty( ). *)
Theorem C184_empty_refuted {T} :
  exists (s : st (list T) nat) o, ua_step start (Make []) = Ok s /\ var s 0 = Ok o /\ aux o = 0 /\ ua_empty o = false.
Proof. exact ua_empty_array. Qed.
Print Assumptions C184_history.
Print Assumptions C184_at_refuted.
Print Assumptions C184_empty_refuted.
Example C184_nontrivial :
  effects false array_ops [Make [1; 2; 3]; MakeNull; MoveTo 1 0; Write 1 [4; 5; 6]; MoveNew 1; Make [7]; Destroy 0; MoveTo 3 2] at_first
    = Some (Holding [None; Some None; Some None; Some (Some [4; 5; 6])] []).
Proof. reflexivity. Qed.

(** C185 scope guards that are not moved: the handlers that have run are those the book
    says, in its order, and no guard has left its scope with its handler armed. *)
Theorem C185_history {F} dbg os (b : book F) : g_effects os (Book [] []) = Some b ->
  exists s, g_run dbg os (Guards [] []) = Ok s /\ ran s = done_in_order b /\
    Permutation (ran s) (handlers_run b) /\ ~ left_armed b.
Proof. exact (g_histories dbg os b). Qed.
(** A guard that was moved still runs its handler: it runs twice. *)
Theorem C185_move_refuted {F} dbg (f : F) :
  exists s, g_run dbg [Guard f; GMove 0; Leave 1; Leave 0] (Guards [] []) = Ok s /\ ran s = [f; f].
Proof. exact (g_moved_twice dbg f). Qed.
(** Assigning to a guard drops its handler. *)
Theorem C185_assign_refuted {F} dbg (f g : F) :
  exists s, g_run dbg [Guard f; Guard g; GAssign 0 1; Leave 1; Leave 0] (Guards [] []) = Ok s /\ ran s = [g; g].
Proof. exact (g_assigned_over dbg f g). Qed.
(** Running a cancelled guard is refused. *)
Theorem C185_run_cancelled {F} dbg (s : guards F) i : nth_error (gs s) i = Some (Some None) ->
  g_run_now dbg s i = if dbg then Throw else UB.
Proof. exact (g_run_cancelled dbg s i). Qed.
(** on_exit_success runs its handler when no exception is in flight ... *)
Theorem C185_success {F} (f : F) : oes_leave 0 f = [f].
Proof. exact (proj2 (proj1 (oes_spec f 0)) eq_refl). Qed.
(** ... and never when one was already in flight when its scope was entered, even if the
    scope is left normally. *)
Theorem C185_success_nested_refuted {F} (f : F) before : before <> 0 -> oes_leave before f = [].
Proof. exact (proj2 (oes_spec f before)). Qed.
Print Assumptions C185_history.
Print Assumptions C185_move_refuted.
Print Assumptions C185_assign_refuted.
Print Assumptions C185_run_cancelled.
Print Assumptions C185_success.
Print Assumptions C185_success_nested_refuted.
Example C185_nontrivial :
  g_effects [Guard 1; Guard 2; Guard 3; Guard 4; Cancel 1; RunNow 2; Leave 3; Leave 2; Leave 1; Leave 0] (Book [] [])
    = Some (Book [(1, Run, false); (2, Cancelled, false); (3, Run, false); (4, Run, false)] [3; 4; 1]).
Proof. reflexivity. Qed.

(** C186 union_pair: it holds what was last stored.  Storing works where the type may be
    assigned without an object (trivial assignment) or already holds that type; *)
Theorem C186_start {V0 V1} : holds (@un_empty V0 V1) Nothing.
Proof. exact un_start_spec. Qed.
Theorem C186_store_first {V0 V1} triv0 (u : upair V0 V1) x v : holds u x -> triv0 = true \/ is_first x = true ->
  exists u', un_store0 triv0 u v = Ok u' /\ holds u' (First v).
Proof. exact (un_first_ok triv0 u x v). Qed.
Theorem C186_store_second {V0 V1} triv1 (u : upair V0 V1) x v : holds u x -> triv1 = true \/ is_second x = true ->
  exists u', un_store1 triv1 u v = Ok u' /\ holds u' (Second v).
Proof. exact (un_second_ok triv1 u x v). Qed.
(** otherwise it assigns to an object that does not exist. *)
Theorem C186_store_refuted {V0 V1} (u : upair V0 V1) x : holds u x ->
  (is_first x = false -> forall v, un_store0 false u v = UB) /\ (is_second x = false -> forall v, un_store1 false u v = UB).
Proof. exact (un_store_bad u x). Qed.
Theorem C186_assign {V0 V1} (u w : upair V0 V1) x y : holds u x -> holds w y ->
  exists u', un_assign true true u w = Ok u' /\ holds u' y.
Proof. exact (un_assign_spec u w x y). Qed.
Theorem C186_copy {V0 V1} (w : upair V0 V1) y : holds w y -> exists u', un_copy true true w = Ok u' /\ holds u' y.
Proof. exact (un_copy_spec w y). Qed.
Theorem C186_clear {V0 V1} (u : upair V0 V1) x : holds u x -> exists u', un_clear u = Ok u' /\ holds u' Nothing.
Proof. exact (un_clear_spec u x). Qed.
(** The old object is destroyed, unless it is assigned to. *)
Theorem C186_destroys {V0 V1} (u u' : upair V0 V1) x : holds u x ->
  (forall t v, un_store0 t u v = Ok u' -> gone u' = gone u ++ destroyed x (is_first x)) /\
  (forall t v, un_store1 t u v = Ok u' -> gone u' = gone u ++ destroyed x (is_second x)) /\
  (un_clear u = Ok u' -> gone u' = gone u ++ destroyed x false).
Proof. exact (un_destroys u u' x). Qed.
Theorem C186_visit {V0 V1 R} (u : upair V0 V1) x (f0 : V0 -> R) f1 : holds u x ->
  un_visit u f0 f1 = match x with First v => Ok (f0 v) | Second v => Ok (f1 v) | Nothing => Throw end.
Proof. exact (un_visit_spec u x f0 f1). Qed.
Theorem C186_which {V0 V1} (u : upair V0 V1) x : holds u x ->
  un_which u = match x with First _ => 0 | Second _ => 1 | Nothing => 2 end%Z.
Proof. exact (un_which_spec u x). Qed.
Print Assumptions C186_start.
Print Assumptions C186_store_first.
Print Assumptions C186_store_second.
Print Assumptions C186_store_refuted.
Print Assumptions C186_assign.
Print Assumptions C186_copy.
Print Assumptions C186_clear.
Print Assumptions C186_destroys.
Print Assumptions C186_visit.
Print Assumptions C186_which.
Example C186_nontrivial :
  holds (UPair (Second true : either nat bool) type_1 []) (Second true) /\
  un_store0 true (UPair (Second true : either nat bool) type_1 []) 4 = Ok (UPair (First 4) type_0 [Second true]) /\
  un_store0 false (UPair (Second true : either nat bool) type_1 []) 4 = UB.
Proof. repeat split. Qed.

(** C187 sbo_storage: what was put in can be got and removed, inside or on the heap. *)
Theorem C187_sbo {V} small dbg (s : sbo V) v : vacant s ->
  exists s', sb_allocate small dbg s v = Ok s' /\ sb_get small dbg s' = Ok v /\
    (small && dbg = false -> sb_get_const small dbg s' = Ok v) /\
    exists s'', sb_deallocate small dbg s' = Ok s'' /\ vacant s''.
Proof. exact (sb_spec small dbg s v). Qed.
(** A second allocation is refused in a debug build. *)
Theorem C187_twice {V} small (s s' : sbo V) v w : sb_allocate small true s v = Ok s' -> sb_allocate small true s' w = Throw.
Proof. exact (sb_twice small s s' v w). Qed.
(** get of a const storage fails in a debug build for every object kept inside. *)
Theorem C187_const_refuted {V} (s : sbo V) v s' : sb_allocate true true s v = Ok s' -> sb_get_const true true s' = Throw.
Proof. exact (sb_const s v s'). Qed.
Print Assumptions C187_sbo.
Print Assumptions C187_twice.
Print Assumptions C187_const_refuted.
Example C187_nontrivial : vacant (sb_start : sbo nat) /\
  sb_allocate true true (sb_start : sbo nat) 5 = Ok (Sbo local (Some 5) None) /\
  sb_allocate false true (sb_start : sbo nat) 5 = Ok (Sbo allocated None (Some 5)).
Proof. repeat split. Qed.

(** C188 validated: construction and assignment accept just the valid values, a refused
    assignment changes nothing, so a valid one stays valid. *)
Theorem C188_make {V} (p : V -> bool) v : va_make p v = if p v then Ok v else Throw.
Proof. exact (va_make_spec p v). Qed.
Theorem C188_assign {V} (p : V -> bool) m v : va_assign p m v = if p v then Ok v else Throw.
Proof. exact (va_assign_spec p m v). Qed.
Theorem C188_history {V} (p : V -> bool) m vs :
  va_assigns p m vs = last (filter p vs) m /\ (p m = true -> p (va_assigns p m vs) = true).
Proof. exact (conj (va_assigns_spec p vs m) (va_valid p vs m)). Qed.
(** A default constructed one is not checked. *)
Theorem C188_default_refuted {V} (p : V -> bool) d : p d = false -> p (va_default d) = false.
Proof. exact (va_default_wrong p d). Qed.
Print Assumptions C188_make.
Print Assumptions C188_assign.
Print Assumptions C188_history.
Print Assumptions C188_default_refuted.
Example C188_nontrivial : va_assigns Nat.even 4 [7; 6; 9] = 6 /\ Nat.odd (va_default 0) = false.
Proof. split; reflexivity. Qed.

(** C189 take: moving and reset leave T{ } behind. *)
Theorem C189_move {V} (dflt : V) gone l i v : nth_error l i = Some v ->
  tk_move dflt gone true l i = Ok (upd l i dflt ++ [v]).
Proof. exact (tk_move_spec dflt gone l i v). Qed.
Theorem C189_move_assign {V} (dflt : V) gone l i j v w : nth_error l i = Some v -> nth_error l j = Some w ->
  exists l', tk_move_assign dflt gone true l i j = Ok l' /\ length l' = length l /\
    (forall k, nth_error l' k = if k =? i then Some w else if k =? j then Some dflt else nth_error l k).
Proof. exact (tk_assign_spec dflt gone l i j v w). Qed.
Theorem C189_reset {V} (dflt : V) gone l i v : nth_error l i = Some v -> tk_reset dflt gone true l i = Ok (upd l i dflt).
Proof. exact (tk_reset_spec dflt gone l i v). Qed.
Print Assumptions C189_move.
Print Assumptions C189_move_assign.
Print Assumptions C189_reset.
Example C189_nontrivial : tk_move 0 (fun v => v) true [4; 5] 1 = Ok [4; 0; 5] /\ tk_move_assign 0 (fun v => v) true [4; 5] 0 1 = Ok [5; 0].
Proof. split; reflexivity. Qed.
