(** Theorems about heap_array (C204), fixed_array (C205) and carray (C206). *)
From Coq Require Import Lia.
From Verif Require Import Common OldArrays SpecOldArrays OldArraysProofs.
Open Scope nat_scope.

Section C204.
  Context {T : Type} (dflt : T) (eqb : T -> T -> bool).
  (** Any history: no undefined behaviour, the contents are those of plain lists, and
      without move assignment every array not owned by a variable has been deleted. *)
  Theorem C204_heap_array_history (os : list (aop T)) ls : list_run os [] = Some ls ->
    exists s, a_run (ha_step dflt) os ([], []) = Ok s /\ shows s ls /\ (without is_move_assign os -> no_leak s).
  Proof. exact (ha_history dflt os ls). Qed.
  Theorem C204_heap_array_access (os : list (aop T)) ls i l : list_run os [] = Some ls -> nth_error ls i = Some (Some l) ->
    exists s a, a_run (ha_step dflt) os ([], []) = Ok s /\ nth_error (snd s) i = Some (Some a) /\
      (forall k, ha_at (fst s) a k = match nth_error l k with Some x => Ok x | None => Throw end) /\
      (forall k x, nth_error l k = Some x -> ha_get (fst s) a k = Ok x).
  Proof. exact (ha_get_ok dflt os ls i l). Qed.
  (** Without the move constructor end( ) is right as well. *)
  Theorem C204_heap_array_ends_partial (os : list (aop T)) ls i l :
    list_run os [] = Some ls -> without is_move_new os -> nth_error ls i = Some (Some l) ->
    exists s a, a_run (ha_step dflt) os ([], []) = Ok s /\ nth_error (snd s) i = Some (Some a) /\
      ha_iterate (fst s) a = Ok l /\ ha_empty a = (length l =? 0) /\
      (forall l' x, l = l' ++ [x] -> ha_back (fst s) a = Ok x).
  Proof. exact (ha_ends_ok dflt os ls i l). Qed.
  (** find_first_of: right when the array has the spare element its sentinel needs. *)
  Theorem C204_heap_array_find_partial (os : list (aop T)) ls i l x start : (forall y, eqb y y = true) ->
    list_run os [] = Some ls -> without is_move_new os -> nth_error ls i = Some (Some l) -> start <= length l ->
    exists s a, a_run (ha_step dflt) os ([], []) = Ok s /\ nth_error (snd s) i = Some (Some a) /\
      (has_spare (fst s) a ->
       exists m p, ha_find eqb (fst s) a start x = Ok (m, p) /\ first_from eqb l start x p /\ shows (m, snd s) ls) /\
      ((forall la, get_arr (fst s) (beg a) = Ok la -> length la = cnt a) -> ha_find eqb (fst s) a start x = UB).
  Proof. exact (ha_find_ok dflt eqb os ls i l x start). Qed.
  Theorem C204_heap_array_new_has_spare (os : list (aop T)) ls n x : list_run os [] = Some ls ->
    exists s a, a_run (ha_step dflt) (os ++ [New n x]) ([], []) = Ok s /\ nth_error (snd s) (length ls) = Some (Some a) /\ has_spare (fst s) a.
  Proof. exact (new_spare dflt os ls n x). Qed.
  Theorem C204_heap_array_assign_has_spare (os : list (aop T)) ls i l l0 : list_run os [] = Some ls -> the ls i = Some l0 ->
    exists s a, a_run (ha_step dflt) (os ++ [AssignList i l]) ([], []) = Ok s /\ nth_error (snd s) i = Some (Some a) /\ has_spare (fst s) a.
  Proof. exact (assign_spare dflt os ls i l l0). Qed.
  (** find_first_of in any copy writes behind the end of the copy's array. *)
  Theorem C204_heap_array_find_in_copy_refuted (os : list (aop T)) ls j l start x : list_run os [] = Some ls -> the ls j = Some l ->
    exists s a, a_run (ha_step dflt) (os ++ [CopyNew j]) ([], []) = Ok s /\ nth_error (snd s) (length ls) = Some (Some a) /\
      ha_find eqb (fst s) a start x = UB.
  Proof. exact (copy_find dflt eqb os ls j l start x). Qed.
  (** The move constructor loses end( ): neither object can be iterated over. *)
  Theorem C204_heap_array_move_construct_refuted (os : list (aop T)) ls j l start x :
    list_run os [] = Some ls -> without is_move_new os -> the ls j = Some l -> l <> [] ->
    exists s a b, a_run (ha_step dflt) (os ++ [MoveNew j]) ([], []) = Ok s /\
      nth_error (snd s) (length ls) = Some (Some a) /\ nth_error (snd s) j = Some (Some b) /\
      cnt a = length l /\ ha_iterate (fst s) a = UB /\ ha_back (fst s) a = UB /\ ha_find eqb (fst s) a start x = UB /\ ha_empty a = false /\
      cnt b = 0 /\ ha_iterate (fst s) b = UB /\ ha_empty b = false.
  Proof. exact (fun A B C D => move_new_breaks dflt os ls j l eqb start x A B C D). Qed.
  (** Move assignment to a variable with elements leaks its array, whatever is done later. *)
  Theorem C204_heap_array_move_assign_leak_refuted (os : list (aop T)) ls i j la lb os' ls' :
    list_run os [] = Some ls -> i <> j -> the ls i = Some la -> la <> [] -> the ls j = Some lb ->
    list_run (os ++ MoveAssign i j :: os') [] = Some ls' ->
    exists s, a_run (ha_step dflt) (os ++ MoveAssign i j :: os') ([], []) = Ok s /\ exists k, alive (fst s) k /\
      forall v a, nth_error (snd s) v = Some (Some a) -> beg a <> Some k.
  Proof. exact (move_assign_leaks dflt os ls i j la lb os' ls'). Qed.
  (** operator bool says false for an array with elements, true for a null one. *)
  Theorem C204_heap_array_bool_refuted : ha_bool null_arr = true /\
    forall (os : list (aop T)) ls i l, list_run os [] = Some ls -> the ls i = Some l -> l <> [] ->
    exists s a, a_run (ha_step dflt) os ([], []) = Ok s /\ nth_error (snd s) i = Some (Some a) /\ ha_bool a = false.
  Proof. exact (conj eq_refl (ha_bool_is dflt)). Qed.
End C204.
Print Assumptions C204_heap_array_history.
Print Assumptions C204_heap_array_access.
Print Assumptions C204_heap_array_ends_partial.
Print Assumptions C204_heap_array_find_partial.
Print Assumptions C204_heap_array_new_has_spare.
Print Assumptions C204_heap_array_assign_has_spare.
Print Assumptions C204_heap_array_find_in_copy_refuted.
Print Assumptions C204_heap_array_move_construct_refuted.
Print Assumptions C204_heap_array_move_assign_leak_refuted.
Print Assumptions C204_heap_array_bool_refuted.
Example C204_example :
  let os := [New 2 7; FromList [1; 2; 3]; CopyNew 1; AssignList 0 [4; 5]; SwapWith 0 2; SetAt 2 1 9; CopyAssign 1 2; Default; ClearA 0] in
  list_run os [] = Some [Some []; Some [4; 9]; Some [4; 9]; Some []] /\
  (s <- a_run (ha_step 0) os ([], []) ;; match snd s with [_; Some a; Some b; _] =>
     x <- ha_iterate (fst s) a ;; y <- ha_find Nat.eqb (fst s) b 0 8 ;; z <- ha_find Nat.eqb (fst s) b 0 9 ;; Ok (x, snd y, snd z) | _ => UB end)
  = Ok ([4; 9], 2, 1).
Proof. split; reflexivity. Qed.

Section C205.
  Context {T : Type}.
  Theorem C205_fixed_array_history (os : list (aop T)) ls : list_run os [] = Some ls -> without is_clear os ->
    exists s, a_run fa_step os ([], []) = Ok s /\ shows s ls /\ no_leak s.
  Proof. exact (fa_history os ls). Qed.
  Theorem C205_fixed_array_access (os : list (aop T)) ls i l : list_run os [] = Some ls -> without is_clear os -> nth_error ls i = Some (Some l) ->
    exists s a, a_run fa_step os ([], []) = Ok s /\ nth_error (snd s) i = Some (Some a) /\
      (forall k x, nth_error l k = Some x -> fa_get (fst s) a k = Ok x) /\
      (forall l' x, l = l' ++ [x] -> fa_back (fst s) a = Ok x).
  Proof. exact (fa_get_ok os ls i l). Qed.
  (** release( ) hands over the array with its elements; no variable keeps it. *)
  Theorem C205_fixed_array_release (os : list (aop T)) ls i l : list_run os [] = Some ls -> without is_clear os -> the ls i = Some l ->
    exists s s' p, a_run fa_step os ([], []) = Ok s /\ fa_release s i = Ok (s', p) /\ shows s' (upd ls i (Some [])) /\
      read_n (fst s') p (length l) = Ok l /\ (forall v a, nth_error (snd s') v = Some (Some a) -> p <> None -> beg a <> p).
  Proof. exact (fa_release_ok os ls i l). Qed.
  (** After clear( ) the object still points to the deleted array: destroying, clearing or
      assigning to it deletes the array again. *)
  Theorem C205_fixed_array_clear_refuted (os : list (aop T)) ls i l : list_run os [] = Some ls -> without is_clear os -> the ls i = Some l -> l <> [] ->
    a_run fa_step (os ++ [ClearA i; Destroy i]) ([], []) = UB /\
    a_run fa_step (os ++ [ClearA i; ClearA i]) ([], []) = UB /\
    (forall j, the ls j <> None -> a_run fa_step (os ++ [ClearA i; CopyAssign i j]) ([], []) = UB) /\
    (forall j, j <> i -> the ls j <> None -> a_run fa_step (os ++ [ClearA i; MoveAssign i j]) ([], []) = UB).
  Proof. exact (fa_clear_breaks os ls i l). Qed.
End C205.
Print Assumptions C205_fixed_array_history.
Print Assumptions C205_fixed_array_access.
Print Assumptions C205_fixed_array_release.
Print Assumptions C205_fixed_array_clear_refuted.
Example C205_example :
  let os := [New 2 7; FromList [1; 2; 3]; MoveNew 1; MoveAssign 1 0; SwapWith 1 2; CopyAssign 0 1; Destroy 1] in
  list_run os [] = Some [Some [1; 2; 3]; None; Some [7; 7]] /\
  (s <- a_run fa_step os ([], []) ;; match snd s with [Some a; None; Some b] => x <- fa_back (fst s) a ;; y <- fa_get (fst s) b 0 ;; Ok (x, y) | _ => UB end) = Ok (3, 7).
Proof. split; reflexivity. Qed.

Section C206.
  Context {T : Type}.
  (** The first elements are the arguments, the rest are zero. *)
  Theorem C206_carray_make (zero : T) n args : length args <= n -> ca_make zero n args = Ok (args ++ repeat zero (n - length args)).
  Proof. exact (ca_make_ok zero n args). Qed.
  (** Nothing refuses more arguments than elements: they are written behind the array. *)
  Theorem C206_carray_make_too_many_refuted (zero : T) n args : n < length args -> ca_make zero n args = UB.
  Proof. exact (ca_make_over zero n args). Qed.
  Theorem C206_carray_at (l : list T) k : ca_at l k = match nth_error l k with Some x => Ok x | None => Throw end.
  Proof. exact (ca_at_ok l k). Qed.
  Theorem C206_carray_front_back (l : list T) x : ca_back (l ++ [x]) = Ok x /\ ca_front (x :: l) = Ok x.
  Proof. exact (ca_back_ok l x). Qed.
  (** Reverse iteration starts at the last but one element and leaves the array. *)
  Theorem C206_carray_reverse_refuted (l : list T) : l <> [] -> ca_reverse l = UB.
  Proof. exact (ca_reverse_ub l). Qed.
  Theorem C206_carray_rbegin_refuted (l : list T) x y : ca_rfirst (l ++ [x; y]) = Ok x.
  Proof. exact (ca_rfirst_is l x y). Qed.
End C206.
Theorem C206_carray_get :
  forall (U : Type) (l : list U) k x, (nth_error l k = Some x -> ca_get l k = Ok x) /\
  length (ca_fill l x) = length l /\ (k < length l -> ca_get (ca_fill l x) k = Ok x).
Proof. exact c206_carray_get_l. Qed.
Print Assumptions C206_carray_get.
Print Assumptions C206_carray_make.
Print Assumptions C206_carray_make_too_many_refuted.
Print Assumptions C206_carray_at.
Print Assumptions C206_carray_front_back.
Print Assumptions C206_carray_reverse_refuted.
Print Assumptions C206_carray_rbegin_refuted.
Example C206_example : ca_make 0 4 [5; 6] = Ok [5; 6; 0; 0] /\ ca_reverse [1; 2; 3] = UB /\ ca_make 0 1 [5; 6] = UB.
Proof. repeat split. Qed.
