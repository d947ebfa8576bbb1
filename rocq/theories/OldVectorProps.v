(** C200-C203: Vector of deprecated/daw_vector.h.  The vocabulary is in SpecOldVector.v. *)
From Verif Require Import Common OldVector SpecOldVector OldVectorProofs.
Open Scope nat_scope.

(** C200: a Vector behaves as a list, whatever malloc gives; other memory is left as it is;
    the Vector has at most one block and its destruction leaves none. *)
Theorem C200_history {T} esize page usable trivial (moved : T -> T) dflt :
  malloc_ok esize page usable -> moves_ok trivial moved ->
  forall h0 os l, list_run trivial dflt os [] = Some l ->
  exists h v, v_run esize page usable trivial moved dflt os (h0, v_empty) = Ok (h, v) /\
    holds h v l /\ len v <= room v /\ only_new h0 h (fun a => first v = Some a) /\
    exists h', v_destroy h v = Ok h' /\ only_new h0 h' (fun _ => False).
Proof. exact (history esize page usable trivial moved dflt). Qed.
(** reserve: the capacity does not shrink and pushing within it keeps the block. *)
Theorem C200_reserve {T} esize page usable trivial (moved : T -> T) dflt :
  malloc_ok esize page usable -> moves_ok trivial moved ->
  forall h0 h os v l n, list_run trivial dflt os [] = Some l ->
  v_run esize page usable trivial moved dflt os (h0, v_empty) = Ok (h, v) ->
  exists h' v', v_reserve esize page usable moved h v n = Ok (h', v') /\ holds h' v' l /\
    n <= room v' /\ room v <= room v' /\
    forall x, len v' < room v' -> exists h2 v2,
      v_push_back esize page usable moved h' v' x = Ok (h2, v2) /\ first v2 = first v' /\ room v2 = room v'.
Proof. exact (reserve_spec esize page usable trivial moved dflt). Qed.
(** Construction from a range, for a trivial type. *)
Theorem C200_range_partial {T} esize page usable (moved : T -> T) :
  malloc_ok esize page usable -> moves_ok true moved ->
  forall (h : memory T) vs, exists h' v, v_range esize page usable true h vs = Ok (h', v) /\
    holds h' v vs /\ only_new h h' (fun a => first v = Some a) /\
    exists h2, v_destroy h' v = Ok h2 /\ only_new h h2 (fun _ => False).
Proof. exact (fun M _ h vs => range_spec esize page usable true M h vs eq_refl). Qed.
(** For other types it assigns to memory without objects; so does resize to a larger size. *)
Theorem C200_range_refuted {T} esize page usable (h : memory T) vs :
  malloc_ok esize page usable -> vs <> [] -> v_range esize page usable false h vs = UB.
Proof. exact (fun M => range_raw esize page usable false M h vs eq_refl). Qed.
Theorem C200_resize_refuted {T} esize page usable (moved : T -> T) dflt :
  malloc_ok esize page usable -> forall h0 h os v l n, list_run false dflt os [] = Some l ->
  v_run esize page usable false moved dflt os (h0, v_empty) = Ok (h, v) -> length l < n ->
  v_resize esize page usable false moved dflt h v n = UB.
Proof.
  exact (fun M h0 h os v l n => resize_raw esize page usable false moved dflt M
    (fun E => match Bool.diff_false_true E with end) h0 h os v l n eq_refl).
Qed.
(** push_back of a reference to an own element: right while there is room, otherwise the
    reference is to a block that is gone. *)
Theorem C200_push_self_partial {T} esize page usable trivial (moved : T -> T) dflt :
  malloc_ok esize page usable -> moves_ok trivial moved ->
  forall h0 h os v l i x, list_run trivial dflt os [] = Some l ->
  v_run esize page usable trivial moved dflt os (h0, v_empty) = Ok (h, v) -> nth_error l i = Some x -> len v < room v ->
  exists h' v', v_push_self esize page usable moved h v i = Ok (h', v') /\ holds h' v' (l ++ [x]).
Proof. exact (push_self_room esize page usable trivial moved dflt). Qed.
Theorem C200_push_self_refuted {T} esize page usable trivial (moved : T -> T) dflt :
  malloc_ok esize page usable -> moves_ok trivial moved ->
  forall h0 h os v l i, list_run trivial dflt os [] = Some l ->
  v_run esize page usable trivial moved dflt os (h0, v_empty) = Ok (h, v) -> i < length l -> len v = room v ->
  v_push_self esize page usable moved h v i = UB.
Proof. exact (push_self_full esize page usable trivial moved dflt). Qed.
Theorem C200_back :
  forall (T : Type) (h : memory T) v l x, holds h v (l ++ [x]) -> v_back h v = Ok x.
Proof. exact c200_back_l. Qed.
Print Assumptions C200_back.
Print Assumptions C200_history.
Print Assumptions C200_reserve.
Print Assumptions C200_range_partial.
Print Assumptions C200_range_refuted.
Print Assumptions C200_resize_refuted.
Print Assumptions C200_push_self_partial.
Print Assumptions C200_push_self_refuted.
Definition sample : list (vop nat) :=
  [PushBack 1; PushBack 2; PushBack 3; Write 0 7; PopBack; Resize 6; Insert 1 [8]; Reserve 40; Insert 7 [9; 9]; Resize 4].
Example C200_nonvacuous : malloc_ok 2 4 (fun n => n + 1) /\ list_run true 0 sample [] = Some [7; 8; 2; 0].
Proof. split; [unfold malloc_ok; repeat split; auto with arith|vm_compute; reflexivity]. Qed.
Example C200_full : exists h v, v_run 2 4 (fun n => n) true (fun x => x) 0 (map PushBack [1; 2; 3; 4]) ([], v_empty) = Ok (h, v) /\
  len v = room v /\ v_push_self 2 4 (fun n => n) (fun x => x) h v 0 = UB.
Proof. do 2 eexists. split; [vm_compute; reflexivity|]. split; vm_compute; reflexivity. Qed.

(** C201: copies and moves.  A copy has the same elements in other memory; its
    destruction leaves the original as it was. *)
Theorem C201_copy_partial {T} esize page usable trivial (moved : T -> T) dflt :
  malloc_ok esize page usable -> moves_ok trivial moved ->
  forall h0 h os v l, list_run trivial dflt os [] = Some l ->
  v_run esize page usable trivial moved dflt os (h0, v_empty) = Ok (h, v) ->
  exists h' w, v_copy esize page usable h v = Ok (h', w) /\ holds h' w l /\ holds h' v l /\
    only_new h h' (fun a => first w = Some a) /\
    exists h2, v_destroy h' w = Ok h2 /\ holds h2 v l /\ only_new h h2 (fun _ => False).
Proof. exact (copy_spec esize page usable trivial moved dflt). Qed.
(** It can be used like any other when malloc happened to give the capacity of the original. *)
Theorem C201_copy_use_partial {T} esize page usable trivial (moved : T -> T) dflt :
  malloc_ok esize page usable -> moves_ok trivial moved ->
  forall h0 h os v l os2 l2, list_run trivial dflt os [] = Some l ->
  v_run esize page usable trivial moved dflt os (h0, v_empty) = Ok (h, v) ->
  esize * room v <= usable (round_to_page_size page (esize * length l)) -> list_run trivial dflt os2 l = Some l2 ->
  exists h' w h2 w2, v_copy esize page usable h v = Ok (h', w) /\
    v_run esize page usable trivial moved dflt os2 (h', w) = Ok (h2, w2) /\ holds h2 w2 l2 /\ holds h2 v l.
Proof. exact (copy_run esize page usable trivial moved dflt). Qed.
(** Otherwise it says that it has a capacity it does not have, and elements are created
    outside of its block: for any size of element and page, already for one element. *)
Theorem C201_copy_use_refuted {T} esize page trivial (moved : T -> T) dflt (h0 : memory T) x :
  moves_ok trivial moved -> 2 <= esize < page ->
  exists h v h' w, v_push_back esize page (fun n => n) moved h0 v_empty x = Ok (h, v) /\
    v_copy esize page (fun n => n) h v = Ok (h', w) /\ len w + page / esize <= room w /\
    v_run esize page (fun n => n) trivial moved dflt (repeat (PushBack x) (page / esize)) (h', w) = UB.
Proof. exact (copy_overflow_real esize page trivial moved dflt h0 x). Qed.
(** Moving: the new Vector is the old one, which is empty and can be used again. *)
Theorem C201_move {T} esize page usable trivial (moved : T -> T) dflt :
  malloc_ok esize page usable -> moves_ok trivial moved ->
  forall h0 h os v l, list_run trivial dflt os [] = Some l ->
  v_run esize page usable trivial moved dflt os (h0, v_empty) = Ok (h, v) ->
  let (w, v') := v_move v in
  holds h w l /\ room w = room v /\ holds h v' [] /\ v_destroy h v' = Ok h /\
  (exists h', v_destroy h w = Ok h' /\ only_new h0 h' (fun _ => False)) /\
  forall os2 l2, list_run trivial dflt os2 [] = Some l2 ->
  exists h2 v2, v_run esize page usable trivial moved dflt os2 (h, v') = Ok (h2, v2) /\ holds h2 v2 l2 /\ holds h2 w l.
Proof. exact (move_spec esize page usable trivial moved dflt). Qed.
(** Assignment gives the right elements, but the block that the target had is never freed. *)
Theorem C201_copy_assign_refuted {T} esize page usable trivial (moved : T -> T) dflt :
  malloc_ok esize page usable -> moves_ok trivial moved ->
  forall h0 h1 h2 os1 os2 v w l m,
  list_run trivial dflt os1 [] = Some l -> v_run esize page usable trivial moved dflt os1 (h0, v_empty) = Ok (h1, v) ->
  list_run trivial dflt os2 [] = Some m -> v_run esize page usable trivial moved dflt os2 (h1, v_empty) = Ok (h2, w) ->
  exists h3 v3, v_copy_assign esize page usable h2 v w = Ok (h3, v3) /\ holds h3 v3 m /\ holds h3 w m /\ room v3 = room w /\
    forall a, first v = Some a -> exists h4 h5, v_destroy h3 v3 = Ok h4 /\ v_destroy h4 w = Ok h5 /\ live h5 a.
Proof. exact (copy_assign_spec esize page usable trivial moved dflt). Qed.
Theorem C201_move_assign_refuted {T} esize page usable trivial (moved : T -> T) dflt :
  malloc_ok esize page usable -> moves_ok trivial moved ->
  forall h0 h1 h2 os1 os2 v w l m,
  list_run trivial dflt os1 [] = Some l -> v_run esize page usable trivial moved dflt os1 (h0, v_empty) = Ok (h1, v) ->
  list_run trivial dflt os2 [] = Some m -> v_run esize page usable trivial moved dflt os2 (h1, v_empty) = Ok (h2, w) ->
  exists h3 v3 w3, v_move_assign h2 v w = Ok (h3, v3, w3) /\ holds h3 v3 m /\ room v3 = room w /\ holds h3 w3 [] /\
    forall a, first v = Some a -> exists h4, v_destroy h3 v3 = Ok h4 /\ v_destroy h4 w3 = Ok h4 /\ live h4 a.
Proof. exact (move_assign_spec esize page usable trivial moved dflt). Qed.
Print Assumptions C201_copy_partial.
Print Assumptions C201_copy_use_partial.
Print Assumptions C201_copy_use_refuted.
Print Assumptions C201_move.
Print Assumptions C201_copy_assign_refuted.
Print Assumptions C201_move_assign_refuted.
Example C201_nonvacuous : exists h1 v h2 w h3 v3,
  v_run 2 4 (fun n => n) true (fun x => x) 0 [PushBack 1; PushBack 2] ([], v_empty) = Ok (h1, v) /\ first v = Some 0 /\
  v_run 2 4 (fun n => n) true (fun x => x) 0 [PushBack 5] (h1, v_empty) = Ok (h2, w) /\
  v_copy_assign 2 4 (fun n => n) h2 v w = Ok (h3, v3) /\ v_get h3 v3 0 = Ok 5 /\ first v3 = Some 2.
Proof. do 6 eexists. repeat (split; [vm_compute; reflexivity|]). vm_compute; reflexivity. Qed.

(** C202 insert: right for a trivial type at the end, or when the position is between
    one and two times the number of the new elements. *)
Theorem C202_insert_partial {T} esize page usable (moved : T -> T) dflt :
  malloc_ok esize page usable -> moves_ok true moved ->
  forall h0 os l i vs, list_run true dflt os [] = Some l -> i <= length l ->
  vs = [] \/ i = length l \/ length vs <= i <= 2 * length vs ->
  exists h v, v_run esize page usable true moved dflt (os ++ [Insert i vs]) (h0, v_empty) = Ok (h, v) /\
    holds h v (firstn i l ++ vs ++ skipn i l).
Proof. exact (insert_partial esize page usable moved dflt). Qed.
(** Everywhere else elements are lost, repeated or missing, whenever no two elements of the
    Vector are equal. *)
Theorem C202_insert_refuted {T} esize page usable (moved : T -> T) dflt :
  malloc_ok esize page usable -> moves_ok true moved ->
  forall h0 h os v l i vs, list_run true dflt os [] = Some l ->
  v_run esize page usable true moved dflt os (h0, v_empty) = Ok (h, v) ->
  NoDup l -> vs <> [] -> i < length l -> ~ (length vs <= i <= 2 * length vs) ->
  exists h' v', v_insert esize page usable true moved h v i vs = Ok (h', v') /\ len v' = length vs + length l /\
    ~ holds h' v' (firstn i l ++ vs ++ skipn i l).
Proof. exact (fun M W h0 h os v l i vs => insert_wrong esize page usable true moved dflt M W h0 h os v l i vs eq_refl). Qed.
(** For a type that is not trivial, insertion at the end assigns to memory without objects. *)
Theorem C202_insert_raw_refuted {T} esize page usable (moved : T -> T) dflt :
  malloc_ok esize page usable -> forall h0 h os v l vs, list_run false dflt os [] = Some l ->
  v_run esize page usable false moved dflt os (h0, v_empty) = Ok (h, v) -> vs <> [] ->
  v_insert esize page usable false moved h v (length l) vs = UB.
Proof.
  exact (fun M h0 h os v l vs => insert_raw esize page usable false moved dflt M
    (fun E => match Bool.diff_false_true E with end) h0 h os v l vs eq_refl).
Qed.
Print Assumptions C202_insert_partial.
Print Assumptions C202_insert_refuted.
Print Assumptions C202_insert_raw_refuted.
(** [1; 2; 3] with 9 at the front becomes [9; 2; 2; 3]. *)
Example C202_front : exists h v h' v',
  v_run 2 4 (fun n => n) true (fun x => x) 0 (map PushBack [1; 2; 3]) ([], v_empty) = Ok (h, v) /\
  v_insert 2 4 (fun n => n) true (fun x => x) h v 0 [9] = Ok (h', v') /\
  map (v_get h' v') [0; 1; 2; 3] = [Ok 9; Ok 2; Ok 2; Ok 3].
Proof. do 4 eexists. split; [vm_compute; reflexivity|]. split; vm_compute; reflexivity. Qed.

(** C203: == is equality of the elements; != is not its negation: it is false for all
    Vectors of the same size, and for others compares elements up to the size of the left. *)
Theorem C203_equal {T} esize page usable trivial (moved : T -> T) dflt :
  malloc_ok esize page usable -> moves_ok trivial moved ->
  forall eqb h0 h1 h2 os1 os2 v w l m, (forall x y, eqb x y = true <-> x = y) ->
  list_run trivial dflt os1 [] = Some l -> v_run esize page usable trivial moved dflt os1 (h0, v_empty) = Ok (h1, v) ->
  list_run trivial dflt os2 [] = Some m -> v_run esize page usable trivial moved dflt os2 (h1, v_empty) = Ok (h2, w) ->
  exists b, v_eq eqb h2 v w = Ok b /\ (b = true <-> l = m).
Proof. exact (eq_spec esize page usable trivial moved dflt). Qed.
Theorem C203_unequal_refuted {T} esize page usable trivial (moved : T -> T) dflt :
  malloc_ok esize page usable -> moves_ok trivial moved ->
  forall h0 h1 h2 eqb os1 os2 v w l m,
  list_run trivial dflt os1 [] = Some l -> v_run esize page usable trivial moved dflt os1 (h0, v_empty) = Ok (h1, v) ->
  list_run trivial dflt os2 [] = Some m -> v_run esize page usable trivial moved dflt os2 (h1, v_empty) = Ok (h2, w) ->
  length l = length m -> v_ne eqb h2 v w = Ok false.
Proof. exact (ne_same esize page usable trivial moved dflt). Qed.
Theorem C203_unequal_sizes_refuted {T} esize page usable trivial (moved : T -> T) dflt :
  malloc_ok esize page usable -> moves_ok trivial moved ->
  forall h0 h1 h2 eqb os1 os2 v w l m,
  list_run trivial dflt os1 [] = Some l -> v_run esize page usable trivial moved dflt os1 (h0, v_empty) = Ok (h1, v) ->
  list_run trivial dflt os2 [] = Some m -> v_run esize page usable trivial moved dflt os2 (h1, v_empty) = Ok (h2, w) ->
  length l <> length m ->
  (apart eqb l m -> length l < length m -> v_ne eqb h2 v w = Ok true) /\
  (apart eqb l m -> length m < length l -> v_ne eqb h2 v w = UB) /\
  (~ apart eqb l m -> v_ne eqb h2 v w = Ok false).
Proof. exact (ne_other esize page usable trivial moved dflt). Qed.
Print Assumptions C203_equal.
Print Assumptions C203_unequal_refuted.
Print Assumptions C203_unequal_sizes_refuted.
Example C203_nonvacuous : exists h1 v h2 w,
  v_run 2 4 (fun n => n) true (fun x => x) 0 [PushBack 1; PushBack 2] ([], v_empty) = Ok (h1, v) /\
  v_run 2 4 (fun n => n) true (fun x => x) 0 [PushBack 2] (h1, v_empty) = Ok (h2, w) /\
  v_ne Nat.eqb h2 v w = UB /\ v_eq Nat.eqb h2 v w = Ok false /\ v_eq Nat.eqb h2 v v = Ok true.
Proof. do 4 eexists. repeat (split; [vm_compute; reflexivity|]). vm_compute; reflexivity. Qed.
