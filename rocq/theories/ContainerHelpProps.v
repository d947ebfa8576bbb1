(** ContainerHelp: theorems. *)
From Verif Require Import Common ContainerHelp SpecContainerHelp ContainerHelpProofs.

(** * C324 extract_from_container and insert_into_container *)

(** Extracting gives the buffer, size and capacity to the container_data, leaves an empty vector without capacity, and copies, allocates and frees nothing. *)
Theorem C324_extract :
  forall tr ho s i v, get_obj s i = Some v -> o_kind v = IsVec -> exists s2,
  hstep tr ho s (HExtract i) = Ok s2 /\ h_blocks s2 = h_blocks s /\
  get_obj s2 i = Some (mk_owner IsVec None 0 0) /\
  get_obj s2 (length (h_objs s)) = Some (mk_owner IsData (o_buf v) (o_size v) (o_cap v)).
Proof. exact c324_extract. Qed.

(** Any history of making, extracting, inserting, resetting and destroying is defined, the objects have the elements and capacities expected, and every block that is still allocated belongs to exactly one of them.  [careful]: the elements are trivially destructible, or shrink_to_fit frees and all buffers are full; pointers of a container_data are not inserted. *)
Theorem C324_history_partial :
  forall tr ho ops, careful tr ho ops ->
  exists s, hrun tr ho hst0 ops = Ok s /\ shows s (spec_run [] ops) /\ all_owned s.
Proof. exact c324_history_partial. Qed.

(** When all the objects are destroyed, all blocks have been freed (under the same conditions). *)
Theorem C324_all_freed_partial :
  forall tr ho ops, careful tr ho ops -> (forall o, In o (spec_run [] ops) -> o = None) ->
  exists s, hrun tr ho hst0 ops = Ok s /\ Forall (fun b : block => fst b = false) (h_blocks s).
Proof. exact c324_all_freed_partial. Qed.

(** The deleter destroys as many objects as the buffer has room for: with a vector that has spare capacity, of a type with a destructor, objects that do not exist are destroyed. *)
Theorem C324_spare_capacity_refuted :
  forall ho vs cap, length vs < cap -> hrun false ho hst0 [HNew vs cap; HExtract 0; HDestroy 1] = UB.
Proof. exact c324_spare_capacity_refuted. Qed.

(** Inserting into a vector with any capacity runs the same deleter when shrink_to_fit does not free: then objects that were just cleared are destroyed again. *)
Theorem C324_insert_refuted :
  forall vs cap ws n, length vs <= cap -> 0 < cap -> length ws <= n -> 0 < n ->
  hrun false false hst0 [HNew vs cap; HGive 0 ws n] = UB.
Proof. exact c324_insert_refuted. Qed.

(** A container_data cannot release its buffer: inserting what was extracted makes two owners, and the buffer is freed twice. *)
Theorem C324_shared_refuted :
  forall tr ho vs cap, length vs <= cap -> 0 < cap ->
  hrun tr ho hst0 [HNew vs cap; HExtract 0; HGiveData 0 1; HDestroy 0; HDestroy 1] = UB.
Proof. exact c324_shared_refuted. Qed.

Example C324_nonvacuous :
  careful false true [HNew [1; 2]%Z 2; HExtract 0; HGive 0 [7]%Z 1; HReset 1; HDestroy 0; HDestroy 1] /\
  spec_run [] [HNew [1; 2]%Z 2; HExtract 0; HGive 0 [7]%Z 1; HReset 1; HDestroy 0; HDestroy 1] = [None; None] /\
  hrun false true hst0 [HNew [1; 2]%Z 2; HExtract 0; HGive 0 [7]%Z 1] =
  Ok (mk_hst [(true, [Some 1; Some 2]%Z); (true, [Some 7]%Z)] [Some (mk_owner IsVec (Some 1) 1 1); Some (mk_owner IsData (Some 0) 2 2)]) /\
  careful true false [HNew [1]%Z 4; HExtract 0; HDestroy 1] /\
  hrun true false hst0 [HNew [1]%Z 4; HExtract 0; HDestroy 1] =
  Ok (mk_hst [(false, [Some 1; None; None; None]%Z)] [Some (mk_owner IsVec None 0 0); None]).
Proof. repeat split; try reflexivity; try (right; split; [reflexivity|]); try (left; reflexivity); repeat constructor. Qed.
Print Assumptions C324_extract.
Print Assumptions C324_history_partial.
Print Assumptions C324_all_freed_partial.
Print Assumptions C324_spare_capacity_refuted.
Print Assumptions C324_insert_refuted.
Print Assumptions C324_shared_refuted.

(** * C325 inserter_iterator *)

(** Whatever is done with an inserter_iterator, the container gets one insert for each assignment, in order. *)
Theorem C325_insert :
  forall (C T : Type) (insert : C -> T -> C) ops c,
  irun insert c ops = fold_left insert (assigned ops) c.
Proof. exact c325_insert. Qed.

(** Copying a range to it inserts the elements of the range. *)
Theorem C325_copy :
  forall (C T : Type) (insert : C -> T -> C) l c, irun insert c (copy_ops l) = fold_left insert l c.
Proof. exact c325_copy. Qed.

(** Into a set: the union. *)
Theorem C325_set :
  forall l c, increasing c ->
  increasing (irun set_insert c (copy_ops l)) /\ forall x, In x (irun set_insert c (copy_ops l)) <-> In x c \/ In x l.
Proof. exact c325_set. Qed.

Example C325_nonvacuous : irun set_insert [2; 5]%Z (copy_ops [3; 5; 1]%Z) = [1; 2; 3; 5]%Z /\
  irun set_insert [] [IDeref; IAssign 4; IPreInc; IPostInc; IAssign 2]%Z = [2; 4]%Z.
Proof. split; reflexivity. Qed.
Print Assumptions C325_insert.
Print Assumptions C325_copy.
Print Assumptions C325_set.

(** * C326 compressed_pair *)

(** A compressed_pair behaves as a pair: writing one member leaves the other, and swap exchanges both, also with itself. *)
Theorem C326_values :
  forall (A B : Type) (s : list (A * B)) o,
  pstep s o = match pair_spec s o with Some s2 => Ok s2 | None => UB end.
Proof. exact c326_values. Qed.

(** Swapping twice restores both pairs. *)
Theorem C326_swap_twice :
  forall (A B : Type) (s s2 : list (A * B)) i j, pstep s (PSwap i j) = Ok s2 -> pstep s2 (PSwap i j) = Ok s.
Proof. exact c326_swap_twice. Qed.

Example C326_nonvacuous : prun [] [PNew 1 true; PNew 2 false; PSwap 0 1; PFirst 0 9; PSwap 1 1] = Ok [(9, false); (1, true)].
Proof. reflexivity. Qed.
Print Assumptions C326_values.
Print Assumptions C326_swap_twice.
