(** MoreTools: theorems. *)
From Verif Require Import Common Ints MoreTools SpecMoreTools MoreToolsProofs.
Open Scope Z_scope.

(** * C320 brace_splitter_t *)

(** For every character other than braces and backslashes the function ends without returning: a group with any text in it is undefined. *)
Theorem C320_group_refuted :
  (forall b c, c <> 123 -> c <> 125 -> c <> 92 -> brace_call b c = UB) /\
  forall text inner, group_text text -> text = 123 :: inner ++ [125] -> inner <> [] -> brace_run brace0 text = UB.
Proof. exact c320_group_refuted. Qed.

(** Backslashes never start an escape, after any text: an escaped opening brace opens a group, an escaped closing one is refused. *)
Theorem C320_escape_refuted :
  (forall text rs b, brace_run brace0 text = Ok (rs, b) -> b_escape b = false) /\
  (exists b, brace_run brace0 [92; 123] = Ok ([true; true], b) /\ b_in b = true) /\ brace_run brace0 [92; 125] = Throw.
Proof. exact c320_escape_refuted. Qed.

(** For the groups that are left, those of backslashes, the end is found at the closing brace, and size is their number. *)
Theorem C320_group_partial :
  forall k, Z.of_nat k < 2 ^ 64 -> brace_run brace0 (123 :: repeat 92 k ++ [125]) = Ok (true :: repeat true k ++ [false], mk_brace (Z.of_nat k) false false).
Proof. exact c320_group_partial. Qed.

(** A brace within a group, and a closing brace outside of one, are refused, after any text. *)
Theorem C320_misplaced :
  forall text rs b, brace_run brace0 text = Ok (rs, b) ->
  (b_in b = true -> brace_run b [123] = Throw) /\ (b_in b = false -> brace_run b [125] = Throw).
Proof. exact c320_misplaced. Qed.

Example C320_nonvacuous : group_text [123; 48; 125] /\ brace_run brace0 [123; 48; 125] = UB /\ brace_run brace0 [123; 92; 92; 125] = Ok ([true; true; true; false], mk_brace 2 false false).
Proof. split; [apply (group_intro [48]); repeat constructor; lia|split; reflexivity]. Qed.
Print Assumptions C320_group_refuted.
Print Assumptions C320_escape_refuted.
Print Assumptions C320_group_partial.
Print Assumptions C320_misplaced.

(** * C321 tracked_allocator *)

(** Every use of a pointer that was given to deallocate stops the program. *)
Theorem C321_after_deallocation :
  forall s i o, deallocated s i -> through o i -> tstep s o = Throw.
Proof. exact c321_after_deallocation. Qed.

(** As long as the client copies no pointer, each was deallocated, or stands in a block that is still allocated. *)
Theorem C321_no_copies :
  forall ops vs s i, Forall no_copy ops -> trun theap0 ops = Ok (vs, s) -> (i < length (t_ptrs s))%nat ->
  deallocated s i \/ exists k l, stands s i k l /\ 0 <= k <= Z.of_nat (length l).
Proof. exact c321_no_copies. Qed.

(** Moving stays in the block or stops the program; elements can be constructed, read and destroyed; only a pointer to the start can be deallocated. *)
Theorem C321_operations :
  forall s i k l, stands s i k l -> 0 <= k <= Z.of_nat (length l) ->
  (k < Z.of_nat (length l) -> exists s', tstep s (TInc i) = Ok (None, s') /\ stands s' i (k + 1) l) /\
  (k = Z.of_nat (length l) -> tstep s (TInc i) = Throw) /\
  (0 < k -> exists s', tstep s (TDec i) = Ok (None, s') /\ stands s' i (k - 1) l) /\
  (k = 0 -> tstep s (TDec i) = Throw) /\
  (forall v, nth_error l (Z.to_nat k) = Some (Some v) -> tstep s (TRead i) = Ok (Some v, s)) /\
  (forall v, k < Z.of_nat (length l) -> exists s', tstep s (TConstruct i v) = Ok (None, s') /\ stands s' i k (upd l (Z.to_nat k) (Some v))) /\
  (forall v, nth_error l (Z.to_nat k) = Some (Some v) -> exists s', tstep s (TDestroy i) = Ok (None, s') /\ stands s' i k (upd l (Z.to_nat k) None)) /\
  (forall n, k <> 0 -> tstep s (TDealloc i n) = Throw) /\
  (k = 0 -> exists s', tstep s (TDealloc i (length l)) = Ok (None, s') /\ deallocated s' i).
Proof. exact c321_operations. Qed.

(** allocate returns a pointer to the start of a new block. *)
Theorem C321_allocate :
  forall s n, exists s', tstep s (TAlloc n) = Ok (None, s') /\ stands s' (length (t_ptrs s)) 0 (repeat None n).
Proof. exact c321_allocate. Qed.

(** Not detected are: constructing at the end of a block, using or deallocating a copy of a pointer after deallocation (copies do not learn of it), and a wrong size. *)
Theorem C321_undetected_refuted :
  (forall s i l v, stands s i (Z.of_nat (length l)) l -> tstep s (TConstruct i v) = UB) /\
  (forall n, trun theap0 [TAlloc n; TCopy 0; TDealloc 0 n; TDealloc 1 n] = UB /\ trun theap0 [TAlloc n; TCopy 0; TDealloc 0 n; TRead 1] = UB) /\
  forall n m, n <> m -> trun theap0 [TAlloc n; TDealloc 0 m] = UB.
Proof. exact c321_undetected_refuted. Qed.

Example C321_nonvacuous : trun theap0 [TAlloc 2; TConstruct 0 5; TInc 0; TConstruct 0 6; TRead 0; TDestroy 0; TDec 0; TRead 0; TDealloc 0 2] =
  Ok ([None; None; None; None; Some 6; None; None; Some 5; None], mk_theap [(false, [Some 5; None])] [TPtr 0 0 true]) /\
  trun theap0 [TAlloc 2; TDealloc 0 2; TDealloc 0 2] = Throw /\ Forall no_copy [TAlloc 2; TDealloc 0 2].
Proof. split; [reflexivity|]. split; [reflexivity|]. repeat constructor; intros i; discriminate. Qed.
Print Assumptions C321_after_deallocation.
Print Assumptions C321_no_copies.
Print Assumptions C321_operations.
Print Assumptions C321_allocate.
Print Assumptions C321_undetected_refuted.

(** * C322 uninitialized_storage *)

(** Reading returns the object; there must be one for reading, writing and destroying; constructing over an object loses it without destroying it. *)
Theorem C322_objects :
  forall trivial s i v,
  (holds s i v -> ustep trivial s (URead i) = Ok (Some v, s)) /\
  (vacant s i -> ustep trivial s (URead i) = UB /\ ustep trivial s (UDestruct i) = UB) /\
  (forall u, holds s i u -> exists s', ustep trivial s (UWrite i v) = Ok (None, s') /\ holds s' i v) /\
  (forall u, holds s i u -> exists s', ustep trivial s (UDestruct i) = Ok (None, s') /\ vacant s' i) /\
  (holds s i v \/ vacant s i -> forall w, exists s', ustep trivial s (UConstruct i w) = Ok (None, s') /\ holds s' i w /\
     (vacant s i -> u_lost s' = u_lost s) /\ (holds s i v -> u_lost s' = S (u_lost s))).
Proof. exact c322_objects. Qed.

(** Each operation changes only the storage it is applied to. *)
Theorem C322_frame :
  forall trivial s o r s' j, ustep trivial s o = Ok (r, s') -> (j < length (u_slots s))%nat ->
  (forall v, o <> UConstruct j v) -> (forall v, o <> UWrite j v) -> o <> UDestruct j -> nth_error (u_slots s') j = nth_error (u_slots s) j.
Proof. exact c322_frame. Qed.

(** In every history, the objects constructed are those destroyed, those that live, and those that were lost: the storage itself destroys nothing. *)
Theorem C322_balance :
  forall ops vs s, urun false (mk_ust [] 0) ops = Ok (vs, s) ->
  count is_construct ops = (count is_destruct ops + count alive_slot (u_slots s) + u_lost s)%nat.
Proof. exact c322_balance. Qed.

(** Copies of the storage of trivially copyable types hold a copy of the object. *)
Theorem C322_copy :
  forall s i v, holds s i v -> exists s', ustep true s (UCopy i) = Ok (None, s') /\ holds s' (length (u_slots s)) v /\ holds s' i v.
Proof. exact c322_copy. Qed.

(** For all other copyable types the storage can be copied too, but only the bytes are: there is no object in the copy, and reading or destroying it is undefined. *)
Theorem C322_copy_refuted :
  forall s i v, holds s i v -> exists s', ustep false s (UCopy i) = Ok (None, s') /\
  ustep false s' (URead (length (u_slots s))) = UB /\ ustep false s' (UDestruct (length (u_slots s))) = UB.
Proof. exact c322_copy_refuted. Qed.

Example C322_nonvacuous : urun false (mk_ust [] 0) [UNew; UConstruct 0 5; URead 0; UWrite 0 6; UConstruct 0 7; URead 0; UDestruct 0] =
  Ok ([None; None; Some 5; None; None; Some 7; None], mk_ust [None] 1) /\
  urun true (mk_ust [] 0) [UNew; UConstruct 0 5; UCopy 0; UDestruct 0; URead 1] = Ok ([None; None; None; None; Some 5], mk_ust [None; Some 5] 0).
Proof. split; reflexivity. Qed.
Print Assumptions C322_objects.
Print Assumptions C322_frame.
Print Assumptions C322_balance.
Print Assumptions C322_copy.
Print Assumptions C322_copy_refuted.

(** * C323 limits of 128 bit integers *)

(** The limits of int128_t are those of its 128 bits, and digits10 is the largest number of decimal digits that every number can have. *)
Theorem C323_int128 :
  int128_min = - 2 ^ 127 /\ int128_lowest = - 2 ^ 127 /\ int128_max = 2 ^ 127 - 1 /\ int128_digits = 127 /\
  (forall v, Z.abs v < 10 ^ int128_digits10 -> int128_min <= v <= int128_max) /\
  exists v, Z.abs v < 10 ^ (int128_digits10 + 1) /\ ~ (int128_min <= v <= int128_max).
Proof. exact c323_int128. Qed.

(** The same for uint128_t. *)
Theorem C323_uint128 :
  uint128_min = 0 /\ uint128_max = 2 ^ 128 - 1 /\ uint128_digits = 128 /\
  (forall v, 0 <= v < 10 ^ uint128_digits10 -> uint128_min <= v <= uint128_max) /\
  exists v, 0 <= v < 10 ^ (uint128_digits10 + 1) /\ ~ (uint128_min <= v <= uint128_max).
Proof. exact c323_uint128. Qed.

Example C323_nonvacuous : int128_digits10 = 38 /\ uint128_digits10 = 38 /\ as_int128 (2 ^ 127) = - 2 ^ 127.
Proof. split; [reflexivity|split; reflexivity]. Qed.
Print Assumptions C323_int128.
Print Assumptions C323_uint128.
