(** C46-C48: the fixed-capacity sequence containers. *)
From Verif Require Import Common Ints SeqContainers SpecSeq SeqProofs.
Open Scope Z_scope.

(** C46, for histories of push_back, pop_front and clear, in both build modes:
    the values popped are those of a bounded FIFO, and the final ring shows the
    final queue.  Any capacity below 2^64 when it divides 2^64, otherwise up to
    2^64 operations (see [C46_counter_wrap_refuted]).  emplace_back is excluded
    (see [C46_emplace_back_refuted]). *)
Theorem C46_fifo_partial : forall (A : Type) (dbg : bool) (c : list A) os xs q,
  Z.of_nat (length c) < 2 ^ 64 ->
  (Z.of_nat (length c) | 2 ^ 64) \/ Z.of_nat (length os) <= 2 ^ 64 ->
  (forall v, ~ In (REmplace v) os) ->
  queue_run (length c) [] os = Some (xs, q) ->
  exists r, ring_run dbg (r_make c) os = Ok (xs, r) /\
    r_size r = Z.of_nat (length q) /\
    r_capacity r = Z.of_nat (length c) /\
    r_is_empty r = (length q =? 0)%nat /\
    r_is_full r = (length q =? length c)%nat /\
    r_contents dbg r = Ok q /\
    (forall i x, nth_error q i = Some x -> r_at dbg r (Z.of_nat i) = Ok x).
Proof. exact (fun A => @ring_history A). Qed.
Print Assumptions C46_fifo_partial.

Example C46_fifo_nontrivial :
  queue_run 3 [] [RPush 1; RPush 2; RPush 3; RPop; RPush 4; RPop; RPop; RPush 5] =
    Some ([1; 2; 3], [4; 5]) /\
  (let r := ring_run true (r_make [0; 0; 0])
              [RPush 1; RPush 2; RPush 3; RPop; RPush 4; RPop; RPop; RPush 5] in
   ' (xs, r) <- r ;; q <- r_contents true r ;; Ok (xs, q, rq r)) =
    Ok ([1; 2; 3], [4; 5], [4; 5; 3]).
Proof. split; (vm_compute; reflexivity). Qed.

(** C46: in debug builds using a full or empty ring wrongly, or reading past its
    end, is reported. *)
Theorem C46_debug_reports : forall (A : Type) (c : list A) os xs q v i,
  Z.of_nat (length c) < 2 ^ 64 ->
  (Z.of_nat (length c) | 2 ^ 64) \/ Z.of_nat (length os) <= 2 ^ 64 ->
  (forall v, ~ In (REmplace v) os) ->
  queue_run (length c) [] os = Some (xs, q) ->
  exists r, ring_run true (r_make c) os = Ok (xs, r) /\
    (length q = length c -> r_push_back true r v = Throw) /\
    (q = [] -> r_pop_front true r = Throw) /\
    (Z.of_nat (length q) <= i -> r_at true r i = Throw).
Proof. exact (fun A => @ring_debug A). Qed.
Print Assumptions C46_debug_reports.

(** C46 fails for emplace_back: on every ring with room it shrinks the size by
    one (modulo 2^64) instead of growing it. *)
Theorem C46_emplace_back_refuted : forall (A : Type) (dbg : bool) (c : list A) os xs q v,
  Z.of_nat (length c) < 2 ^ 64 ->
  (Z.of_nat (length c) | 2 ^ 64) \/ Z.of_nat (length os) < 2 ^ 64 ->
  (forall v, ~ In (REmplace v) os) ->
  queue_run (length c) [] os = Some (xs, q) ->
  (length q < length c)%nat ->
  exists r r', ring_run dbg (r_make c) os = Ok (xs, r) /\
    r_emplace_back dbg r v = Ok r' /\
    r_size r' = (Z.of_nat (length q) - 1) mod 2 ^ 64.
Proof. exact (fun A => @emplace_wrong A). Qed.
Print Assumptions C46_emplace_back_refuted.

(** The first emplace_back makes an empty ring claim 2^64 - 1 elements. *)
Example C46_emplace_back_witness :
  (r <- r_emplace_back true (r_make [0; 0; 0]) 7 ;; Ok (r_size r, rq r)) = Ok (2 ^ 64 - 1, [7; 0; 0]).
Proof. vm_compute; reflexivity. Qed.

(** C46 fails after 2^64 - 1 insertions when the capacity does not divide 2^64:
    there is a history, allowed for a queue of capacity 3, whose popped values
    are wrong in both build modes. *)
Theorem C46_counter_wrap_refuted : forall (A : Type) (dbg : bool) (c : list A) (a b : A),
  length c = 3%nat -> a <> b ->
  exists os xs ys q r,
    (forall v, ~ In (REmplace v) os) /\
    queue_run (length c) [] os = Some (xs, q) /\
    ring_run dbg (r_make c) os = Ok (ys, r) /\ xs <> ys.
Proof. exact (fun A => @ring_wrap A). Qed.
Print Assumptions C46_counter_wrap_refuted.

(** C47: a vector that starts empty and goes through any history of push_back,
    emplace_back, push_back( ptr, n ), assign, pop_back, resize, erase, clear
    and zero that a list of at most [N] elements allows, returns the same values
    and shows the same elements, in both build modes.  Excluded ([vec_supported]):
    pop_front, and erase( first, last ) up to the capacity or, in debug builds,
    of everything. *)
Theorem C47_histories_partial : forall (A : Type) (dflt : A) N dbg os xs l,
  Z.of_nat N < 2 ^ 63 ->
  list_run dflt N (vec_supported dbg N) [] os xs l ->
  exists v, vec_run dflt dbg (b_empty dflt N) os = Ok (xs, v) /\ vec_shows N v l.
Proof. exact (fun A => @vec_history A). Qed.
Print Assumptions C47_histories_partial.

Definition C47_ops : list (vec_op Z) :=
  [VPush 1; VEmplace 2 2; VPushRange [3; 4; 5]; VErase 1; VEraseRange 0 2; VResize 4;
   VPush 9; VPopBack].

Example C47_histories_nontrivial :
  list_run 0 6 (vec_supported true 6) [] C47_ops [9] [4; 5; 0; 0] /\
  (' (xs, v) <- vec_run 0 true (b_empty 0 6) C47_ops ;; l <- b_contents v ;; Ok (xs, l)) =
    Ok ([9], [4; 5; 0; 0]).
Proof.
  split; [|vm_compute; reflexivity].
  change [9] with ([] ++ [] ++ [] ++ [] ++ [] ++ [] ++ [] ++ [9] ++ @nil Z).
  unfold C47_ops.
  repeat (eapply run_cons; [cbn; auto; try (split; [lia | intros _; cbn; lia]) | vm_compute; reflexivity |]).
  apply run_nil.
Qed.

(** C47: the constructors, and push_back( ) without a value (the new element has
    an unspecified value), show the right list, too. *)
Theorem C47_constructors : forall (A : Type) (dflt : A) N (mem : list A) count,
  Z.of_nat N < 2 ^ 63 -> 0 <= count ->
  Z.min count (Z.of_nat N) <= Z.of_nat (length mem) ->
  (exists v, b_from_ptr dflt N mem count = Ok v /\
             vec_shows N v (firstn (Z.to_nat (Z.min count (Z.of_nat N))) mem)) /\
  ((length mem <= N)%nat -> exists v, b_from_range dflt N mem = Ok v /\ vec_shows N v mem).
Proof. exact (fun A => @constructors A). Qed.
Print Assumptions C47_constructors.

Example C47_constructors_nontrivial :
  (v <- b_from_ptr 0 3 [7; 8; 9; 10] 4 ;; b_contents v) = Ok [7; 8; 9] /\
  (v <- b_from_range 0 3 [7; 8] ;; b_contents v) = Ok [7; 8].
Proof. split; (vm_compute; reflexivity). Qed.

Theorem C47_push_new : forall (A : Type) (dflt : A) N dbg os xs l,
  Z.of_nat N < 2 ^ 63 ->
  list_run dflt N (vec_supported dbg N) [] os xs l -> (length l < N)%nat ->
  exists v x v', vec_run dflt dbg (b_empty dflt N) os = Ok (xs, v) /\
    b_push_new v = Ok (Z.of_nat (length l), v') /\ vec_shows N v' (l ++ [x]).
Proof. exact (fun A => @push_new A). Qed.
Print Assumptions C47_push_new.

(** C47, "exceeding the capacity is reported": resize reports it. *)
Theorem C47_resize_reports : forall (A : Type) (dflt : A) N dbg os xs l n,
  Z.of_nat N < 2 ^ 63 ->
  list_run dflt N (vec_supported dbg N) [] os xs l -> Z.of_nat N < n ->
  exists v, vec_run dflt dbg (b_empty dflt N) os = Ok (xs, v) /\ b_resize dflt v n = Throw.
Proof. exact (fun A => @resize_reports A). Qed.
Print Assumptions C47_resize_reports.

(** ... but push_back on a full vector, and construction from a longer range,
    are undefined in both build modes. *)
Theorem C47_capacity_unchecked_refuted : forall (A : Type) (dflt : A) N dbg os xs l x,
  Z.of_nat N < 2 ^ 63 ->
  list_run dflt N (vec_supported dbg N) [] os xs l -> length l = N ->
  vec_run dflt dbg (b_empty dflt N) (os ++ [VPush x]) = UB /\
  b_from_range dflt N (l ++ [x]) = UB.
Proof. exact (fun A => @push_over A). Qed.
Print Assumptions C47_capacity_unchecked_refuted.

(** C47 fails for pop_front: on every non-empty vector it throws. *)
Theorem C47_pop_front_refuted : forall (A : Type) (dflt : A) N dbg os xs x l,
  Z.of_nat N < 2 ^ 63 ->
  list_run dflt N (vec_supported dbg N) [] os xs (x :: l) ->
  vec_run dflt dbg (b_empty dflt N) (os ++ [VPopFront]) = Throw.
Proof. exact (fun A => @pop_front_refuted A). Qed.
Print Assumptions C47_pop_front_refuted.

(** pop_front( count ) throws exactly when it should not, and otherwise grows
    the vector. *)
Theorem C47_pop_front_count_refuted : forall (A : Type) (dflt : A) N dbg os xs l count,
  Z.of_nat N < 2 ^ 63 -> 0 < count < 2 ^ 63 ->
  list_run dflt N (vec_supported dbg N) [] os xs l ->
  exists v, vec_run dflt dbg (b_empty dflt N) os = Ok (xs, v) /\
    (count <= Z.of_nat (length l) -> b_pop_front_n v count = Throw) /\
    (Z.of_nat (length l) < count ->
     exists v', b_pop_front_n v count = Ok v' /\ b_size v' = Z.of_nat (length l) + count).
Proof. exact (fun A => @pop_front_n_refuted A). Qed.
Print Assumptions C47_pop_front_count_refuted.

(** has_room( count ) answers whether there is at most room for [count] more
    elements. *)
Theorem C47_has_room_refuted : forall (A : Type) (dflt : A) N dbg os xs l count,
  Z.of_nat N < 2 ^ 63 -> 0 <= count < 2 ^ 63 ->
  list_run dflt N (vec_supported dbg N) [] os xs l ->
  exists v, vec_run dflt dbg (b_empty dflt N) os = Ok (xs, v) /\
    (b_has_room v count = true <-> Z.of_nat N - Z.of_nat (length l) <= count).
Proof. exact (fun A => @has_room_refuted A). Qed.
Print Assumptions C47_has_room_refuted.

Example C47_has_room_witness :
  b_has_room (b_empty 0 10) 1 = false /\ b_has_room (b_empty 0 10) 11 = true.
Proof. split; (vm_compute; reflexivity). Qed.

(** C47 fails for the iterator returned by erase( pos ): instead of the element
    after the erased one (which moved to [p]) it denotes the one after it,
    unless the last element was erased. *)
Theorem C47_erase_iterator_refuted : forall (A : Type) (dflt : A) N dbg os xs l p,
  Z.of_nat N < 2 ^ 63 ->
  list_run dflt N (vec_supported dbg N) [] os xs l -> (S p < length l)%nat ->
  exists v v', vec_run dflt dbg (b_empty dflt N) os = Ok (xs, v) /\
    b_erase dflt v (Z.of_nat p) = Ok (Z.of_nat p + 1, v').
Proof. exact (fun A => @erase_iterator A). Qed.
Print Assumptions C47_erase_iterator_refuted.

(** C47 fails for erase( first, last ): for a non-empty range the returned
    iterator is never the right one, it is undefined when the range ends at the
    capacity (and is not half of the vector), and erasing everything aborts in
    debug builds. *)
Theorem C47_erase_range_refuted : forall (A : Type) (dflt : A) N dbg os xs l f e,
  Z.of_nat N < 2 ^ 63 ->
  list_run dflt N (vec_supported dbg N) [] os xs l -> (f < e <= length l)%nat ->
  exists v, vec_run dflt dbg (b_empty dflt N) os = Ok (xs, v) /\
    (forall it v', b_erase_range dflt dbg v (Z.of_nat f) (Z.of_nat e) = Ok (it, v') -> it <> Z.of_nat f) /\
    (e = N -> (e + (e - f) <> length l)%nat -> b_erase_range dflt false v (Z.of_nat f) (Z.of_nat e) = UB) /\
    (f = O -> e = length l -> b_erase_range dflt true v (Z.of_nat f) (Z.of_nat e) = Throw).
Proof. exact (fun A => @erase_range_refuted A). Qed.
Print Assumptions C47_erase_range_refuted.

Example C47_erase_witness :
  (v <- b_from_range 0 4 [1; 2; 3; 4] ;; ' (it, v) <- b_erase 0 v 1 ;; l <- b_contents v ;; Ok (it, l)) =
    Ok (2, [1; 3; 4]) /\
  (v <- b_from_range 0 4 [1; 2; 3; 4] ;; b_erase_range 0 false v 2 4) = UB /\
  (v <- b_from_range 0 4 [1; 2] ;; b_erase_range 0 true v 0 2) = Throw.
Proof. repeat split; (vm_compute; reflexivity). Qed.

(** C48, when the left vector is not longer than the right one. *)
Theorem C48_swap_partial : forall (A : Type) (dflt : A) N dbg os os' xs xs' l l',
  Z.of_nat N < 2 ^ 63 ->
  list_run dflt N (vec_supported dbg N) [] os xs l ->
  list_run dflt N (vec_supported dbg N) [] os' xs' l' ->
  (length l <= length l')%nat ->
  exists v w v' w',
    vec_run dflt dbg (b_empty dflt N) os = Ok (xs, v) /\
    vec_run dflt dbg (b_empty dflt N) os' = Ok (xs', w) /\
    b_swap v w = Ok (v', w') /\ vec_shows N v' l' /\ vec_shows N w' l.
Proof. exact (fun A => @swap_partial A). Qed.
Print Assumptions C48_swap_partial.

(** C48 fails when the left vector is longer: only the first [length l'] of its
    elements arrive, the others are replaced by what the right vector had in its
    unused slots. *)
Theorem C48_swap_refuted : forall (A : Type) (dflt : A) N dbg os os' xs xs' l l',
  Z.of_nat N < 2 ^ 63 ->
  list_run dflt N (vec_supported dbg N) [] os xs l ->
  list_run dflt N (vec_supported dbg N) [] os' xs' l' ->
  (length l' < length l)%nat ->
  exists v w v' w' unused,
    vec_run dflt dbg (b_empty dflt N) os = Ok (xs, v) /\
    vec_run dflt dbg (b_empty dflt N) os' = Ok (xs', w) /\
    bstack w = l' ++ unused /\
    b_swap v w = Ok (v', w') /\ vec_shows N v' l' /\
    vec_shows N w' (firstn (length l') l ++ firstn (length l - length l') unused).
Proof. exact (fun A => @swap_long A). Qed.
Print Assumptions C48_swap_refuted.

Example C48_swap_witness :
  (v <- b_from_range 0 4 [1; 2; 3] ;; w <- b_from_range 0 4 [4] ;;
   ' (v, w) <- b_swap v w ;; l <- b_contents v ;; l' <- b_contents w ;; Ok (l, l')) =
    Ok ([4], [1; 0; 0]) /\
  (v <- b_from_range 0 4 [4] ;; w <- b_from_range 0 4 [1; 2; 3] ;;
   ' (v, w) <- b_swap v w ;; l <- b_contents v ;; l' <- b_contents w ;; Ok (l, l')) =
    Ok ([1; 2; 3], [4]).
Proof. split; (vm_compute; reflexivity). Qed.
