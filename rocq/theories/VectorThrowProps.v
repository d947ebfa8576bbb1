(** C347-C350: vectors when allocations and constructors throw: theorems. *)
From Coq Require Import Lia.
From Verif Require Import Common Ints Vector SpecVector VectorThrow SpecVectorThrow VectorThrowProofs.
Open Scope Z_scope.

(** * C347 The strong guarantee. *)

(** push_back: whichever allocation or copy throws, the vector and all memory are as before the call. *)
Theorem C347_push_back :
  forall (A : Type) fails nothrow_move ms (base w : world A) v xs a, max_size_ok ms -> owns ms base w v xs ->
  (exists w' v', push_back fails nothrow_move ms w v a = Fin w' v' /\ owns ms base w' v' (xs ++ [a])) \/
  (exists w', push_back fails nothrow_move ms w v a = Exc w' v /\ same_memory w w' /\
     (threw fails w w' \/ Z.of_nat (length xs) = ms)).
Proof. exact c347_push_back. Qed.

(** reserve: the same. *)
Theorem C347_reserve :
  forall (A : Type) fails nothrow_move ms (base w : world A) v xs n, max_size_ok ms -> owns ms base w v xs ->
  (exists w' v', reserve fails nothrow_move ms w v n = Fin w' v' /\ owns ms base w' v' xs /\
     Z.of_nat (vcap w' v') = Z.max n (Z.of_nat (vcap w v))) \/
  (exists w', reserve fails nothrow_move ms w v n = Exc w' v /\ same_memory w w' /\ (threw fails w w' \/ ms < n)).
Proof. exact c347_reserve. Qed.

(** shrink_to_fit never throws; when something inside throws nothing changes. *)
Theorem C347_shrink_to_fit :
  forall (A : Type) fails nothrow_move ms (base w : world A) v xs, max_size_ok ms -> owns ms base w v xs ->
  exists w' v', shrink_to_fit fails nothrow_move w v = Fin w' v' /\ owns ms base w' v' xs /\
    (vcap w' v' = length xs \/ (v' = v /\ same_memory w w' /\ threw fails w w')).
Proof. exact c347_shrink_to_fit. Qed.

Example C347_nonvacuous :
  let w := World [Some [Obj 1%nat; Obj 2%nat]] 0 in let v := TVec (Some 0%nat) 2 in
  max_size_ok 100 /\ owns 100 (World [] 0) w v [1; 2]%nat /\
  push_back (fun k => k =? 3)%nat false 100 w v 7%nat = Exc (World [Some [Obj 1; Obj 2]; None] 4)%nat v /\
  push_back (fun k => k =? 4)%nat false 100 w v 7%nat =
    Fin (World [None; Some [Obj 1; Obj 2; Obj 7; Raw]] 4)%nat (TVec (Some 1%nat) 3) /\
  push_back (fun k => k =? 2)%nat true 100 w v 7%nat =
    Fin (World [None; Some [Obj 1; Obj 2; Obj 7; Raw]] 2)%nat (TVec (Some 1%nat) 3).
Proof.
  cbn zeta. split; [split; reflexivity|]. split; [|repeat split].
  split; [reflexivity|]. split; [reflexivity|]. split; [|exists 0%nat; split; [reflexivity | cbn; lia]].
  intros i Hi. destruct i as [|[|i]]; [contradiction | reflexivity | destruct i; reflexivity].
Qed.
Print Assumptions C347_push_back.
Print Assumptions C347_reserve.
Print Assumptions C347_shrink_to_fit.

(** * C348 append. *)

(** append( n, x ) when a new buffer is needed: a throw leaves the vector and all memory as before.  Missing: the other case, see C348_room_refuted. *)
Theorem C348_grow_partial :
  forall (A : Type) fails nothrow_move ms (base w : world A) v xs n a, max_size_ok ms -> owns ms base w v xs ->
  0 <= n <= ms -> Z.of_nat (vcap w v) < Z.of_nat (length xs) + n ->
  (exists w' v', append fails nothrow_move ms w v n a = Fin w' v' /\ owns ms base w' v' (xs ++ repeat a (Z.to_nat n))) \/
  (exists w', append fails nothrow_move ms w v n a = Exc w' v /\ same_memory w w' /\
     (threw fails w w' \/ ms < Z.of_nat (length xs) + n)).
Proof. exact c348_grow_partial. Qed.

(** append( n, x ) with room for n elements, documented as strongly exception safe: when copy number j throws, the j copies made before stay in the vector. *)
Theorem C348_room_refuted :
  forall (A : Type) fails nothrow_move ms (base w : world A) v xs n a j, max_size_ok ms -> owns ms base w v xs ->
  0 <= n -> Z.of_nat (length xs) + n <= Z.of_nat (vcap w v) ->
  (j < Z.to_nat n)%nat -> quiet fails (tick w) j -> fails (tick w + j)%nat = true ->
  exists w' v', append fails nothrow_move ms w v n a = Exc w' v' /\ owns ms base w' v' (xs ++ repeat a j).
Proof. exact c348_room_refuted. Qed.

Example C348_nonvacuous :
  let w := World [Some [Obj 1%nat; Raw; Raw; Raw]] 0 in let v := TVec (Some 0%nat) 1 in
  owns 100 (World [] 0) w v [1]%nat /\ quiet (fun k => k =? 2)%nat 0 2 /\
  append (fun k => k =? 2)%nat true 100 w v 3 7%nat = Exc (World [Some [Obj 1; Obj 7; Obj 7; Raw]] 3)%nat (TVec (Some 0%nat) 3) /\
  append (fun k => k =? 2)%nat true 100 w v 4 7%nat = Exc (World [Some [Obj 1; Raw; Raw; Raw]; None] 3)%nat v.
Proof.
  cbn zeta. split; [|split; [intros [|[|i]] Hi; [reflexivity | reflexivity | lia] | split; vm_compute; reflexivity]].
  split; [reflexivity|]. split; [reflexivity|]. split; [|exists 3%nat; split; [reflexivity | cbn; lia]].
  intros i Hi. destruct i as [|[|i]]; [contradiction | reflexivity | destruct i; reflexivity].
Qed.
Print Assumptions C348_grow_partial.
Print Assumptions C348_room_refuted.

(** * C349 Constructors. *)

(** The constructors hold the given elements when nothing throws, and leave nothing behind when the allocation does.  Missing: copies that throw, see C349_leak_refuted. *)
Theorem C349_made_partial :
  forall (A : Type) fails ms (w : world A) l, max_size_ok ms ->
  (Z.of_nat (length l) <= ms -> quiet fails (tick w) (S (length l)) ->
     exists w' v, make fails ms w l = Fin w' v /\ owns ms w w' v l) /\
  (ms < Z.of_nat (length l) \/ (l <> [] /\ fails (tick w) = true) ->
     exists w' v, make fails ms w l = Exc w' v /\ same_memory w w').
Proof. exact c349_made_partial. Qed.

(** When copy number j throws in a constructor, the buffer is never released and the j objects made before are never destroyed. *)
Theorem C349_leak_refuted :
  forall (A : Type) fails ms (w : world A) l j, max_size_ok ms ->
  Z.of_nat (length l) <= ms -> (j < length l)%nat -> quiet fails (tick w) (S j) -> fails (tick w + S j)%nat = true ->
  exists w' v b, make fails ms w l = Exc w' v /\ buffer w b = None /\
    buffer w' b = Some (map Obj (firstn j l) ++ repeat Raw (length l - j)) /\
    forall i, i <> b -> buffer w' i = buffer w i.
Proof. exact c349_leak_refuted. Qed.

Example C349_nonvacuous :
  make (fun k => k =? 2)%nat 100 (World [] 0) [5; 6; 7]%nat = Exc (World [Some [Obj 5; Raw; Raw]] 3)%nat (TVec (Some 0%nat) 1) /\
  make (fun k => k =? 4)%nat 100 (World [] 0) [5; 6; 7]%nat = Fin (World [Some [Obj 5; Obj 6; Obj 7]] 4)%nat (TVec (Some 0%nat) 3) /\
  make (fun k => k =? 0)%nat 100 (World [] 0) [5; 6; 7]%nat = Exc (World [] 1) null_vec.
Proof. repeat split. Qed.
Print Assumptions C349_made_partial.
Print Assumptions C349_leak_refuted.

(** * C350 The basic guarantee. *)

(** Every member either has its effect, or it throws because an event threw or the vector would be too long; then the vector holds old and new elements as listed, and no memory is lost. *)
Theorem C350_step :
  forall (A : Type) fails nothrow_move ms (base w : world A) v xs o, max_size_ok ms -> owns ms base w v xs -> arg_ok ms o ->
  (exists w' v', tstep fails nothrow_move ms w v o = Fin w' v' /\ owns ms base w' v' (result_of xs o)) \/
  (exists w' v' ys, tstep fails nothrow_move ms w v o = Exc w' v' /\ left_by xs o ys /\ owns ms base w' v' ys /\
     (threw fails w w' \/ too_long ms xs o)).
Proof. exact c350_step. Qed.

(** After any calls, whichever of their allocations and copies threw, the destructor destroys all objects and releases all memory. *)
Theorem C350_history :
  forall (A : Type) fails nothrow_move ms (w : world A) os, max_size_ok ms -> Forall (arg_ok ms) os ->
  exists w' v ys w'', trun fails nothrow_move ms w null_vec os = Some (w', v) /\ owns ms w w' v ys /\
    vdeallocate w' v = Some w'' /\ same_memory w w''.
Proof. exact c350_history. Qed.

Example C350_nonvacuous :
  let os := [TPush 1; TPush 2; TAppend 5 3; TAssign [4; 5; 6; 7]; TResize 9 8; TShrink; TReserve 40; TResize 2 0]%nat in
  let r := trun (fun k => (k mod 7 =? 6))%nat false 100 (World [] 0) null_vec os in
  Forall (arg_ok 100) os /\
  r = Some (World [None; None; None; None; None; Some ([Obj 4; Obj 5] ++ repeat Raw 38)] 19, TVec (Some 5) 2)%nat.
Proof. cbn zeta. split; [repeat (apply Forall_cons; [cbn; try exact I; lia|]); apply Forall_nil | vm_compute; reflexivity]. Qed.
Print Assumptions C350_step.
Print Assumptions C350_history.
