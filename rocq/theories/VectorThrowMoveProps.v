(** C354: push_back and insert of rvalues when allocations and copies throw: theorems. *)
From Coq Require Import Lia.
From Verif Require Import Common Ints Vector SpecVector VectorThrow SpecVectorThrow VectorThrowProofs
  VectorThrowInsert SpecVectorThrowInsert VectorThrowInsertProofs VectorThrowMove SpecVectorThrowMove VectorThrowMoveProofs.
Open Scope Z_scope.

(** * C354 push_back and insert of rvalues. *)

(** With moves that do not throw: the value has been moved into the vector, or the vector was full and the vector, all memory and the argument are as before. *)
Theorem C354_insert_move :
  forall (A : Type) fails ms (base w : world A) v xs p a, max_size_ok ms -> owns ms base w v xs -> (p <= length xs)%nat ->
  (exists w' v', insert_move fails true ms w v p (Obj a) = Fin w' (v', Moved) /\ owns ms base w' v' (inserted xs p a)) \/
  (vcap w v = length xs /\ exists w', insert_move fails true ms w v p (Obj a) = Exc w' (v, Obj a) /\ same_memory w w' /\
     (threw fails w w' \/ Z.of_nat (length xs) = ms)).
Proof. exact c354_insert_move. Qed.

(** The same for push_back. *)
Theorem C354_push_back_move :
  forall (A : Type) fails ms (base w : world A) v xs a, max_size_ok ms -> owns ms base w v xs ->
  (exists w' v', push_back_move fails true ms w v (Obj a) = Fin w' (v', Moved) /\ owns ms base w' v' (xs ++ [a])) \/
  (vcap w v = length xs /\ exists w', push_back_move fails true ms w v (Obj a) = Exc w' (v, Obj a) /\ same_memory w w' /\
     (threw fails w w' \/ Z.of_nat (length xs) = ms)).
Proof. exact c354_push_back_move. Qed.

(** With elements that have no moves the argument stays what it is; only in front of an element of a vector with room an element may be left twice. *)
Theorem C354_insert_copy :
  forall (A : Type) fails ms (base w : world A) v xs p a, max_size_ok ms -> owns ms base w v xs -> (p <= length xs)%nat ->
  (exists w' v', insert_move fails false ms w v p (Obj a) = Fin w' (v', Obj a) /\ owns ms base w' v' (inserted xs p a)) \/
  (exists w' v' ys, insert_move fails false ms w v p (Obj a) = Exc w' (v', Obj a) /\ owns ms base w' v' ys /\
     (threw fails w w' \/ Z.of_nat (length xs) = ms) /\
     (v' = v /\ same_memory w w' \/ (p < length xs < vcap w v)%nat /\ (ys = xs \/ doubled xs p ys))).
Proof. exact c354_insert_copy. Qed.

(** push_back then changes nothing when it throws. *)
Theorem C354_push_back_copy :
  forall (A : Type) fails ms (base w : world A) v xs a, max_size_ok ms -> owns ms base w v xs ->
  (exists w' v', push_back_move fails false ms w v (Obj a) = Fin w' (v', Obj a) /\ owns ms base w' v' (xs ++ [a])) \/
  (exists w', push_back_move fails false ms w v (Obj a) = Exc w' (v, Obj a) /\ same_memory w w' /\
     (threw fails w w' \/ Z.of_nat (length xs) = ms)).
Proof. exact c354_push_back_copy. Qed.

(** In every state a program can reach with these calls and those of C353, every valid call is defined, and the destructor gives back all memory. *)
Theorem C354_history :
  forall (A : Type) fails nothrow_move ms (start w : world A) v, max_size_ok ms ->
  move_reached fails nothrow_move ms start w v ->
  (forall o, valid_call ms (vlen v) o -> istep fails nothrow_move ms w v o <> Und) /\
  (forall p a, (p <= vlen v)%nat -> insert_move fails nothrow_move ms w v p (Obj a) <> Und) /\
  (forall a, push_back_move fails nothrow_move ms w v (Obj a) <> Und) /\
  exists xs w', owns ms start w v xs /\ vdeallocate w v = Some w' /\ same_memory start w'.
Proof. exact c354_history. Qed.

Example C354_nonvacuous :
  (let w := World [Some [Obj 1; Obj 2; Obj 3; Raw]] 0 in let v := TVec (Some 0) 3 in
  owns 100 (World [] 0) w v [1; 2; 3] /\
  insert_move (fun _ => true) true 100 w v 1 (Obj 9) = Fin (World [Some [Obj 1; Obj 9; Obj 2; Obj 3]] 0) (TVec (Some 0) 4, Moved) /\
  insert_move (fun k => k =? 1) false 100 w v 1 (Obj 9) = Exc (World [Some [Obj 1; Obj 2; Obj 3; Obj 3]] 2) (TVec (Some 0) 4, Obj 9) /\
  push_back_move (fun _ => true) true 100 w v (Obj 9) = Fin (World [Some [Obj 1; Obj 2; Obj 3; Obj 9]] 0) (TVec (Some 0) 4, Moved) /\
  (let w := World [Some [Obj 1; Obj 2]] 0 in let v := TVec (Some 0) 2 in
   insert_move (fun k => k =? 0) true 100 w v 1 (Obj 9) = Exc (World [Some [Obj 1; Obj 2]] 1) (v, Obj 9) /\
   insert_move (fun k => k =? 1) true 100 w v 1 (Obj 9) = Fin (World [None; Some [Obj 1; Obj 9; Obj 2; Raw]] 1) (TVec (Some 1) 3, Moved) /\
   push_back_move (fun k => k =? 3) false 100 w v (Obj 9) = Exc (World [Some [Obj 1; Obj 2]; None] 4) (v, Obj 9)))%nat /\
  move_reached (fun k => k =? 1)%nat true 100 (World [] 0) (World [Some [Obj 7%nat]] 2)%nat (TVec (Some 0) 1)%nat.
Proof.
  cbn zeta. split; [split; [|repeat split] | eapply M_insert_exc with (p := 0%nat) (a := 8%nat) (x := Obj 8%nat);
    [eapply M_push_fin with (a := 7%nat) (x := Moved); [apply M_start | vm_compute; reflexivity] | cbn; lia | vm_compute; reflexivity]].
  split; [reflexivity|]. split; [reflexivity|]. split; [|exists 1%nat; split; [reflexivity | cbn; lia]].
  intros i Hi. destruct i as [|[|i]]; [contradiction | reflexivity | destruct i; reflexivity].
Qed.
Print Assumptions C354_insert_move.
Print Assumptions C354_push_back_move.
Print Assumptions C354_insert_copy.
Print Assumptions C354_push_back_copy.
Print Assumptions C354_history.
