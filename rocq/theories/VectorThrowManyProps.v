(** C355: insert of several elements into a vector when something throws: theorems. *)
From Coq Require Import Lia.
From Verif Require Import Common Ints Vector SpecVector VectorThrow SpecVectorThrow VectorThrowProofs
  VectorThrowInsert SpecVectorThrowInsert VectorThrowInsertProofs VectorThrowMany VectorThrowManyProofs.
Open Scope Z_scope.

(** * C355 insert of several elements. *)

(** Without enough room: whichever allocation or copy throws, the vector and all memory are as before; otherwise the elements are at their place. *)
Theorem C355_no_room :
  forall (A : Type) fails nothrow_move ms (base w : world A) v xs p l, max_size_ok ms -> owns ms base w v xs ->
  (p <= length xs)%nat -> (vcap w v < length xs + length l)%nat -> Z.of_nat (length l) < 2 ^ 63 ->
  (exists w' v', insert_many fails nothrow_move ms w v p l = Fin w' v' /\
     owns ms base w' v' (firstn p xs ++ l ++ skipn p xs)) \/
  (exists w', insert_many fails nothrow_move ms w v p l = Exc w' v /\ same_memory w w' /\
     (threw fails w w' \/ ms < Z.of_nat (length xs) + Z.of_nat (length l))).
Proof. exact c355_no_room. Qed.

(** With room: when something throws, the elements in front of the position are as before, no element is lost from the count, and the vector can be destroyed without a leak. *)
Theorem C355_room :
  forall (A : Type) fails nothrow_move ms (base w : world A) v xs p l, owns ms base w v xs ->
  (p <= length xs)%nat -> l <> [] -> (length xs + length l <= vcap w v)%nat ->
  (exists w' v', insert_many fails nothrow_move ms w v p l = Fin w' v' /\
     owns ms base w' v' (firstn p xs ++ l ++ skipn p xs)) \/
  (exists w' v' rest w'', insert_many fails nothrow_move ms w v p l = Exc w' v' /\
     owns_objects ms base w' v' (map Obj (firstn p xs) ++ rest) /\
     (length xs <= p + length rest <= length xs + length l)%nat /\ threw fails w w' /\
     vdeallocate w' v' = Some w'' /\ same_memory base w'').
Proof. exact c355_room. Qed.

(** Nothing happens for no values. *)
Theorem C355_nothing :
  forall (A : Type) fails nothrow_move ms (w : world A) v p, (p <= vlen v)%nat ->
  insert_many fails nothrow_move ms w v p [] = Fin w v.
Proof. exact c355_nothing. Qed.

Example C355_nonvacuous :
  (let w := World [Some [Obj 1; Obj 2; Obj 3; Raw]] 0 in let v := TVec (Some 0) 3 in
  owns 100 (World [] 0) w v [1; 2; 3] /\ vcap w v < length [1; 2; 3] + length [8; 9] /\
  insert_many (fun _ => false) true 100 w v 1 [8; 9] =
    Fin (World [None; Some [Obj 1; Obj 8; Obj 9; Obj 2; Obj 3; Raw; Raw; Raw]] 3) (TVec (Some 1) 5) /\
  insert_many (fun k => k =? 2) true 100 w v 1 [8; 9] = Exc (World [Some [Obj 1; Obj 2; Obj 3; Raw]; None] 3) v /\
  insert_many (fun k => k =? 5) false 100 w v 1 [8; 9] = Exc (World [Some [Obj 1; Obj 2; Obj 3; Raw]; None] 6) v /\
  insert_many (fun _ => false) true 4 w v 1 [8; 9] = Exc w v /\
  (let w := World [Some [Obj 1; Obj 2; Obj 3; Raw; Raw]] 0 in
   insert_many (fun _ => false) true 100 w v 1 [8; 9] = Fin (World [Some [Obj 1; Obj 8; Obj 9; Obj 2; Obj 3]] 2) (TVec (Some 0) 5) /\
   insert_many (fun _ => false) false 100 w v 2 [8; 9] = Fin (World [Some [Obj 1; Obj 2; Obj 8; Obj 9; Obj 3]] 3) (TVec (Some 0) 5) /\
   insert_many (fun k => k =? 1) true 100 w v 1 [8; 9] = Exc (World [Some [Obj 1; Obj 8; Moved; Obj 2; Obj 3]] 2) (TVec (Some 0) 5) /\
   insert_many (fun k => k =? 1) false 100 w v 1 [8; 9] = Exc (World [Some [Obj 1; Obj 2; Obj 3; Obj 2; Raw]] 2) (TVec (Some 0) 4)))%nat.
Proof.
  cbn zeta. split; [|split; [cbn; lia | repeat split]].
  split; [reflexivity|]. split; [reflexivity|]. split; [|exists 1%nat; split; [reflexivity | cbn; lia]].
  intros i Hi. destruct i as [|[|i]]; [contradiction | reflexivity | destruct i; reflexivity].
Qed.
Print Assumptions C355_no_room.
Print Assumptions C355_room.
Print Assumptions C355_nothing.
