(** C351-C353: insert, erase and pop_back_value of vectors when copies throw: theorems. *)
From Coq Require Import Lia.
From Verif Require Import Common Ints Vector SpecVector VectorThrow SpecVectorThrow VectorThrowProofs
  VectorThrowInsert SpecVectorThrowInsert VectorThrowInsertProofs.
Open Scope Z_scope.

(** * C351 insert. *)

(** insert into a full vector: whichever allocation or copy throws, the vector and all memory are as before. *)
Theorem C351_grow :
  forall (A : Type) fails nothrow_move ms (base w : world A) v xs p a, max_size_ok ms -> owns ms base w v xs ->
  (p <= length xs)%nat -> vcap w v = length xs ->
  (exists w' v', insert fails nothrow_move ms w v p a = Fin w' v' /\ owns ms base w' v' (inserted xs p a)) \/
  (exists w', insert fails nothrow_move ms w v p a = Exc w' v /\ same_memory w w' /\
     (threw fails w w' \/ Z.of_nat (length xs) = ms)).
Proof. exact c351_grow. Qed.

(** The same at the end of a vector with room. *)
Theorem C351_end :
  forall (A : Type) fails nothrow_move ms (base w : world A) v xs a, owns ms base w v xs -> (length xs < vcap w v)%nat ->
  (exists w' v', insert fails nothrow_move ms w v (length xs) a = Fin w' v' /\ owns ms base w' v' (xs ++ [a])) \/
  (exists w', insert fails nothrow_move ms w v (length xs) a = Exc w' v /\ same_memory w w' /\ threw fails w w').
Proof. exact c351_end. Qed.

(** In front of an element, with moves that do not throw: only the last assignment can throw, and a moved-from element is left where the value was to be. *)
Theorem C351_move :
  forall (A : Type) fails ms (base w : world A) v xs p a, owns ms base w v xs -> (p < length xs < vcap w v)%nat ->
  (exists w' v', insert fails true ms w v p a = Fin w' v' /\ owns ms base w' v' (inserted xs p a)) \/
  (exists w' v', insert fails true ms w v p a = Exc w' v' /\
     owns_objects ms base w' v' (map Obj (firstn p xs) ++ Moved :: map Obj (skipn p xs)) /\ threw fails w w').
Proof. exact c351_move. Qed.

(** With elements that are copied: nothing changes or one of the elements behind the position is there twice. *)
Theorem C351_copy :
  forall (A : Type) fails ms (base w : world A) v xs p a, owns ms base w v xs -> (p < length xs < vcap w v)%nat ->
  (exists w' v', insert fails false ms w v p a = Fin w' v' /\ owns ms base w' v' (inserted xs p a)) \/
  (exists w' v' ys, insert fails false ms w v p a = Exc w' v' /\ owns ms base w' v' ys /\
     (ys = xs \/ doubled xs p ys) /\ threw fails w w').
Proof. exact c351_copy. Qed.

(** A vector with moved-from elements can be destroyed, and nothing is left of it. *)
Theorem C351_destructor :
  forall (A : Type) ms (base w : world A) v ss, owns_objects ms base w v ss ->
  exists w', vdeallocate w v = Some w' /\ same_memory base w'.
Proof. exact c351_destructor. Qed.

Example C351_nonvacuous :
  (let w := World [Some [Obj 1; Obj 2; Obj 3; Raw]] 0 in let v := TVec (Some 0) 3 in
  owns 100 (World [] 0) w v [1; 2; 3] /\ 1 < 3 < vcap w v /\
  insert (fun k => k =? 0) true 100 w v 1 9 = Exc (World [Some [Obj 1; Moved; Obj 2; Obj 3]] 1) (TVec (Some 0) 4) /\
  insert (fun k => k =? 1) true 100 w v 1 9 = Fin (World [Some [Obj 1; Obj 9; Obj 2; Obj 3]] 1) (TVec (Some 0) 4) /\
  insert (fun k => k =? 1) false 100 w v 1 9 = Exc (World [Some [Obj 1; Obj 2; Obj 3; Obj 3]] 2) (TVec (Some 0) 4) /\
  insert (fun k => k =? 2) false 100 w v 1 9 = Exc (World [Some [Obj 1; Obj 2; Obj 2; Obj 3]] 3) (TVec (Some 0) 4) /\
  (let w := World [Some [Obj 1; Obj 2]] 0 in let v := TVec (Some 0) 2 in
   insert (fun k => k =? 3) false 100 w v 1 9 = Exc (World [Some [Obj 1; Obj 2]; None] 4) v /\
   insert (fun k => k =? 4) false 100 w v 1 9 = Fin (World [None; Some [Obj 1; Obj 9; Obj 2; Raw]] 4) (TVec (Some 1) 3)))%nat.
Proof.
  cbn zeta. split; [|split; [cbn; lia | repeat split]].
  split; [reflexivity|]. split; [reflexivity|]. split; [|exists 1%nat; split; [reflexivity | cbn; lia]].
  intros i Hi. destruct i as [|[|i]]; [contradiction | reflexivity | destruct i; reflexivity].
Qed.
Print Assumptions C351_grow.
Print Assumptions C351_end.
Print Assumptions C351_move.
Print Assumptions C351_copy.
Print Assumptions C351_destructor.

(** * C352 erase and pop_back_value. *)

(** erase never throws when moves do not; when a copy throws, the vector keeps its length and the elements copied so far are in their new places. *)
Theorem C352_erase :
  forall (A : Type) fails nothrow_move ms (base w : world A) v xs p q, owns ms base w v xs -> (p <= q <= length xs)%nat ->
  (exists w' v', erase fails nothrow_move w v p q = Fin w' v' /\ owns ms base w' v' (erased xs p q)) \/
  (nothrow_move = false /\ exists w' j, (j < length xs - q)%nat /\ erase fails nothrow_move w v p q = Exc w' v /\
     owns ms base w' v (firstn p xs ++ firstn j (skipn q xs) ++ skipn (p + j) xs) /\ threw fails w w').
Proof. exact c352_erase. Qed.

(** pop_back_value loses no element: it is returned and removed, or the copy throws and nothing changes. *)
Theorem C352_pop_back_value :
  forall (A : Type) fails nothrow_move ms (base w : world A) v xs a, owns ms base w v (xs ++ [a]) ->
  (exists w' v', pop_back_value fails nothrow_move w v = Fin w' (v', Some a) /\ owns ms base w' v' xs) \/
  (nothrow_move = false /\ exists w', pop_back_value fails nothrow_move w v = Exc w' (v, None) /\
     same_memory w w' /\ threw fails w w').
Proof. exact c352_pop_back_value. Qed.

Example C352_nonvacuous :
  (let w := World [Some [Obj 1; Obj 2; Obj 3; Raw]] 0 in let v := TVec (Some 0) 3 in
  owns 100 (World [] 0) w v ([1; 2] ++ [3]) /\
  erase (fun _ => false) true w v 0 1 = Fin (World [Some [Obj 2; Obj 3; Raw; Raw]] 0) (TVec (Some 0) 2) /\
  erase (fun k => k =? 1) false w v 0 1 = Exc (World [Some [Obj 2; Obj 2; Obj 3; Raw]] 2) v /\
  pop_back_value (fun _ => false) true w v = Fin (World [Some [Obj 1; Obj 2; Raw; Raw]] 0) (TVec (Some 0) 2, Some 3) /\
  pop_back_value (fun _ => true) false w v = Exc (World [Some [Obj 1; Obj 2; Obj 3; Raw]] 1) (v, None))%nat.
Proof.
  cbn zeta. split; [|repeat split].
  split; [reflexivity|]. split; [reflexivity|]. split; [|exists 1%nat; split; [reflexivity | cbn; lia]].
  intros i Hi. destruct i as [|[|i]]; [contradiction | reflexivity | destruct i; reflexivity].
Qed.
Print Assumptions C352_erase.
Print Assumptions C352_pop_back_value.

(** * C353 Histories. *)

(** In every state a program can reach, every valid call is defined, and the destructor gives back all memory. *)
Theorem C353_history :
  forall (A : Type) fails nothrow_move ms (start w : world A) v, max_size_ok ms ->
  reached fails nothrow_move ms start w v ->
  (forall o, valid_call ms (vlen v) o -> istep fails nothrow_move ms w v o <> Und) /\
  exists xs w', owns ms start w v xs /\ vdeallocate w v = Some w' /\ same_memory start w'.
Proof. exact c353_history. Qed.

Example C353_nonvacuous :
  reached (fun k => k =? 10)%nat false 100 (World [] 0) (World [None; None; Some [Obj 2; Obj 2; Obj 3; Raw]] 11)%nat (TVec (Some 2) 3)%nat.
Proof.
  eapply R_exc with (o := IErase 0 1).
  { eapply R_fin with (o := IInsert 1 2%nat).
    { eapply R_fin with (o := IOther (TPush 3%nat)).
      { eapply R_fin with (o := IOther (TPush 1%nat)); [apply R_start | exact I |]. vm_compute. reflexivity. }
      { exact I. }
      { vm_compute. reflexivity. } }
    { cbn. lia. }
    { vm_compute. reflexivity. } }
  { cbn. lia. }
  { discriminate. }
  { vm_compute. reflexivity. }
Qed.
Print Assumptions C353_history.
