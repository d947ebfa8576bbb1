(** Memory mapped files: theorems. *)
From Verif Require Import Common MmapFile SpecMmapFile MmapFileProofs.
From Coq Require Import Sorting.Permutation.
Open Scope Z_scope.

(** * C277 Descriptors and mappings *)

(** After any program every open descriptor and every mapping belongs to exactly one object; when no object is left, nothing is open or mapped. *)
Theorem C277_ownership :
  forall n ps o s out, run (fresh_objects n) sys_init ps = Ok (o, s, out) ->
  Permutation (s_fds s) (owned_fds o) /\ Permutation (mapped s) (owned_maps o) /\ NoDup (s_fds s) /\ (all_dead o -> s = Sys (s_next s) [] []).
Proof. exact c277_ownership. Qed.

(** No descriptor is closed twice and no mapping is unmapped twice, or with a wrong size: every proper operation is defined in every state that a program reaches. *)
Theorem C277_no_ub :
  forall n ps o s out p, run (fresh_objects n) sys_init ps = Ok (o, s, out) -> proper o p -> exists o' s' z, step o s p = Ok (o', s', z).
Proof. exact c277_no_ub. Qed.

(** Whether a file is open cannot be asked of an object that was default constructed or moved from, and such an object cannot be assigned. *)
Theorem C277_empty_refuted :
  forall o s i j, nth_error o i = Some (Some None) -> step o s (IsOpen i) = UB /\ step o s (Size i) = UB /\ (forall m, nth_error o j = Some (Some m) -> step o s (MoveAssign j i) = UB).
Proof. exact c277_empty_refuted. Qed.

Example C277_nonvacuous :
  let a := Answer true true true [1; 2] in let b := Answer true true false [3] in
  exists o s, run (fresh_objects 3) sys_init [New 0; Open 0 a; New 1; Open 1 b; MoveNew 2 0; MoveAssign 1 2; IsOpen 1; Size 1; Open 0 a; Destroy 0] = Ok (o, s, [0; 1; 0; 0; 0; 0; 1; 2; 1; 0])
    /\ length (s_fds s) = 1%nat /\ mapped s = [(1%nat, 2%nat)] /\ run o s [Destroy 1; Destroy 2] = Ok ([None; None; None], Sys 5 [] [], [0; 0]).
Proof. cbv zeta. do 2 eexists. split; [vm_compute; reflexivity|]. repeat split. Qed.
Print Assumptions C277_ownership.
Print Assumptions C277_no_ub.
Print Assumptions C277_empty_refuted.

(** * C278 The contents *)

(** A successful open, also of an object that was open, gives an object that holds the bytes of the file; any failure gives an object that is not open, of size 0. *)
Theorem C278_open :
  forall n ps o s out i a, run (fresh_objects n) sys_init ps = Ok (o, s, out) -> alive o i ->
  (answers_well a -> exists o' s', step o s (Open i a) = Ok (o', s', 1) /\ holds o' s' i (a_bytes a)) /\
  (~ answers_well a -> exists o' s', step o s (Open i a) = Ok (o', s', 0) /\ step o' s' (IsOpen i) = Ok (o', s', 0) /\ step o' s' (Size i) = Ok (o', s', 0)).
Proof. exact c278_open. Qed.

(** An object holds its bytes until it is itself changed, whatever happens to others; moving hands them over, also onto an open object and onto itself. *)
Theorem C278_keeps :
  forall n ps o s out, run (fresh_objects n) sys_init ps = Ok (o, s, out) -> forall i bytes, holds o s i bytes ->
  (forall p o' s' z, step o s p = Ok (o', s', z) -> ~ touches i p -> holds o' s' i bytes) /\
  (forall j, not_alive o j -> exists o' s', step o s (MoveNew j i) = Ok (o', s', 0) /\ holds o' s' j bytes) /\
  (forall j, alive o j -> exists o' s', step o s (MoveAssign j i) = Ok (o', s', 0) /\ holds o' s' j bytes).
Proof. exact c278_keeps. Qed.

(** With elements wider than a byte the size counts bytes, so that the last element between begin and end lies outside the mapping. *)
Theorem C278_wide_refuted :
  forall s d a bytes w, find_map a (s_maps s) = Some bytes -> d_ptr d = At a -> d_size d = length bytes -> bytes <> [] -> (2 <= w)%nat ->
  size (Some d) = Ok (length bytes) /\ get w (Some d) (length bytes - 1) s = UB.
Proof. exact c278_wide_refuted. Qed.

Example C278_nonvacuous :
  let a := Answer true true true [7; 8; 9] in
  exists o s, run (fresh_objects 2) sys_init [New 0; New 1; Open 0 a; Open 1 (Answer true false true [1])] = Ok (o, s, [0; 0; 1; 0]) /\ holds o s 0 [7; 8; 9]
    /\ exists o' s', step o s (MoveAssign 1 0) = Ok (o', s', 0) /\ holds o' s' 1 [7; 8; 9] /\ get 2 (nth 1 (map (fun x => match x with Some m => m | None => None end) o') None) 0 s' = Ok 2055.
Proof.
  cbv zeta. do 2 eexists. split; [vm_compute; reflexivity|]. split; [eexists; split; [vm_compute; reflexivity|]; split; [reflexivity|]; split; [reflexivity|]; intros [|[|[|[|pos]]]] b E; cbn in E; injection E as <- || discriminate; reflexivity|].
  do 2 eexists. split; [vm_compute; reflexivity|]. split; [|reflexivity]. eexists; split; [vm_compute; reflexivity|]; split; [reflexivity|]; split; [reflexivity|]; intros [|[|[|[|pos]]]] b E; cbn in E; injection E as <- || discriminate; reflexivity.
Qed.
Print Assumptions C278_open.
Print Assumptions C278_keeps.
Print Assumptions C278_wide_refuted.

(** * C279 The Windows version *)

(** On Windows every successful open leaves a handle open after the object is cleaned up, and an open that fails after the file was opened leaves the handle of the file open. *)
Theorem C279_handles_refuted :
  forall m a s s1 m1, w_reset m s = Ok (m1, s1) -> wa_opens a = true -> wa_bytes a <> [] ->
  (wa_sizes a = true -> wa_mapping a = true -> wa_view a = true ->
    exists m2 s2 m3 s3, w_open m a s = Ok (true, m2, s2) /\ w_reset m2 s2 = Ok (m3, s3) /\ s_maps s3 = s_maps s1 /\ s_fds s3 = S (s_next s1) :: s_fds s1) /\
  (wa_sizes a = false \/ wa_mapping a = false -> exists m2 s2, w_open m a s = Ok (false, m2, s2) /\ s_fds s2 = s_next s1 :: s_fds s1).
Proof. exact c279_handles_refuted. Qed.

(** On Windows the conversion to bool is true exactly when the file is not open. *)
Theorem C279_is_open_refuted :
  forall m a s m' s' ok, w_open m a s = Ok (ok, m', s') -> w_is_open m' = Ok (negb ok).
Proof. exact c279_is_open_refuted. Qed.

(** On Windows opening a new object by a wide path is undefined unless it fails. *)
Theorem C279_wide_path_refuted :
  forall a s, wa_opens a = true -> wa_sizes a = true -> wa_bytes a <> [] -> w_open_wide None a s = UB.
Proof. exact c279_wide_path_refuted. Qed.

Example C279_nonvacuous :
  exists m s, w_open None (Wanswer true true true true [1; 2]) sys_init = Ok (true, m, s) /\ w_is_open m = Ok false /\ length (s_fds s) = 1%nat /\ mapped s = [(2%nat, 2%nat)]
    /\ exists m' s', w_reset m s = Ok (m', s') /\ length (s_fds s') = 1%nat /\ s_maps s' = [] /\ w_is_open m' = Ok true.
Proof. do 2 eexists. split; [vm_compute; reflexivity|]. split; [reflexivity|]. split; [reflexivity|]. split; [reflexivity|]. do 2 eexists. split; [vm_compute; reflexivity|]. repeat split. Qed.
Print Assumptions C279_handles_refuted.
Print Assumptions C279_is_open_refuted.
Print Assumptions C279_wide_path_refuted.
