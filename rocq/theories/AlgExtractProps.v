(** C341-C344: extract_*, consume_if and the predicate objects: theorems. *)
From Verif Require Import Common AlgExtract SpecAlgExtract AlgExtractProofs.

(** * C341 Moving nodes between containers. *)

(** extract_to moves all nodes with the key and no others, when the destination can take them.  Missing: destinations with unique keys that have the key, see C341_lost_refuted. *)
Theorem C341_moved_partial :
  forall (K V : Type) (eqb : K -> K -> bool) uniq k fuel (from to : list (K * V)),
  length from < fuel -> room eqb uniq to (with_key eqb k from) ->
  extract_to eqb fuel uniq k from to = Ok (without_key eqb k from, to ++ with_key eqb k from).
Proof. exact c341_moved_partial. Qed.

(** extract_all moves everything, when the destination can take it. *)
Theorem C341_all_partial :
  forall (K V : Type) (eqb : K -> K -> bool) uniq fuel (from to : list (K * V)),
  length from < fuel -> room eqb uniq to from ->
  extract_all eqb fuel uniq from to = Ok ([], to ++ from).
Proof. exact c341_all_partial. Qed.

(** When a destination with unique keys has the key, the nodes are taken out of the source and destroyed. *)
Theorem C341_lost_refuted :
  forall (K V : Type) (eqb : K -> K -> bool) k,
  (forall x y, eqb x k = true -> eqb y k = true -> eqb x y = true) ->
  forall fuel (from to : list (K * V)), length from < fuel -> with_key eqb k to <> [] ->
  extract_to eqb fuel true k from to = Ok (without_key eqb k from, to).
Proof. exact c341_lost_refuted. Qed.

(** extract_all empties the source; nodes whose key the destination has end in neither container. *)
Theorem C341_all_lost_refuted :
  forall (K V : Type) (eqb : K -> K -> bool) fuel (from to : list (K * V)), length from < fuel ->
  exists to', extract_all eqb fuel true from to = Ok ([], to') /\ (forall m, In m to -> In m to') /\
    forall n, In n from -> ~ In n to -> (exists m, In m to /\ eqb (fst m) (fst n) = true) -> ~ In n to'.
Proof. exact c341_all_lost_refuted. Qed.

Example C341_nonvacuous :
  room Nat.eqb true [(3, 30)] (with_key Nat.eqb 1 [(1, 2); (3, 4)]) /\
  extract_to Nat.eqb 5 true 1 [(1, 2); (3, 4)] [(3, 30)] = Ok ([(3, 4)], [(3, 30); (1, 2)]) /\
  extract_to Nat.eqb 5 false 1 [(1, 2); (3, 4); (1, 5)] [(1, 30)] = Ok ([(3, 4)], [(1, 30); (1, 2); (1, 5)]) /\
  extract_all Nat.eqb 5 true [(1, 2); (3, 4)] [(3, 30)] = Ok ([], [(3, 30); (1, 2)]).
Proof.
  split; [|repeat split]. right. cbn. split; [constructor; [constructor|constructor]|].
  intros m n [<- | []] [<- | []]. reflexivity.
Qed.
Print Assumptions C341_moved_partial.
Print Assumptions C341_all_partial.
Print Assumptions C341_lost_refuted.
Print Assumptions C341_all_lost_refuted.

(** * C342 extract_matching. *)

(** Without a match extract_matching changes nothing.  Missing: everything else, see C342_refuted. *)
Theorem C342_none_partial :
  forall (E : Type) fuel (pred : E -> bool) (from : list (nat * E)) to,
  (forall n, In n from -> pred (snd n) = false) -> extract_matching fuel pred from to = Ok (from, to).
Proof. exact c342_none_partial. Qed.

(** With any match the iterator of the extracted node is used again. *)
Theorem C342_refuted :
  forall (E : Type) fuel (pred : E -> bool) (from : list (nat * E)) to, 2 <= fuel -> NoDup (map fst from) ->
  (exists n, In n from /\ pred (snd n) = true) -> extract_matching fuel pred from to = UB.
Proof. exact c342_refuted. Qed.

Example C342_nonvacuous :
  NoDup (map fst [(0, 10); (1, 11)]) /\ extract_matching 2 Nat.even [(0, 11); (1, 13)] [7] = Ok ([(0, 11); (1, 13)], [7]) /\
  extract_matching 2 Nat.even [(0, 11); (1, 12)] [7] = UB.
Proof. split; [repeat constructor; cbn; lia|]. split; reflexivity. Qed.
Print Assumptions C342_none_partial.
Print Assumptions C342_refuted.

(** * C343 consume_if. *)

(** consume_if removes the matching elements, as remove_if.  Missing: what func is called with, see C343_called_refuted. *)
Theorem C343_removes_partial :
  forall (A : Type) (pred : A -> bool) pre mid post,
  exists rest log,
    consume_if pred (length pre) (length pre + length mid) (pre ++ mid ++ post) =
      Ok (length pre + length (filter (fun x => negb (pred x)) mid),
          pre ++ filter (fun x => negb (pred x)) mid ++ rest ++ post, log) /\
    length rest + length (filter (fun x => negb (pred x)) mid) = length mid.
Proof. exact c343_removes_partial. Qed.

(** func is never called with a removed element; it is called with the kept elements behind the first removed one. *)
Theorem C343_called_refuted :
  forall (A : Type) (pred : A -> bool) pre mid post,
  exists first arr,
    consume_if pred (length pre) (length pre + length mid) (pre ++ mid ++ post) =
      Ok (first, arr, filter (fun x => negb (pred x)) (after_first pred mid)).
Proof. exact c343_called_refuted. Qed.

Example C343_nonvacuous :
  consume_if Nat.even 1 7 [100; 1; 2; 3; 4; 5; 6; 101] = Ok (4, [100; 1; 3; 5; 4; 5; 6; 101], [3; 5]).
Proof. reflexivity. Qed.
Print Assumptions C343_removes_partial.
Print Assumptions C343_called_refuted.

(** * C344 in_range, equal_to, less_than and the others. *)

(** From temporaries of a type whose moves copy: in_range refuses an empty interval, and all predicates test against the given values, whatever happens to variables later. *)
Theorem C344_temporaries_partial :
  forall (T : Type) (env env' : nat -> T) le op lo hi v x,
  (in_range_make env (fun v => v) le (Rv lo) (Rv hi) = if le lo hi then Ok (Own lo, Own hi) else Throw) /\
  in_range_call env' le (Own lo, Own hi) x = le lo x && le x hi /\
  cmp_call env' op (cmp_make (Rv v)) x = op x v.
Proof. exact c344_temporaries_partial. Qed.

(** Made from variables the predicates refer to them: they test against the values at the time of the call. *)
Theorem C344_variables_refuted :
  forall (T : Type) (env env' : nat -> T) mv le op a b x,
  (le (env a) (env b) = true -> exists r, in_range_make env mv le (Lv a) (Lv b) = Ok r /\
     in_range_call env' le r x = le (env' a) x && le x (env' b)) /\
  cmp_call env' op (cmp_make (Lv a)) x = op x (env' a).
Proof. exact c344_variables_refuted. Qed.

(** For types whose moves leave a fixed value behind, such as strings, the bounds are compared after they were moved away: every interval is accepted. *)
Theorem C344_moved_from_refuted :
  forall (T : Type) (env : nat -> T) (e : T) le lo hi, le e e = true ->
  in_range_make env (fun _ => e) le (Rv lo) (Rv hi) = Ok (Own lo, Own hi).
Proof. exact c344_moved_from_refuted. Qed.

Example C344_nonvacuous :
  in_range_make (fun _ => 0) (fun v => v) Nat.leb (Rv 3) (Rv 2) = Throw /\
  in_range_make (fun _ => 0) (fun _ => 0) Nat.leb (Rv 3) (Rv 2) = Ok (Own 3, Own 2) /\
  in_range_call (fun _ => 0) Nat.leb (Own 2, Own 5) 5 = true /\ in_range_call (fun _ => 0) Nat.leb (Own 2, Own 5) 6 = false.
Proof. repeat split. Qed.
Print Assumptions C344_temporaries_partial.
Print Assumptions C344_variables_refuted.
Print Assumptions C344_moved_from_refuted.
