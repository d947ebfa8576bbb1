(** Contracts, reading files, bound functions, named parameters, factories and tuple2_cat. *)
From Coq Require Import Permutation.
From Verif Require Import Common CallTools SpecCallTools CallToolsProofs.
Open Scope Z_scope.

(** * C271 Contracts *)

(** With a handler that does not return, as the default one, using a contract, converting it and adding conditions never is undefined: the value is given if all the preconditions on the way are met, and the handler is called otherwise. *)
Theorem C271_contract :
  forall (T : Type) pre (v : T) us,
  (Forall (meets v) (stages pre us) -> forall h, contract_program h pre v us = Ok (final_conditions pre us, v)) /\
  (~ Forall (meets v) (stages pre us) -> contract_program Fails pre v us = Throw).
Proof. exact c271_contract. Qed.

(** With a handler that returns, any use after a violated contract is undefined. *)
Theorem C271_returning_handler :
  forall (T : Type) pre (v : T) us u, ~ Forall (meets v) (stages pre us) -> contract_program Returns pre v (us ++ [u]) = UB.
Proof. exact c271_returning_handler. Qed.

Example C271_nonvacuous :
  let pos x := 0 <? x in let even := Z.even in
  contract_program Fails [pos] 4 [Access; AddCondition [even]; Access; Convert [even]] = Ok ([even], 4)
  /\ contract_program Fails [pos] 3 [Access; AddCondition [even]] = Throw /\ contract_program Fails [pos] (-4) [] = Throw
  /\ contract_program Returns [pos] 3 [Convert [even]; Access] = UB.
Proof. cbv zeta. repeat split. Qed.
Print Assumptions C271_contract.
Print Assumptions C271_returning_handler.

(** * C272 Reading files *)

(** A file that does not change is read whole. *)
Theorem C272_whole_file :
  forall max bytes, Z.of_nat (length bytes) <= max ->
  fst (read_file 1 max (File (Some (length bytes)) true bytes)) = Some bytes /\ read_file_or_terminate max (File (Some (length bytes)) true bytes) = Ok bytes.
Proof. exact c272_whole_file. Qed.

(** The version that terminates does so exactly when there is no result (termination is Throw here). *)
Theorem C272_terminate :
  forall max f, (fst (read_file 1 max f) = None -> read_file_or_terminate max f = Throw) /\ (forall s, fst (read_file 1 max f) = Some s -> read_file_or_terminate max f = Ok s).
Proof. exact c272_terminate. Qed.

(** Whatever the system answers, a result has the size the system gave and consists of the first bytes of the file: a file that shrinks while it is read, or cannot be read, gives no result. *)
Theorem C272_never_wrong :
  forall max f s, fst (read_file 1 max f) = Some s ->
  exists n, f_size f = Some n /\ length s = n /\ s = firstn n (f_bytes f) /\ (n = 0%nat \/ f_opens f = true).
Proof. exact c272_never_wrong. Qed.

(** Every file that has been opened stays open, whether it could be read or not. *)
Theorem C272_leak_refuted :
  forall w max n bytes, (0 < n)%nat -> Z.of_nat n <= max -> snd (read_file w max (File (Some n) true bytes)) = 1%nat.
Proof. exact c272_leak_refuted. Qed.

(** A file of k wide characters gives a string with as many characters as the file has bytes: the k characters, then zeros. *)
Theorem C272_wide_refuted :
  forall w max k bytes, (1 < w)%nat -> (0 < k)%nat -> length bytes = (k * w)%nat -> Z.of_nat (k * w) <= max ->
  exists s, fst (read_file w max (File (Some (length bytes)) true bytes)) = Some s /\ length s = length bytes /\
    s = chars_of w k bytes ++ repeat 0 (length bytes - k) /\ (k < length s)%nat.
Proof. exact c272_wide_refuted. Qed.

Example C272_nonvacuous : read_file 1 100 (File (Some 3%nat) true [104; 105; 33]) = (Some [104; 105; 33], 1%nat)
  /\ read_file 1 100 (File (Some 3%nat) true [104; 105]) = (None, 1%nat) /\ read_file 1 100 (File None true [1]) = (None, 0%nat)
  /\ read_file 1 2 (File (Some 3%nat) true [1; 2; 3]) = (None, 0%nat) /\ read_file 2 100 (File (Some 4%nat) true [104; 0; 1; 2]) = (Some [104; 513; 0; 0], 1%nat).
Proof. repeat split. Qed.
Print Assumptions C272_whole_file.
Print Assumptions C272_terminate.
Print Assumptions C272_never_wrong.
Print Assumptions C272_leak_refuted.
Print Assumptions C272_wide_refuted.

(** * C273 Functions with bound arguments *)

(** Calling a function bound at position n, any number of times, is calling the function with the bound arguments, unchanged by earlier calls, inserted before argument n. *)
Theorem C273_bound_calls :
  forall (A R S : Type) n (func : S -> list A -> res (S * R)) bound calls s, Forall (fun args => (n <= length args)%nat) calls ->
  bound_calls n func bound s calls = Some (direct_calls func s (map (inserted n bound) calls)).
Proof. exact c273_bound_calls. Qed.

Example C273_nonvacuous : bound_calls 1 (fun s args => Ok (s + 1, s :: args)) [7; 8] 0 [[1; 2]; [3]] = Some (Ok (2, [[0; 1; 7; 8; 2]; [1; 3; 7; 8]])).
Proof. reflexivity. Qed.
Print Assumptions C273_bound_calls.

(** * C274 Named parameters *)

(** If no option is given twice, the value of an option is the one given, and the default if none is given. *)
Theorem C274_named_option :
  forall (V : Type) (def : option_arg V) opts, NoDup (map o_type opts) ->
  exists v, get_opt def opts = Some v /\ forall x, option_value def opts x <-> x = v.
Proof. exact c274_named_option. Qed.

(** The order of the options does not matter. *)
Theorem C274_any_order :
  forall (V : Type) (def : option_arg V) opts opts', NoDup (map o_type opts) -> Permutation opts opts' -> get_opt def opts' = get_opt def opts.
Proof. exact c274_any_order. Qed.

(** An option given twice, once as an rvalue and once as an lvalue, is not noticed: the first one is used. *)
Theorem C274_repeated_refuted :
  forall (V : Type) (def : option_arg V) t c c' a b rest, c <> c' -> t = o_type def -> NoDup (map o_type (OptionArg t c a :: rest)) ->
  get_opt def (OptionArg t c a :: OptionArg t c' b :: rest) = Some a /\ get_opt def (OptionArg t c' b :: OptionArg t c a :: rest) = Some b.
Proof. exact c274_repeated_refuted. Qed.

Example C274_nonvacuous : get_opt (OptionArg 2 0 10) [OptionArg 1 0 11; OptionArg 2 1 12; OptionArg 3 0 13] = Some 12
  /\ get_opt (OptionArg 4 0 10) [OptionArg 1 0 11; OptionArg 2 1 12] = Some 10 /\ get_opt (OptionArg 2 0 10) [OptionArg 2 0 11; OptionArg 2 0 12] = None
  /\ get_opt (OptionArg 2 0 10) [OptionArg 2 0 11; OptionArg 2 1 12] = Some 11.
Proof. repeat split. Qed.
Print Assumptions C274_named_option.
Print Assumptions C274_any_order.
Print Assumptions C274_repeated_refuted.

(** * C275 Piecewise factories *)

(** An object is made from what was set last for each argument; functions of the late factory are called once, when it is made, and making an object does not change the factory. *)
Theorem C275_factory :
  forall (V S : Type) n (ops : list (factory_op V S)) s vs s', Forall (setting n) ops -> arguments (fun i => latest i ops None) 0 n s vs s' ->
  exists m, factory_run (factory n) s (ops ++ [Make]) = Ok (m, s', [vs]) /\ factory_run (factory n) s ops = Ok (m, s, []).
Proof. exact c275_factory. Qed.

(** Setting by a number at run time: one that is too large throws, a function is called at once, and a value of another type is ignored. *)
Theorem C275_index :
  forall (V S : Type) (m : slots V S) s n g,
  ((length m <= n)%nat -> factory_step m s (SetIndex n g) = Throw) /\
  ((n < length m)%nat -> forall f v s', g = GivenFunction f -> f s = Ok (v, s') -> factory_step m s (SetIndex n g) = factory_step m s' (SetAt n v)) /\
  ((n < length m)%nat -> g = GivenOther -> factory_step m s (SetIndex n g) = Ok (m, s, [])).
Proof. exact c275_index. Qed.

(** Making an object when an argument has not been set is undefined, although there is a message for it. *)
Theorem C275_unset_refuted :
  forall (V S : Type) n (ops : list (factory_op V S)) s i vs s', Forall (setting n) ops -> (i < n)%nat -> arguments (fun i => latest i ops None) 0 i s vs s' ->
  latest i ops None = None -> factory_run (factory n) s (ops ++ [Make]) = UB.
Proof. exact c275_unset_refuted. Qed.

Example C275_nonvacuous : let tick s := Ok (s, s + 1) in
  factory_run (factory 3) 5 [SetAt 0 1; SetFunction 1 tick; SetIndex 2 (GivenValue 9); SetAt 0 2; SetIndex 2 GivenOther; Make; Make] =
    Ok ([Some (Value 2); Some (Function tick); Some (Value 9)], 7, [[2; 5; 9]; [2; 6; 9]])
  /\ factory_run (factory 2) 0 [SetAt 0 1; Make] = UB /\ factory_run (factory 2) 0 [SetIndex 2 (GivenValue 1)] = Throw
  /\ arguments (fun i => latest i [SetFunction 1 tick; SetAt 0 4] None) 0 2 5 [4; 5] 6.
Proof.
  cbv zeta. split; [reflexivity|]. split; [reflexivity|]. split; [reflexivity|].
  eapply args_value; [reflexivity|]. eapply args_function; [reflexivity|reflexivity|]. apply args_none.
Qed.
Print Assumptions C275_factory.
Print Assumptions C275_index.
Print Assumptions C275_unset_refuted.

(** * C276 Concatenating tuples *)

(** Concatenating tuples gives all the elements of all of them in order. *)
Theorem C276_tuple2_cat :
  forall (A : Type) (tps : list (list A)), (length tps <> 1)%nat -> Z.of_nat (length tps) <= 2 ^ 32 -> Forall (fun t => Z.of_nat (length t) <= 2 ^ 32) tps ->
  tuple2_cat tps = Some (concat tps).
Proof. exact c276_tuple2_cat. Qed.

Example C276_nonvacuous : tuple2_cat [[1; 2]; []; [3; 4; 5]] = Some [1; 2; 3; 4; 5] /\ encode_location 3 4 = 12884901892.
Proof. split; reflexivity. Qed.
Print Assumptions C276_tuple2_cat.
