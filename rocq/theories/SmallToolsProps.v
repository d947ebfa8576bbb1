(** The properties of the function table, array_cmp, create_bitset_from_set_positions,
    the caching iterator, the size literals and do_n: C253-C258.
    The vocabulary is in SpecSmallTools.v. *)
From Coq Require Import List ZArith Bool Lia Permutation.
From Verif Require Import Common Ints SpecBits SmallTools SpecSmallTools SmallToolsProofs.
Import ListNotations.
Open Scope Z_scope.

(** * C253 Tables of functions *)

(** call( idx, args... ) and operator( ) run the function at that index with those arguments. *)
Theorem C253_call :
  forall same allow_empty fs idx args f, 0 <= idx -> nth_error fs (Z.to_nat idx) = Some f -> f_takes f (map fst args) = true ->
  ft_call same allow_empty fs idx args = Ok (Answered (f_run f (map snd args))) /\
  ft_operator same allow_empty fs idx args = Ok (Answered (f_run f (map snd args))).
Proof. exact c253_call. Qed.

(** In a table of different types: a function that cannot take the arguments is called without them if that is allowed; otherwise, and for an index out of range, the program is aborted. *)
Theorem C253_other :
  forall allow_empty fs idx args, 0 <= idx ->
  (forall f, nth_error fs (Z.to_nat idx) = Some f -> f_takes f (map fst args) = false -> 
     ft_call false allow_empty fs idx args = Ok (if allow_empty && f_takes f [] then Answered (f_run f []) else Aborted)) /\
  (Z.of_nat (length fs) <= idx -> ft_call false allow_empty fs idx args = Ok Aborted /\ ft_operator false allow_empty fs idx args = Ok Aborted).
Proof. exact c253_other. Qed.

(** set replaces the function at that index and no other. *)
Theorem C253_set :
  forall same fs idx f t run, 0 <= idx -> nth_error fs (Z.to_nat idx) = Some f -> f_sets f t = true ->
  exists fs', ft_set same fs idx t run = Ok (Some fs') /\ length fs' = length fs /\
    nth_error fs' (Z.to_nat idx) = Some (Fn (f_takes f) (f_sets f) run) /\
    forall i, i <> Z.to_nat idx -> nth_error fs' i = nth_error fs i.
Proof. exact c253_set. Qed.

(** set of a function that cannot be assigned the value, or out of range, aborts in a table of different types. *)
Theorem C253_set_abort :
  forall fs idx t run, 0 <= idx ->
  (Z.of_nat (length fs) <= idx \/ exists f, nth_error fs (Z.to_nat idx) = Some f /\ f_sets f t = false) -> ft_set false fs idx t run = Ok None.
Proof. exact c253_set_abort. Qed.

(** In a table of one type an index out of range is not detected. *)
Theorem C253_same_type_refuted :
  forall allow_empty fs idx args t run, Z.of_nat (length fs) <= idx ->
  ft_call true allow_empty fs idx args = UB /\ ft_set true fs idx t run = UB.
Proof. exact c253_same_type_refuted. Qed.

(** operator( ) ignores its template parameter allow_empty. *)
Theorem C253_allow_empty_refuted :
  forall fs idx args f, 0 <= idx -> nth_error fs (Z.to_nat idx) = Some f -> f_takes f (map fst args) = false -> f_takes f [] = true ->
  ft_call false true fs idx args = Ok (Answered (f_run f [])) /\ ft_operator false true fs idx args = Ok Aborted.
Proof. exact c253_allow_empty_refuted. Qed.

(** A table of a sum of two arguments of type 0 and a constant. *)
Definition two_types (ts : list nat) : bool := match ts with [0%nat; 0%nat] => true | _ => false end.
Definition no_types (ts : list nat) : bool := match ts with [] => true | _ => false end.
Definition table : list fn := [Fn two_types (fun t => (t =? 1)%nat) (fold_right Z.add 0); Fn no_types (fun t => (t =? 2)%nat) (fun _ => 7)].
Example C253_nonvacuous :
  ft_call false false table 0 [(0%nat, 3); (0%nat, 4)] = Ok (Answered 7) /\ ft_call false true table 1 [(0%nat, 3)] = Ok (Answered 7) /\
  ft_operator false true table 1 [(0%nat, 3)] = Ok Aborted /\ ft_call false true table 2 [] = Ok Aborted /\ ft_call true true table 2 [] = UB /\
  option_map (map (fun f => f_run f [1; 2])) (match ft_set false table 1 2 (fun _ => 8) with Ok r => r | _ => None end) = Some [3; 8] /\ ft_set false table 1 1 (fun _ => 8) = Ok None.
Proof. repeat split. Qed.
Print Assumptions C253_call.
Print Assumptions C253_other.
Print Assumptions C253_set.
Print Assumptions C253_set_abort.
Print Assumptions C253_same_type_refuted.
Print Assumptions C253_allow_empty_refuted.

(** * C254 Comparing arrays *)

(** array_cmp gives the first result that is not equal, in memory order, and equal if there is none. *)
Theorem C254_first_difference :
  forall (T R : Type) (cmp : T -> T -> R) same eqv a b, (forall x y, same x y = true <-> x = y) -> same_shape a b ->
  first_result cmp eqv (flatten a) (flatten b) (array_cmp cmp same eqv a b).
Proof. exact c254_first_difference. Qed.

(** With the default comparison: true exactly if all elements are equal. *)
Theorem C254_equal :
  forall (T : Type) (eq : T -> T -> bool) a b, (forall x y, eq x y = true <-> x = y) -> same_shape a b ->
  (array_cmp eq Bool.eqb true a b = true <-> flatten a = flatten b).
Proof. exact c254_equal. Qed.

Example C254_nonvacuous :
  let a := Arr [Arr [Leaf 1; Leaf 2]; Arr [Leaf 3; Leaf 4]] in let b := Arr [Arr [Leaf 1; Leaf 2]; Arr [Leaf 5; Leaf 0]] in
  same_shape a b /\ array_cmp Z.compare (fun x y => match x, y with Eq, Eq | Lt, Lt | Gt, Gt => true | _, _ => false end) Eq a b = Lt /\ array_cmp Z.eqb Bool.eqb true a b = false /\
  array_cmp Z.eqb Bool.eqb true a a = true.
Proof. cbv zeta. split; [repeat constructor|]. repeat split. Qed.
Print Assumptions C254_first_difference.
Print Assumptions C254_equal.

(** * C255 A bitset from positions *)

(** The bit of each position is set, and no other. *)
Theorem C255_positions :
  forall dbg ty n ps, Z.of_nat n <= 2 ^ 63 -> Forall (fun p => 0 <= p < Z.of_nat n) ps ->
  exists b, create_bitset dbg ty n ps = Ok b /\ length b = n /\ forall i, nth_error b i = Some true <-> (i < n)%nat /\ In (Z.of_nat i) ps.
Proof. exact c255_positions. Qed.

(** A position out of range, negative or too large, never gives a bitset: an exception, or in a debug build the end of the program. *)
Theorem C255_out_of_range :
  forall dbg ty n ps, Z.of_nat n <= 2 ^ 63 -> std_width (width ty) -> Forall (fits ty) ps -> (exists p, In p ps /\ ~ 0 <= p < Z.of_nat n) ->
  create_bitset dbg ty n ps = Throw.
Proof. exact c255_out_of_range. Qed.

Example C255_nonvacuous :
  create_bitset true u8 6 [1; 4; 1] = Ok [false; true; false; false; true; false] /\ create_bitset false i32 6 [1; -1] = Throw /\ create_bitset true u64 6 [6] = Throw.
Proof. repeat split; vm_compute; reflexivity. Qed.
Print Assumptions C255_positions.
Print Assumptions C255_out_of_range.

(** * C256 The caching iterator *)

(** Every sequence of reads and moves sees the values a plain iterator sees, and reads each element once per stay at it. *)
Theorem C256_values :
  forall mem p ops, Forall reads_only ops ->
  match plain_run mem p ops with
  | Some (q, ys) => exists c, cl_run (cl_make mem p) ops = Ok (Cl mem (stays_read true ops) q c, ys)
  | None => cl_run (cl_make mem p) ops = UB
  end.
Proof. exact c256_values. Qed.

(** The reference is to the cache: a value that is written through it is never stored in the range. *)
Theorem C256_write_refuted :
  forall mem p x y, nth_error mem p = Some y ->
  (exists s, cl_run (cl_make mem p) [ClWrite x; ClRead; ClNext; ClPrev; ClRead] = Ok (s, [x; y])) /\
  forall q ops s ys, cl_run (cl_make mem q) ops = Ok (s, ys) -> cl_mem s = mem.
Proof. exact c256_write_refuted. Qed.

Example C256_nonvacuous :
  let ops := [ClRead; ClRead; ClPostNext; ClNext; ClRead; ClPostPrev; ClRead; ClPrev] in
  Forall reads_only ops /\ plain_run [5; 6; 7] 0 ops = Some (0%nat, [5; 5; 5; 7; 7; 6]) /\ stays_read true ops = 3%nat /\
  cl_run (cl_make [5; 6; 7] 0) ops = Ok (Cl [5; 6; 7] 3 0 None, [5; 5; 5; 7; 7; 6]) /\ cl_run (cl_make [5] 1) [ClRead] = UB.
Proof. cbv zeta. split; [repeat constructor|]. repeat split. Qed.
Print Assumptions C256_values.
Print Assumptions C256_write_refuted.

(** * C257 Size literals *)

(** The decimal and the binary units are exchanged: 1_KB is 1024 and 1_KiB is 1000. *)
Theorem C257_units_refuted :
  forall u x, 0 < x < 2 ^ 64 -> x * unit_size (other_unit u) < 2 ^ 64 ->
  literal u x = x * unit_size (other_unit u) /\ literal u x <> x * unit_size u.
Proof. exact c257_units_refuted. Qed.

(** A size of 2^64 or more wraps around. *)
Theorem C257_modulo :
  forall u x, 0 <= x < 2 ^ 64 -> literal u x = (x * unit_size (other_unit u)) mod 2 ^ 64.
Proof. exact c257_modulo. Qed.

Example C257_nonvacuous : literal KB 3 = 3072 /\ literal KiB 3 = 3000 /\ literal PB 16384 = 0.
Proof. repeat split; vm_compute; reflexivity. Qed.
Print Assumptions C257_units_refuted.
Print Assumptions C257_modulo.

(** * C258 Calling a function n times *)

(** do_n( count, f ) calls f count times, do_n_arg( count, f ) calls it with 0, ..., count - 1 in this order. *)
Theorem C258_do_n :
  forall (S : Type) (call : S -> S) call_with (n : nat) fuel s, Z.of_nat n < 2 ^ 64 -> (n < fuel)%nat ->
  do_n call fuel (Z.of_nat n) s = Ok (Nat.iter n call s) /\
  do_n_arg call_with fuel (Z.of_nat n) s = Ok (fold_left call_with (map Z.of_nat (seq 0 n)) s).
Proof. exact c258_do_n. Qed.

(** do_n<count>( f ) calls f count times. *)
Theorem C258_static :
  forall (S : Type) (call : S -> S) count order s, Permutation order (seq 0 count) -> do_n_static call order s = Nat.iter count call s.
Proof. exact c258_static. Qed.

(** do_n_arg<count, by_n>( f ) has the effect of the calls with 0, by_n, 2 by_n, ... below count, if by_n divides count and the order of the calls does not matter. (Partial: see the next two theorems.) *)
Theorem C258_static_arg_partial :
  forall (S : Type) (call_with : S -> Z -> S) count by_n order s, 0 <= count < 2 ^ 64 -> 0 < by_n -> count mod by_n = 0 -> commuting call_with ->
  Permutation order (seq 0 (static_count count by_n)) ->
  do_n_arg_static call_with order by_n s = fold_left call_with (multiples by_n count) s.
Proof. exact c258_static_arg_partial. Qed.

(** If by_n does not divide count the last multiple below count is left out. *)
Theorem C258_remainder_refuted :
  forall count by_n order, 0 <= count < 2 ^ 64 -> 0 < by_n -> count mod by_n <> 0 -> Permutation order (seq 0 (static_count count by_n)) ->
  exists m, In m (multiples by_n count) /\ 0 <= m < count /\ ~ In m (static_args order by_n).
Proof. exact c258_remainder_refuted. Qed.

(** The order of the calls is not specified: the compiler may choose one that is not ascending. *)
Theorem C258_order_refuted :
  forall count by_n, 0 <= count < 2 ^ 64 -> 0 < by_n -> (2 <= static_count count by_n)%nat ->
  exists order, Permutation order (seq 0 (static_count count by_n)) /\
    exists x y l, do_n_arg_static (fun log x => log ++ [x]) order by_n [] = x :: y :: l /\ y < x.
Proof. exact c258_order_refuted. Qed.

Example C258_nonvacuous :
  do_n (fun x => x + 2) 9 5 0 = Ok 10 /\ do_n_arg (fun log x => log ++ [x]) 9 3 [] = Ok [0; 1; 2] /\ static_count 10 3 = 3%nat /\ Permutation [2%nat; 0%nat; 1%nat] (seq 0 3) /\
  do_n_arg_static (fun log x => log ++ [x]) [2%nat; 0%nat; 1%nat] 3 [] = [6; 0; 3] /\ multiples 3 10 = [0; 3; 6; 9] /\ commuting Z.add /\ do_n_arg_static Z.add [2%nat; 0%nat; 1%nat] 3 0 = 9.
Proof.
  repeat split; try reflexivity; [|intros s x y; lia]. change (seq 0 3) with [0; 1; 2]%nat. apply Permutation_trans with [0; 2; 1]%nat; [apply perm_swap|apply perm_skip, perm_swap].
Qed.
Print Assumptions C258_do_n.
Print Assumptions C258_static.
Print Assumptions C258_static_arg_partial.
Print Assumptions C258_remainder_refuted.
Print Assumptions C258_order_refuted.
