(** Theorems about ordered_map (C207) and quick_sort (C208). *)
From Coq Require Import Permutation Lia.
From Verif Require Import Common OldMap SpecOldMap OldMapProofs.
Open Scope nat_scope.

Section C207.
  Context {K V : Type} (comp : K -> K -> bool) (dflt : V) (SW : strict_weak comp).
  (** Any history: the keys are in the order of their first insertion, no key is there
      twice, and every key has the value the history gives it. *)
  Theorem C207_ordered_map_history os : exists m, om_run comp dflt os [] = Ok m /\
    map fst m = fst (spec_run comp dflt os) /\ distinct comp (map fst m) /\
    forall k, read_key comp m k = match snd (spec_run comp dflt os) k with Some v => Ok v | None => Throw end.
  Proof. exact (om_history comp dflt SW os). Qed.
  (** What insert returns. *)
  Theorem C207_ordered_map_insert os m k v : om_run comp dflt os [] = Ok m ->
    exists m' p b, om_insert comp m k v = (m', p, b) /\ b = (match snd (spec_run comp dflt os) k with None => true | Some _ => false end) /\
      exists k' v', nth_error m' p = Some (k', v') /\ same_key comp k' k = true /\
        (b = true -> k' = k /\ v' = v /\ m' = m ++ [(k, v)]) /\ (b = false -> m' = m).
  Proof. exact (om_insert_result comp dflt SW os m k v). Qed.
  (** Later operations other than clear( ) only append keys. *)
  Theorem C207_ordered_map_order os os' : Forall (fun o => o <> MClear) os' -> exists m m' t,
    om_run comp dflt os [] = Ok m /\ om_run comp dflt (os ++ os') [] = Ok m' /\ map fst m' = map fst m ++ t.
  Proof. exact (om_order comp dflt SW os os'). Qed.
End C207.
Print Assumptions C207_ordered_map_history.
Print Assumptions C207_ordered_map_insert.
Print Assumptions C207_ordered_map_order.
Example C207_example :
  om_run Nat.ltb 0 [MInsert 5 50; MIndexSet 2 20; MInsert 5 51; MIndex 9; MAtSet 2 21; MAtSet 7 1] [] = Ok [(5, 50); (2, 21); (9, 0)].
Proof. reflexivity. Qed.

Section C208.
  Context {T : Type} (comp : T -> T -> bool) (SW : strict_weak comp).
  (** For any std::partition and fewer than 512 elements: a rearrangement, whose first element is a smallest. *)
  Theorem C208_quick_sort_partial order l : partitions order -> length l < 512 ->
    exists l', quick_sort comp order l = Ok l' /\ Permutation l' l /\ least_first comp l'.
  Proof. exact (quick_sort_partial comp SW order l). Qed.
  Theorem C208_quick_sort_three_partial order l : partitions order -> length l <= 3 ->
    exists l', quick_sort comp order l = Ok l' /\ Permutation l' l /\ sorted_by comp l'.
  Proof. exact (quick_sort_small comp SW order l). Qed.
End C208.
(** Whatever std::partition does, some five numbers are not sorted. *)
Theorem C208_quick_sort_refuted order : partitions order ->
  exists l l', length l = 5 /\ quick_sort Nat.ltb order l = Ok l' /\ ~ sorted_by Nat.ltb l'.
Proof. exact (quick_sort_unsorted order). Qed.
(** With 512 or more elements the stack of segments can overflow. *)
Theorem C208_quick_sort_stack_refuted k : 256 <= k ->
  length (killer k) = 2 * k /\ partitions stable /\ quick_sort Nat.ltb stable (killer k) = UB.
Proof. exact (fun H => conj (killer_length k) (conj stable_partitions (quick_sort_killer k H))). Qed.
Print Assumptions C208_quick_sort_partial.
Print Assumptions C208_quick_sort_three_partial.
Print Assumptions C208_quick_sort_refuted.
Print Assumptions C208_quick_sort_stack_refuted.
Example C208_example : quick_sort Nat.ltb stable [1; 4; 0; 3; 5] = Ok [0; 1; 4; 3; 5] /\ quick_sort Nat.ltb stable [3; 1; 2] = Ok [1; 2; 3].
Proof. split; reflexivity. Qed.
