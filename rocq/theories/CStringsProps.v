(** C strings and generate_n: theorems. *)
From Verif Require Import Common CStrings SpecCStrings CStringsProofs.

(** * C334 C strings that own nothing *)

(** CStrings that own nothing are pointers: constructing, moving, swapping, nullifying and destroying them copies pointers and never changes or frees the characters. *)
Theorem C334_history :
  forall m os vs xs, strings m -> views m vs xs -> Forall borrowing os ->
  match n_run (length m) xs os with
  | Some ys => exists ws, c_run (m, vs) os = Ok (m, ws) /\ views m ws ys
  | None => c_run (m, vs) os = UB
  end.
Proof. exact c334_history. Qed.

(** to_string and size give the characters before the first NUL; the null string is empty. *)
Theorem C334_observers :
  forall m s p, strings m -> view_of m (Some s) (Some p) ->
  c_to_string m s = Ok (pointee m p) /\ c_size s = length (pointee m p) /\
  (c_is_null s = true <-> p = None) /\ (c_empty s = true <-> pointee m p = []) /\ c_bool s = negb (c_empty s).
Proof. exact c334_observers. Qed.

(** [] reads the characters, and the NUL at size( ). *)
Theorem C334_index :
  forall m s a b i, nth_error m a = Some b -> b_live b = true -> terminated (b_chars b) -> view_of m (Some s) (Some (Some a)) ->
  (forall c, nth_error (text (b_chars b)) i = Some c -> c_at m s i = Ok c) /\ c_at m s (c_size s) = Ok 0%Z.
Proof. exact c334_index. Qed.

(** Without a NUL the constructor reads past the end of the array. *)
Theorem C334_no_nul :
  forall m a b, nth_error m a = Some b -> b_live b = true -> ~ terminated (b_chars b) -> c_of m (Some a) = UB.
Proof. exact c334_no_nul. Qed.

Example C334_nonvacuous : let m := [Buf [104; 105; 0; 7]%Z false true; Buf [0]%Z false true] in
  strings m /\ views m [None; None; None] [None; None; None] /\
  c_run (m, [None; None; None]) [COf 0 0; CDefault 1; CSwap 0 1; CMoveTo 2 1; CAssign 0 2; CNullify 1; CDestroy 2] =
    Ok (m, [Some (CStr (Some 0) 2 false); Some (CStr None 0 false); None]) /\
  c_to_string m (CStr (Some 0) 2 false) = Ok [104; 105]%Z.
Proof.
  cbn. split; [constructor; [split; [reflexivity|right; right; left; reflexivity]|constructor; [split; [reflexivity|left; reflexivity]|constructor]]|].
  split; [repeat constructor|]. split; reflexivity.
Qed.
Print Assumptions C334_history.
Print Assumptions C334_observers.
Print Assumptions C334_index.
Print Assumptions C334_no_nul.

(** * C335 Ownership *)

(** Without moves: destroying an owner frees its buffer and no other, and no buffer is freed twice. *)
Theorem C335_exclusive_partial :
  forall os m vs, exclusive m vs -> Forall moves_nothing os ->
  match o_run (map holds vs) os with
  | Some (ys, freed) => exists m' ws, c_run (m, vs) os = Ok (m', ws) /\ map holds ws = ys /\ exclusive m' ws /\
      NoDup freed /\ after_freeing freed m m' /\ (forall a, In a freed -> a < length m)
  | None => c_run (m, vs) os = UB
  end.
Proof. exact c335_exclusive_partial. Qed.

(** Owners of different buffers free all of them once when they are destroyed, whatever swaps were done before. *)
Theorem C335_scope_end_partial :
  forall m vs ps, Forall owns vs -> Permutation (pointers vs) (seq 0 (length m)) ->
  Forall (fun b => b_live b = true /\ b_heap b = true) m ->
  Forall (fun p => fst p < length vs /\ snd p < length vs) ps ->
  exists ws, c_run (m, vs) (map (fun p => CSwap (fst p) (snd p)) ps ++ map CDestroy (seq 0 (length vs))) = Ok (map dead m, ws) /\
    Forall (fun v => v = None) ws.
Proof. exact c335_scope_end_partial. Qed.

(** After an owner was moved from, both objects own the buffer: it is deleted twice. *)
Theorem C335_double_delete_refuted :
  forall m a b, nth_error m a = Some b -> b_live b = true -> b_heap b = true -> terminated (b_chars b) ->
  c_run (m, [None; None]) [COf 0 a; COwn 0; CMoveTo 1 0; CDestroy 1] = Ok (upd m a (dead b), [Some (CStr (Some a) (length (text (b_chars b))) true); None]) /\
  c_run (m, [None; None]) [COf 0 a; COwn 0; CMoveTo 1 0; CDestroy 1; CDestroy 0] = UB.
Proof. exact c335_double_delete_refuted. Qed.

(** Move assignment to an owner forgets its buffer: it is never freed. *)
Theorem C335_leak_refuted :
  forall m a b c d, nth_error m a = Some b -> b_live b = true -> terminated (b_chars b) ->
  nth_error m c = Some d -> b_live d = true -> terminated (b_chars d) ->
  c_run (m, [None; None]) [COf 0 a; COwn 0; COf 1 c; CAssign 0 1; CDestroy 0; CDestroy 1] = Ok (m, [None; None]).
Proof. exact c335_leak_refuted. Qed.

Example C335_nonvacuous : let m := [Buf [65; 0]%Z true true; Buf [0]%Z true true] in
  let vs := [Some (CStr (Some 1) 0 true); Some (CStr (Some 0) 1 true)] in
  Forall owns vs /\ Permutation (pointers vs) (seq 0 (length m)) /\ Forall (fun b => b_live b = true /\ b_heap b = true) m /\
  c_run (m, vs) [CSwap 0 1; CDestroy 0] = Ok ([Buf [65; 0]%Z true false; Buf [0]%Z true true], [None; Some (CStr (Some 1) 0 true)]).
Proof.
  cbn. split; [repeat constructor; do 2 eexists; reflexivity|]. split; [apply perm_swap|]. split; [repeat constructor|reflexivity].
Qed.
(** Only memory of new[] may be given to a string: a string that takes ownership of a literal deletes it. *)
Theorem C335_literal :
  forall m a b, nth_error m a = Some b -> b_live b = true -> b_heap b = false -> terminated (b_chars b) ->
  c_run (m, [None]) [COf 0 a; CDestroy 0] = Ok (m, [None]) /\ c_run (m, [None]) [COf 0 a; COwn 0; CDestroy 0] = UB.
Proof. exact c335_literal_l. Qed.
Print Assumptions C335_literal.
Print Assumptions C335_exclusive_partial.
Print Assumptions C335_scope_end_partial.
Print Assumptions C335_double_delete_refuted.
Print Assumptions C335_leak_refuted.

(** * C336 Comparisons *)

(** The six operators compare the texts in the order of the first different character. *)
Theorem C336_operators :
  forall m l r p q o, strings m -> view_of m (Some l) (Some (Some p)) -> view_of m (Some r) (Some (Some q)) ->
  Forall (fun b => bytes (b_chars b)) m ->
  exists v, c_op o m l r = Ok v /\ (v = true <-> says o (pointee m (Some p)) (pointee m (Some q))).
Proof. exact c336_operators. Qed.

(** This order is strict and total. *)
Theorem C336_order :
  forall s t u : list Z, ~ before s s /\ (before s t -> before t u -> before s u) /\ (before s t \/ s = t \/ before t s).
Proof. exact c336_order. Qed.

(** Comparing the null string, even for equality, is undefined. *)
Theorem C336_null_refuted :
  forall m l r o, c_data l = None -> c_op o m l r = UB.
Proof. exact c336_null_refuted. Qed.

Example C336_nonvacuous : let m := [Buf [104; 105; 0; 7]%Z false true; Buf [104; 0]%Z false true] in
  c_op CLt m (CStr (Some 1) 1 false) (CStr (Some 0) 2 false) = Ok true /\ c_op CGe m (CStr (Some 1) 1 false) (CStr (Some 0) 2 false) = Ok false /\
  says CLt [104]%Z [104; 105]%Z.
Proof. cbn. split; [reflexivity|]. split; [reflexivity|]. apply before_later, before_end. Qed.
Print Assumptions C336_operators.
Print Assumptions C336_order.
Print Assumptions C336_null_refuted.

(** * C337 generate_n *)

(** A loop over generate_n( n, f ) sees the results of n calls of f, in order, in every pass over it. *)
Theorem C337_values :
  forall (S V : Type) (call : S -> V * S) n f, generate_n call n f = Ok (results call n f) /\ length (results call n f) = n.
Proof. exact c337_values. Qed.

(** Each iterator has its own copy of the function: what a dereference gives depends only on how often this iterator, and those it was copied from, were dereferenced. *)
Theorem C337_history :
  forall (S V : Type) (call : S -> V * S) n f os its, g_run call n f (map (counted call f) its) os = match k_run its os with
  | Some (js, ks) => Ok (map (counted call f) js, map (fun k => fst (call (after call k f))) ks)
  | None => UB
  end.
Proof. exact c337_history. Qed.

(** Result k is that of the function after k calls. *)
Theorem C337_calls :
  forall (S V : Type) (call : S -> V * S) n f k, k < n -> nth_error (results call n f) k = Some (fst (call (after call k f))).
Proof. exact c337_calls. Qed.

(** Dereferencing an iterator twice gives two different elements, although the position is the same. *)
Theorem C337_twice_refuted :
  forall (S V : Type) (call : S -> V * S) n f it, exists its, g_run call n f [it] [GBegin 0; GDeref 0; GDeref 0] = Ok (its, results call 2 f).
Proof. exact c337_twice_refuted. Qed.

(** A loop with *it++ sees the first result n times: the function of the copy is called, not that of the iterator. *)
Theorem C337_post_increment_refuted :
  forall (S V : Type) (call : S -> V * S) n f, generate_post call n f = Ok (repeat (fst (call f)) n).
Proof. exact c337_post_increment_refuted. Qed.

Example C337_nonvacuous : let call := fun s => (s * s, s + 1) in generate_n call 4 1 = Ok [1; 4; 9; 16] /\
  generate_post call 3 2 = Ok [4; 4; 4] /\
  g_run call 4 1 [Git 0 0; Git 0 0] [GBegin 0; GDeref 0; GCopy 1 0; GDeref 0; GInc 1; GDeref 1; GPostInc 1 0] =
    Ok ([Git 1 3; Git 0 3], [1; 4; 4]).
Proof. repeat split. Qed.
Print Assumptions C337_values.
Print Assumptions C337_history.
Print Assumptions C337_calls.
Print Assumptions C337_twice_refuted.
Print Assumptions C337_post_increment_refuted.
