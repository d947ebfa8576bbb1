(** Tuples: theorems. *)
From Verif Require Import Common Ints BitsProofs Tuples SpecTuples TuplesProofs.
Open Scope nat_scope.

(** * C327 daw::tuple *)

(** get< k > of a tuple made of some arguments is the k-th of them, read from the object for a reference. *)
Theorem C327_get :
  forall (V : Type) (mem : list V) (cs : list (cell V)) vs k, shows mem cs vs ->
  t_get mem (make_tuple cs) k = nth_error vs k /\ t_size (make_tuple cs) = length vs.
Proof. exact c327_get. Qed.

(** Assigning through get changes that element only, or the object that the element refers to: a tuple stays a list of its elements. *)
Theorem C327_history :
  forall (V : Type) (os : list (top V)) (mem : list V) (cs : list (cell V)),
  t_run (mem, make_tuple cs) os = match l_run (mem, cs) os with Some (m, l) => Some (m, make_tuple l) | None => None end.
Proof. exact c327_history. Qed.

(** == holds if the sizes are equal and all elements are; no element after the first difference is compared. *)
Theorem C327_equal :
  forall (V : Type) (eq : V -> V -> bool) (mem : list V) cs ds vs ws, shows mem cs vs -> shows mem ds ws ->
  exists b, t_eq eq mem (make_tuple cs) (make_tuple ds) = Some (b, comparisons eq vs ws) /\
  (b = true <-> Forall2 (fun x y => eq x y = true) vs ws).
Proof. exact c327_equal. Qed.

(** != is its negation. *)
Theorem C327_not_equal :
  forall (V : Type) (eq ne : V -> V -> bool) (mem : list V) cs ds vs ws, (forall x y, ne x y = negb (eq x y)) ->
  shows mem cs vs -> shows mem ds ws -> exists b, t_ne ne mem (make_tuple cs) (make_tuple ds) = Some (b, comparisons eq vs ws) /\
  (b = false <-> Forall2 (fun x y => eq x y = true) vs ws).
Proof. exact c327_not_equal. Qed.

(** apply calls the function with all elements, in order. *)
Theorem C327_apply :
  forall (V R : Type) (f : list V -> R) (mem : list V) cs vs, shows mem cs vs -> t_apply f mem (make_tuple cs) = Some (f vs).
Proof. exact c327_apply. Qed.

Example C327_nonvacuous : shows [7; 8] [Own 1; Ref 1; Own 3] [1; 8; 3] /\
  t_run ([7; 8], make_tuple [Own 1; Ref 1; Own 3]) [TSet 1 5; TSet 2 4; TMem 0 6] = Some ([6; 5], make_tuple [Own 1; Ref 1; Own 4]) /\
  t_eq Nat.eqb [7; 8] (make_tuple [Own 1; Ref 1; Own 3]) (make_tuple [Own 1; Own 9; Own 3]) = Some (false, 2) /\
  t_ne (fun x y => negb (Nat.eqb x y)) [] (make_tuple [Own 1; Own 2]) (make_tuple [Own 1]) = Some (true, 0).
Proof. split; [repeat constructor|repeat split]. Qed.
Print Assumptions C327_get.
Print Assumptions C327_history.
Print Assumptions C327_equal.
Print Assumptions C327_not_equal.
Print Assumptions C327_apply.

(** * C328 enumerate_tuple *)

(** Element i of an enumerated tuple is i and the element, if i is a value of the type of the indices. *)
Theorem C328_index_partial :
  forall (V : Type) T (vals : list V) i v, (0 < width T)%Z -> nth_error vals i = Some v -> (Z.of_nat i <= highest T)%Z ->
  enum_get T vals i = Some (Z.of_nat i, v).
Proof. exact c328_index_partial. Qed.

(** Two elements have different indices if the tuple has no more elements than the type has values. *)
Theorem C328_distinct_partial :
  forall (V : Type) T (vals : list V) i j k l v w, (0 < width T)%Z -> (Z.of_nat (length vals) <= 2 ^ width T)%Z -> i <> j ->
  enum_get T vals i = Some (k, v) -> enum_get T vals j = Some (l, w) -> k <> l.
Proof. exact c328_distinct_partial. Qed.

(** Else elements share their index. *)
Theorem C328_wraps_refuted :
  forall (V : Type) T (vals : list V) i j v w, (0 < width T)%Z -> (Z.of_nat j = Z.of_nat i + 2 ^ width T)%Z ->
  nth_error vals i = Some v -> nth_error vals j = Some w ->
  exists k, enum_get T vals i = Some (k, v) /\ enum_get T vals j = Some (k, w).
Proof. exact c328_wraps_refuted. Qed.

(** With a signed type, an element has the lowest value of the type as its index. *)
Theorem C328_negative_refuted :
  forall (V : Type) T (vals : list V) i v, (0 < width T)%Z -> signed T = true -> Z.of_nat i = (2 ^ (width T - 1))%Z ->
  nth_error vals i = Some v -> enum_get T vals i = Some ((- 2 ^ (width T - 1))%Z, v).
Proof. exact c328_negative_refuted. Qed.

Example C328_nonvacuous : enum_get u8 [true; false] 1 = Some (1%Z, false) /\
  enum_get u8 (repeat true 257) 256 = Some (0%Z, true) /\ enum_get i8 (repeat true 129) 128 = Some ((-128)%Z, true).
Proof. repeat split; vm_compute; reflexivity. Qed.
Print Assumptions C328_index_partial.
Print Assumptions C328_distinct_partial.
Print Assumptions C328_wraps_refuted.
Print Assumptions C328_negative_refuted.

(** * C329 daw::array *)

(** A bounded array is a list of fixed length: fill sets all elements, also to one of its own elements; access outside is undefined. *)
Theorem C329_history :
  forall (V : Type) (os : list (aop V)) a, a_run a os = match a_spec_run a os with Some b => Ok b | None => UB end.
Proof. exact c329_history. Qed.

(** The size never changes. *)
Theorem C329_size :
  forall (V : Type) (os : list (aop V)) a b, a_run a os = Ok b -> length b = length a.
Proof. exact c329_size. Qed.

(** front, back and []. *)
Theorem C329_ends :
  forall (V : Type) (a : list V) x, a_front (x :: a) = Ok x /\ a_back (a ++ [x]) = Ok x /\
  (forall i y, nth_error a i = Some y -> a_at a i = Ok y).
Proof. exact c329_ends. Qed.

(** == compares all elements and != is its negation. *)
Theorem C329_equal :
  forall (V : Type) (eq : V -> V -> bool) (a b : list V),
  (a_eq eq a b = true <-> Forall2 (fun x y => eq x y = true) a b) /\ a_ne eq a b = negb (a_eq eq a b).
Proof. exact c329_equal. Qed.

Example C329_nonvacuous : a_run [1; 2; 3] [ASet 1 7; AFillFrom 1; ASetFront 0; ASetBack 9] = Ok [0; 7; 9] /\
  a_run [1; 2] [AFill 4; ASet 2 0] = UB /\ a_eq Nat.eqb [1; 2] [1; 3] = false.
Proof. repeat split. Qed.
Print Assumptions C329_history.
Print Assumptions C329_size.
Print Assumptions C329_ends.
Print Assumptions C329_equal.

(** * C330 bit_cast_for_each, transform and copy *)

(** bit_cast_for_each calls the function with every element of the range as a T, in order. *)
Theorem C330_for_each :
  forall T (mem : list Z) n first, first + n <= length mem ->
  bc_for_each T mem first n = Ok (map (conv T) (firstn n (skipn first mem))).
Proof. exact c330_for_each. Qed.

(** bit_cast_transform writes the result for every element, also in place, and changes nothing else. *)
Theorem C330_transform :
  forall T U f n (mem : list Z) first out, first + n <= length mem -> out + n <= length mem ->
  out <= first \/ first + n <= out ->
  bc_transform T U f mem first n out =
  Ok (overwrite mem out (map (fun x => wrap (width T) (conv U (f (conv T x)))) (firstn n (skipn first mem)))).
Proof. exact c330_transform. Qed.

(** bit_cast_copy copies the bit patterns, whatever T is, unless the destination begins inside of the source. *)
Theorem C330_copy_partial :
  forall T n (mem : list Z) first out, (0 < width T)%Z -> patterns (width T) mem ->
  first + n <= length mem -> out + n <= length mem -> out <= first \/ first + n <= out ->
  bc_copy T mem first n out = Ok (overwrite mem out (firstn n (skipn first mem))).
Proof. exact c330_copy_partial. Qed.

(** If it begins d elements after the source, the first d elements are repeated: for d < n the source is not copied. *)
Theorem C330_overlap_refuted :
  forall T d n (mem : list Z) first, (0 < width T)%Z -> 0 < d -> patterns (width T) mem -> first + d + n <= length mem ->
  exists m, bc_copy T mem first n (first + d) = Ok m /\ length m = length mem /\
  forall j, nth_error m j = if (first + d <=? j) && (j <? first + d + n) then nth_error mem (first + (j - (first + d)) mod d) else nth_error mem j.
Proof. exact c330_overlap_refuted. Qed.

Example C330_nonvacuous : patterns 8 [200; 1; 2; 3]%Z /\ bc_for_each i8 [200; 1]%Z 0 2 = Ok [-56; 1]%Z /\
  bc_transform i8 u8 Z.opp [200; 1; 2; 3]%Z 0 4 0 = Ok [56; 255; 254; 253]%Z /\ bc_copy i8 [200; 1; 2; 3]%Z 0 3 1 = Ok [200; 200; 200; 200]%Z /\
  bc_copy i8 [200; 1; 2; 3]%Z 1 3 0 = Ok [1; 2; 3; 3]%Z.
Proof. split; [repeat constructor; cbn; lia|repeat split]. Qed.
Print Assumptions C330_for_each.
Print Assumptions C330_transform.
Print Assumptions C330_copy_partial.
Print Assumptions C330_overlap_refuted.

(** * C331 print, println and dump *)

(** print writes the arguments in the places of the fields; doubled braces are braces; println appends a newline and does not format the arguments again. *)
Theorem C331_fields :
  forall last ts args, length ts <= length args ->
  print (fields ts last) args = Ok (filled ts args last) /\ println (fields ts last) args = Ok (filled ts args last ++ [10%Z]).
Proof. exact c331_fields. Qed.

(** With too few arguments nothing is printed. *)
Theorem C331_too_few :
  forall last ts args, length args < length ts -> print (fields ts last) args = Throw /\ println (fields ts last) args = Throw.
Proof. exact c331_too_few. Qed.

(** dump writes every argument and a space after it, then a newline, for any number of arguments. *)
Theorem C331_dump :
  forall args, dump args = Ok (concat (map (fun a => a ++ [32%Z]) args) ++ [10%Z]).
Proof. exact c331_dump. Qed.

Example C331_nonvacuous : print [97; 123; 125; 123; 123]%Z [[123; 125]]%Z = Ok [97; 123; 125; 123]%Z /\
  dump [[49]; [50; 51]]%Z = Ok [49; 32; 50; 51; 32; 10]%Z /\ dump [] = Ok [10]%Z /\ print [123; 125]%Z [] = Throw /\
  fields [[97]; []]%Z [123]%Z = [97; 123; 125; 123; 125; 123; 123]%Z.
Proof. repeat split. Qed.
Print Assumptions C331_fields.
Print Assumptions C331_too_few.
Print Assumptions C331_dump.

(** * C332 fwd_pack *)

(** A pack of references makes no copies; apply calls the function with the values that the objects have then, in order. *)
Theorem C332_references :
  forall (V : Type) (mem : objs V) is os m2 vs, m_run mem os = Ok m2 -> Forall2 (fun i v => nth_error m2 i = Some (Some v)) is vs ->
  pack_make mem (map ByRef is) = (mem, is) /\ pack_apply m2 is = Ok vs.
Proof. exact c332_references. Qed.

(** get of a reference is the object as it is then; undefined if the object has ended. *)
Theorem C332_get :
  forall (V : Type) (mem : objs V) args mem' ls os m2 k i, pack_make mem args = (mem', ls) -> nth_error args k = Some (ByRef i) ->
  m_run mem' os = Ok m2 -> pack_get m2 ls k = match nth_error m2 i with Some (Some v) => Ok v | _ => UB end.
Proof. exact c332_get. Qed.

(** An element that is not a reference has the address of a parameter of the constructor: using it is always undefined. *)
Theorem C332_value_refuted :
  forall (V : Type) (mem : objs V) args mem' ls os m2 k v, pack_make mem args = (mem', ls) -> nth_error args k = Some (ByVal v) ->
  m_run mem' os = Ok m2 -> pack_get m2 ls k = UB.
Proof. exact c332_value_refuted. Qed.

Example C332_nonvacuous : m_run [Some 1; Some 2] [MSet 1 5; MNew 7] = Ok [Some 1; Some 5; Some 7] /\
  pack_apply [Some 1; Some 5; Some 7] [1; 0; 1] = Ok [5; 1; 5] /\
  pack_make [Some 1] [ByVal 3; ByRef 0] = ([Some 1; None], [1; 0]) /\ pack_get [Some 1; None] [1; 0] 0 = UB.
Proof. repeat split. Qed.
Print Assumptions C332_references.
Print Assumptions C332_get.
Print Assumptions C332_value_refuted.

(** * C333 bind_front *)

(** Every call calls the function with the stored parameters and then the arguments, whatever the function did to its parameters before; the function keeps its state. *)
Theorem C333_values :
  forall (V R S : Type) (f : S -> list V -> R * S * list (nat * V)) mem bs calls s,
  b_calls f mem (mk_bound s (map Own bs)) (map (map Own) calls) =
  Ok (fst (called f s (map (app bs) calls)), mem, snd (called f s (map (app bs) calls))).
Proof. exact c333_values. Qed.

(** The same with arguments that are references. *)
Theorem C333_seen :
  forall (V R S : Type) (f : S -> list V -> R * S * list (nat * V)) bs calls mem s l m s2,
  b_calls f mem (mk_bound s (map Own bs)) calls = Ok (l, m, s2) ->
  Forall2 (fun call e => exists avs, fst e = bs ++ avs /\ length avs = length call) calls l.
Proof. exact c333_seen. Qed.

(** Parameters and arguments that are references give the function the objects themselves: it assigns to them, and to no other object. *)
Theorem C333_references :
  forall (V R S : Type) (f : S -> list V -> R * S * list (nat * V)) mem s ps args vs ws, shows mem ps vs -> shows mem args ws ->
  exists m, b_call f mem (mk_bound s ps) args =
    Ok (fst (fst (f s (vs ++ ws))), vs ++ ws, m, mk_bound (snd (fst (f s (vs ++ ws)))) ps) /\
  (forall i, (forall c, In c (ps ++ args) -> c <> Ref i) -> nth_error m i = nth_error mem i) /\
  (forall k i, nth_error (ps ++ args) k = Some (Ref i) -> (forall j, nth_error (ps ++ args) j = Some (Ref i) -> j = k) ->
    nth_error m i = last_to k (snd (f s (vs ++ ws))) (nth_error mem i)).
Proof. exact c333_references. Qed.

Example C333_nonvacuous :
  let f := fun (s : nat) vs => (fold_left Nat.add vs s, S s, [(0, 50); (1, 60)]) in
  b_calls f [7; 8] (mk_bound 0 [Own 1; Ref 1]) [[Own 2]; [Ref 0]] = Ok ([([1; 8; 2], 11); ([1; 60; 7], 69)], [7; 60], 2) /\
  shows [7; 8] [Own 1; Ref 1] [1; 8].
Proof. split; [reflexivity|repeat constructor]. Qed.
Print Assumptions C333_values.
Print Assumptions C333_seen.
Print Assumptions C333_references.
