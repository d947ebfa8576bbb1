(** C14 - C17, C20, C21 and C61 - C63: modifying and folding algorithms. *)
From Verif Require Import Common CommonProofs SpecAlg AlgSearch AlgModify AlgModifyProofs
  SortNetProps.

(** C14.  The range is [mid] inside [pre ++ mid ++ post]. *)
Theorem C14_remove_if : forall A (pred : A -> bool) pre mid post,
  exists rest,
    remove_if pred (length pre) (length pre + length mid) (pre ++ mid ++ post) =
      Ok (length pre + length (filter (fun x => negb (pred x)) mid),
          pre ++ filter (fun x => negb (pred x)) mid ++ rest ++ post) /\
    length rest + length (filter (fun x => negb (pred x)) mid) = length mid.
Proof. exact @remove_if_spec. Qed.
Print Assumptions C14_remove_if.

Theorem C14_remove : forall A V (eqb : A -> V -> bool) v pre mid post,
  exists rest,
    remove eqb v (length pre) (length pre + length mid) (pre ++ mid ++ post) =
      Ok (length pre + length (filter (fun x => negb (eqb x v)) mid),
          pre ++ filter (fun x => negb (eqb x v)) mid ++ rest ++ post) /\
    length rest + length (filter (fun x => negb (eqb x v)) mid) = length mid.
Proof. exact @remove_spec. Qed.
Print Assumptions C14_remove.

Example remove_runs :
  (remove_if Nat.even 1 7 [100; 1; 2; 3; 4; 5; 6; 101], remove Nat.eqb 1 0 3 [1; 1; 2]) =
  (Ok (4, [100; 1; 3; 5; 4; 5; 6; 101]), Ok (1, [2; 1; 2])).
Proof. reflexivity. Qed.

(** C15. *)
Theorem C15_set_intersection : forall A (comp : A -> A -> bool), strict_weak comp ->
  forall l1 l2, sorted_by comp l1 -> sorted_by comp l2 ->
  exists r, emits (set_intersection comp l1 l2) r /\ sorted_by comp r /\ subseq r l1 /\
    forall v, count_equiv comp v r = Nat.min (count_equiv comp v l1) (count_equiv comp v l2).
Proof. exact @set_intersection_spec. Qed.
Print Assumptions C15_set_intersection.

Example set_intersection_runs :
  set_intersection Nat.ltb [1; 2; 2; 2; 5] [2; 2; 3; 5; 6] 1 [0; 0; 0; 0; 0]
  = Ok (4, [0; 2; 2; 5; 0]).
Proof. reflexivity. Qed.
Example set_intersection_hyp :
  sorted_by Nat.ltb [1; 2; 2; 2; 5] /\ sorted_by Nat.ltb [2; 2; 3; 5; 6].
Proof. unfold sorted_by. split; repeat constructor. Qed.

(** C16. *)
Theorem C16_reverse : forall A (pre mid post : list A),
  reverse (length pre) (length pre + length mid) (pre ++ mid ++ post) =
    Ok (pre ++ rev mid ++ post).
Proof. exact @reverse_spec. Qed.
Print Assumptions C16_reverse.

Theorem C16_reverse_twice : forall A (pre mid post : list A) (f l : nat),
  f = length pre -> l = length pre + length mid ->
  (once <- reverse f l (pre ++ mid ++ post) ;; reverse f l once) = Ok (pre ++ mid ++ post).
Proof.
  intros A pre mid post f l -> ->. rewrite C16_reverse. cbn [bind].
  rewrite <- (rev_length mid), C16_reverse, rev_involutive. reflexivity.
Qed.
Print Assumptions C16_reverse_twice.

Example reverse_runs : reverse 1 5 [0; 1; 2; 3; 4; 5] = Ok [0; 4; 3; 2; 1; 5].
Proof. reflexivity. Qed.

(** C17.  What holds: the pieces, followed by one more piece that is not
    returned, join to the input.  Missing: that last piece. *)
Theorem C17_split_partial : forall A (eqb : A -> bool) d l, (forall x, eqb x = true <-> x = d) ->
  exists last, l = join d (split eqb l ++ [last]) /\
    (forall p x, In p (split eqb l ++ [last]) -> In x p -> x <> d).
Proof. exact @split_spec. Qed.
Print Assumptions C17_split_partial.

Theorem C17_split_refuted : exists l : list nat, join 0 (split (Nat.eqb 0) l) <> l.
Proof. exists [1; 0; 2]. vm_compute. discriminate. Qed.
Print Assumptions C17_split_refuted.

Example split_runs : split (Nat.eqb 0) [1; 2; 0; 0; 3; 0; 4] = [[1; 2]; []; [3]].
Proof. reflexivity. Qed.
Example split_hyp : forall x, Nat.eqb 0 x = true <-> x = 0.
Proof. intros x. rewrite Nat.eqb_eq. split; auto. Qed.

(** C20. *)
Theorem C20_partition_range : forall min_size size count, 1 <= count ->
  exists pieces, partition_range min_size size count = Ok pieces /\
    tiles 0 size pieces /\ length pieces = count.
Proof. exact partition_range_spec. Qed.
Print Assumptions C20_partition_range.

Example partition_runs :
  (partition_range 1 10 3, partition_range 4 10 5, partition_range 1 10 0) =
  (Ok [(0, 3); (3, 6); (6, 10)], Ok [(0, 4); (4, 8); (8, 10); (10, 10); (10, 10)], UB).
Proof. reflexivity. Qed.

(** C21. *)
Theorem C21_transform : forall A B (f : A -> B) l, emits (transform f l) (map f l).
Proof. exact @transform_emits. Qed.
Print Assumptions C21_transform.

Theorem C21_transform_if : forall A B p (f : A -> B) l,
  emits (transform_if p f l) (map f (filter p l)).
Proof. exact @transform_if_emits. Qed.
Print Assumptions C21_transform_if.

Theorem C21_transform_n : forall A B (f : A -> B) count src pos pre old post,
  pos + count <= length src -> length old = count ->
  transform_n f src pos count (length pre) (pre ++ old ++ post) =
    Ok (pos + count, length pre + count, pre ++ map f (firstn count (skipn pos src)) ++ post).
Proof. exact @transform_n_spec. Qed.
Print Assumptions C21_transform_n.

Theorem C21_copy : forall A (l : list A), emits (copy l) l.
Proof. exact @copy_emits. Qed.
Print Assumptions C21_copy.

Theorem C21_copy_if : forall A p (l : list A), emits (copy_if p l) (filter p l).
Proof. exact @copy_if_emits. Qed.
Print Assumptions C21_copy_if.

Theorem C21_copy_n : forall A count (src : list A) pos pre old post,
  pos + count <= length src -> length old = count ->
  copy_n src pos count (length pre) (pre ++ old ++ post) =
    Ok (pos + count, length pre + count, pre ++ firstn count (skipn pos src) ++ post).
Proof. exact @copy_n_spec. Qed.
Print Assumptions C21_copy_n.

Theorem C21_map2 : forall A B T (f : A -> B -> T) l1 l2, length l1 <= length l2 ->
  emits (map2 f l1 l2) (map (fun p => f (fst p) (snd p)) (combine l1 l2)).
Proof. exact @map2_emits. Qed.
Print Assumptions C21_map2.

Example transform_runs :
  (transform S [1; 2] 1 [0; 0; 0; 9], transform_if Nat.even S [1; 2; 4] 0 [0; 0; 9],
   copy_n [1; 2; 3; 4] 1 2 1 [9; 9; 9; 9], transform S [1; 2] 1 [0; 0])
  = (Ok (3, [0; 2; 3; 9]), Ok (2, [3; 5; 9]), Ok (3, 3, [9; 2; 3; 9]), UB).
Proof. reflexivity. Qed.

(** C61. *)
Theorem C61_accumulate : forall A T (op : T -> A -> T) l init,
  accumulate op l init = fold_left op l init.
Proof. exact @accumulate_spec. Qed.
(** When no element satisfies a predicate, the position is the end and every flag is false, on the empty range too. *)
Theorem C61_find_some_none :
  forall A (preds : list (A -> bool)) l,
  (forall x p, In x l -> In p preds -> p x = false) ->
  find_some preds l = (length l, map (fun _ => false) preds).
Proof. exact c61_find_some_none_l. Qed.
Print Assumptions C61_find_some_none.
Print Assumptions C61_accumulate.

Theorem C61_map_reduce : forall A B T (red : T -> B -> T) (mp : A -> A -> B) l1 l2 init,
  length l1 <= length l2 ->
  map_reduce red mp l1 l2 init =
    Ok (fold_left red (map (fun p => mp (fst p) (snd p)) (combine l1 l2)) init).
Proof. exact @map_reduce_spec. Qed.
Print Assumptions C61_map_reduce.

(** The k-th output is the fold of the first k+1 elements. *)
Theorem C61_partial_sum : forall A (op : A -> A -> A) x l,
  emits (partial_sum op (x :: l))
    (map (fun k => fold_left op (firstn k l) x) (seq 0 (S (length l)))).
Proof. exact @partial_sum_emits. Qed.
Print Assumptions C61_partial_sum.

Theorem C61_partial_sum_empty : forall A (op : A -> A -> A), emits (partial_sum op []) [].
Proof. intros A op. exact emits_nil. Qed.
Print Assumptions C61_partial_sum_empty.

Theorem C61_find_transform : forall A B (f : A -> B) p l,
  let '(pos, r) := find_transform f p l in
  is_first (fun x => p (f x)) l pos /\
  match r with
  | Some b => exists x, nth_error l pos = Some x /\ b = f x
  | None => pos = length l
  end.
Proof. exact @find_transform_spec. Qed.
Print Assumptions C61_find_transform.

Theorem C61_find_some : forall A (preds : list (A -> bool)) l,
  let '(pos, r) := find_some preds l in
  is_first (fun x => existsb (fun p => p x) preds) l pos /\
  (forall x, nth_error l pos = Some x -> r = map (fun p => p x) preds).
Proof. intros A preds l. exact (find_some_loop_spec preds l _). Qed.
Print Assumptions C61_find_some.

Theorem C61_for_each_if : forall A (p : A -> bool) l, for_each_if p l = filter p l.
Proof. exact @for_each_if_spec. Qed.
Print Assumptions C61_for_each_if.

Example fold_runs :
  (accumulate Nat.sub [1; 2] 10, map_reduce Nat.add Nat.mul [1; 2] [3; 4; 5] 0,
   partial_sum Nat.add [1; 2; 3] 0 [0; 0; 0; 9], find_some [Nat.even; Nat.eqb 3] [1; 3])
  = (7, Ok 11, Ok (3, [1; 3; 6; 9]), (1, [false; true])).
Proof. reflexivity. Qed.

(** C62. *)
Theorem C62_fill_n : forall A count (v : A),
  emits (fun d out => fill_n d count v out) (repeat v count).
Proof. exact @fill_n_emits. Qed.
Print Assumptions C62_fill_n.

Theorem C62_fill : forall A (v : A) mid pre post,
  fill (length pre) (length mid) v (pre ++ mid ++ post) =
    Ok (pre ++ repeat v (length mid) ++ post).
Proof. exact @fill_spec. Qed.
Print Assumptions C62_fill.

Theorem C62_iota : forall A succ mid pre (start : A) post,
  iota succ (length pre) (length mid) start (pre ++ mid ++ post) =
    Ok (pre ++ map (fun k => Nat.iter k succ start) (seq 0 (length mid)) ++ post).
Proof. exact @iota_spec. Qed.
Print Assumptions C62_iota.

Example fill_runs : (fill 1 2 7 [0; 0; 0; 0], iota S 1 3 5 [0; 0; 0; 0; 0]) =
  (Ok [0; 7; 7; 0], Ok [0; 5; 6; 7; 0]).
Proof. reflexivity. Qed.

(** C63.  cartesian_product pairs the ranges position by position.  Missing:
    all other combinations. *)
Theorem C63_cartesian_product_partial : forall A B (l1 : list A) (l2 : list B),
  length l1 <= length l2 -> cartesian_product l1 l2 = Ok (combine l1 l2).
Proof. exact @cartesian_product_spec. Qed.
Print Assumptions C63_cartesian_product_partial.

Theorem C63_cartesian_product_refuted : exists (l1 l2 : list nat) calls,
  cartesian_product l1 l2 = Ok calls /\
  exists x y, In x l1 /\ In y l2 /\ ~ In (x, y) calls.
Proof.
  exists [1; 2], [3; 4], [(1, 3); (2, 4)]. split; [reflexivity|].
  exists 1, 4. cbn. repeat split; auto. intros [H|[H|[]]]; inversion H.
Qed.
Print Assumptions C63_cartesian_product_refuted.
