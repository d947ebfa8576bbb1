(** Model of consume_if, extract_to, extract_all, extract_matching and the
    predicate objects of include/daw/daw_algorithm.h. *)
From Verif Require Import Common AlgSearch.

(** ** consume_if *)
Section Consume.
  Context {A : Type}.

  (** daw_algorithm.h:1788-1797 the loop of consume_if, [i] already incremented.
      [log] are the arguments func was called with, in order.  Simplifications:
      func does not change the element and does not throw; moving an element is
      copying it. *)
  Fixpoint consume_if_loop (fuel : nat) (pred : A -> bool) (first i last : nat) (arr log : list A)
    : res (nat * list A * list A) :=
    match fuel with
    | O => OutOfFuel
    | S fuel =>
        if i =? last then Ok (first, arr, log)
        else
          x <- rd arr i ;;
          if negb (pred x)
          then arr' <- wr arr first x ;; consume_if_loop fuel pred (S first) (S i) last arr' (log ++ [x])
          else consume_if_loop fuel pred first (S i) last arr log
    end.

  (** daw_algorithm.h:1783-1799 consume_if; [first], [last] are positions. *)
  Definition consume_if (pred : A -> bool) (first last : nat) (arr : list A) : res (nat * list A * list A) :=
    let f := first + find_if pred (firstn (last - first) (skipn first arr)) in
    if negb (f =? last)
    then consume_if_loop (S (length arr)) pred f (S f) last arr []
    else Ok (f, arr, []).
End Consume.

(** ** extract_to, extract_all *)
Section Extract.
  Context {K V : Type}.
  Variable eqb : K -> K -> bool.

  (** The extract( key ) of an associative container (from the C++ standard): the
      first node with the key is unlinked; an empty handle when there is none.  A
      container is the list of its nodes; the order of an ordered container is not
      modelled. *)
  Fixpoint take_key (k : K) (l : list (K * V)) : option ((K * V) * list (K * V)) :=
    match l with
    | [] => None
    | n :: l =>
        if eqb (fst n) k then Some (n, l)
        else match take_key k l with
             | None => None
             | Some (m, l') => Some (m, n :: l')
             end
    end.

  (** insert( node handle ) (from the C++ standard): a container with unique keys
      refuses a node whose key it has; the node comes back in the result, which
      the callers below drop. *)
  Definition insert_node (uniq : bool) (to : list (K * V)) (n : K * V) : list (K * V) :=
    if uniq && existsb (fun m => eqb (fst m) (fst n)) to then to else to ++ [n].

  (** daw_algorithm.h:1892-1897 extract_to with a key: the contents of from and to
      afterwards. *)
  Fixpoint extract_to (fuel : nat) (uniq : bool) (k : K) (from to : list (K * V))
    : res (list (K * V) * list (K * V)) :=
    match fuel with
    | O => OutOfFuel
    | S fuel =>
        match take_key k from with
        | None => Ok (from, to)
        | Some (n, from) => extract_to fuel uniq k from (insert_node uniq to n)
        end
    end.

  (** daw_algorithm.h:1899-1904 extract_all. *)
  Fixpoint extract_all (fuel : nat) (uniq : bool) (from to : list (K * V)) : res (list (K * V) * list (K * V)) :=
    match fuel with
    | O => OutOfFuel
    | S fuel =>
        match from with
        | [] => Ok (from, to)
        | n :: from => extract_all fuel uniq from (insert_node uniq to n)
        end
    end.
End Extract.

(** ** extract_matching *)
Section Matching.
  Context {E : Type}.

  (** extract( iterator ) (from the C++ standard): an iterator is the number of a
      node; the behaviour is undefined when the node is not in the container. *)
  Fixpoint take_node (it : nat) (l : list (nat * E)) : res (E * list (nat * E)) :=
    match l with
    | [] => UB
    | n :: l =>
        if fst n =? it then Ok (snd n, l)
        else ' (e, l') <- take_node it l ;; Ok (e, n :: l')
    end.

  (** daw_algorithm.h:1892-1897 extract_to( from, to, it ): an extracted node
      converts to true, so the loop extracts again. *)
  Fixpoint extract_to_it (fuel : nat) (it : nat) (from : list (nat * E)) (to : list E)
    : res (list (nat * E) * list E) :=
    match fuel with
    | O => OutOfFuel
    | S fuel => ' (e, from) <- take_node it from ;; extract_to_it fuel it from (to ++ [e])
    end.

  (** daw_algorithm.h:1906-1922 extract_matching: [todo] are the nodes from the
      iterator on. *)
  Fixpoint extract_matching_loop (fuel : nat) (pred : E -> bool) (todo from : list (nat * E)) (to : list E)
    : res (list (nat * E) * list E) :=
    match todo with
    | [] => Ok (from, to)
    | (it, e) :: todo =>
        if pred e
        then ' (from, to) <- extract_to_it fuel it from to ;; extract_matching_loop fuel pred todo from to
        else extract_matching_loop fuel pred todo from to
    end.

  Definition extract_matching (fuel : nat) (pred : E -> bool) (from : list (nat * E)) (to : list E) :=
    extract_matching_loop fuel pred from from to.
End Matching.

(** ** Predicate objects *)
Section Functors.
  Context {T : Type}.

  (** How an argument of a factory is written: a temporary, or the name of a
      variable. *)
  Inductive arg := Rv (v : T) | Lv (x : nat).

  (** The member of the predicate object: the template argument is deduced as T
      for a temporary and as T& for a variable (daw_algorithm.h:824-828, 835-838,
      845-848, 855-859, 866-869, 876-879). *)
  Inductive stored := Own (v : T) | Ref (x : nat).

  Definition store (a : arg) : stored :=
    match a with
    | Rv v => Own v
    | Lv x => Ref x
    end.

  Definition fetch (env : nat -> T) (s : stored) : T :=
    match s with
    | Own v => v
    | Ref x => env x
    end.

  (** The argument after the member was made from it: [mv v] is what a moved-from
      [v] holds. *)
  Definition left_in (env : nat -> T) (mv : T -> T) (a : arg) : T :=
    match a with
    | Rv v => mv v
    | Lv x => env x
    end.

  (** daw_algorithm.h:723-728 in_range( lower, upper ): the members are made
      first, then the arguments are compared. *)
  Definition in_range_make (env : nat -> T) (mv : T -> T) (le : T -> T -> bool) (lower upper : arg)
    : res (stored * stored) :=
    let members := (store lower, store upper) in
    if le (left_in env mv lower) (left_in env mv upper) then Ok members else Throw.

  (** daw_algorithm.h:730-733. *)
  Definition in_range_call (env : nat -> T) (le : T -> T -> bool) (r : stored * stored) (value : T) : bool :=
    le (fetch env (fst r)) value && le value (fetch env (snd r)).

  (** daw_algorithm.h:737-815 equal_to, less_than, greater_than,
      greater_than_or_equal_to, less_than_or_equal_to: [op] is the operator. *)
  Definition cmp_make (a : arg) : stored := store a.
  Definition cmp_call (env : nat -> T) (op : T -> T -> bool) (s : stored) (value : T) : bool :=
    op value (fetch env s).
End Functors.
Arguments arg : clear implicits.
Arguments stored : clear implicits.
