(** Model of the modifying and folding algorithms of include/daw/daw_algorithm.h
    and include/daw/algorithms/.  A source range is a list; a destination is an
    array (list) with a write position, every write checked.  [std::move] of an
    element is modelled as a copy: the theorems never speak about moved-from
    elements. *)
From Verif Require Import Common AlgSearch.

Section Write.
  Context {A B : Type}.

  (** transform, 1065-1099 (map, 1450-1468, has the same loop). *)
  Fixpoint transform (f : A -> B) (l : list A) (d : nat) (out : list B) : res (nat * list B) :=
    match l with
    | [] => Ok (d, out)
    | x :: t => out' <- wr out d (f x) ;; transform f t (S d) out'
    end.

  (** transform_if, 975-1000. *)
  Fixpoint transform_if (p : A -> bool) (f : A -> B) (l : list A) (d : nat) (out : list B)
    : res (nat * list B) :=
    match l with
    | [] => Ok (d, out)
    | x :: t =>
        if p x then out' <- wr out d (f x) ;; transform_if p f t (S d) out'
        else transform_if p f t d out
    end.

  (** transform_n, 1015-1050, the branch for a unary operation; [src] is the
      source array from [first] on.  Returns the input and output positions. *)
  Fixpoint transform_n (f : A -> B) (src : list A) (pos count : nat) (d : nat) (out : list B)
    : res (nat * nat * list B) :=
    match count with
    | O => Ok (pos, d, out)
    | S count =>
        x <- rd src pos ;;
        out' <- wr out d (f x) ;;
        transform_n f src (S pos) count (S d) out'
    end.
End Write.

Section Write1.
  Context {A : Type}.

  (** copy, algorithms/daw_algorithm_copy.h 25-41, and move, 1170-1185. *)
  Definition copy (l : list A) (d : nat) (out : list A) : res (nat * list A) :=
    transform (fun x => x) l d out.

  (** copy_if, 1138-1158. *)
  Fixpoint copy_if (p : A -> bool) (l : list A) (d : nat) (out : list A) : res (nat * list A) :=
    match l with
    | [] => Ok (d, out)
    | x :: t =>
        if p x then out' <- wr out d x ;; copy_if p t (S d) out'
        else copy_if p t d out
    end.

  (** copy_n, algorithms/daw_algorithm_copy_n.h 24-47, and move_n, 1195-1214. *)
  Definition copy_n (src : list A) (pos count d : nat) (out : list A) : res (nat * nat * list A) :=
    transform_n (fun x => x) src pos count d out.

  (** fill_n, 1425-1435 *)
  Fixpoint fill_n (d count : nat) (value : A) (out : list A) : res (nat * list A) :=
    match count with
    | O => Ok (d, out)
    | S count => out' <- wr out d value ;; fill_n (S d) count value out'
    end.

  (** fill, 1438-1447: [len] = last - first. *)
  Fixpoint fill (first len : nat) (value : A) (out : list A) : res (list A) :=
    match len with
    | O => Ok out
    | S len => out' <- wr out first value ;; fill (S first) len value out'
    end.

  (** iota, 1732-1739; [succ] is [++start_value]. *)
  Fixpoint iota (succ : A -> A) (first len : nat) (start : A) (out : list A) : res (list A) :=
    match len with
    | O => Ok out
    | S len => out' <- wr out first start ;; iota succ (S first) len (succ start) out'
    end.

  (** remove_if, 1765-1781: the loop, [i] already incremented. *)
  Fixpoint remove_if_loop (fuel : nat) (pred : A -> bool) (first i last : nat) (arr : list A)
    : res (nat * list A) :=
    match fuel with
    | O => OutOfFuel
    | S fuel =>
        if i =? last then Ok (first, arr)
        else
          x <- rd arr i ;;
          if negb (pred x)
          then arr' <- wr arr first x ;; remove_if_loop fuel pred (S first) (S i) last arr'
          else remove_if_loop fuel pred first (S i) last arr
    end.
  (** [first], [last] are positions in [arr]. *)
  Definition remove_if (pred : A -> bool) (first last : nat) (arr : list A) : res (nat * list A) :=
    let f := first + find_if pred (firstn (last - first) (skipn first arr)) in
    if negb (f =? last)
    then remove_if_loop (S (length arr)) pred f (S f) last arr
    else Ok (f, arr).

  (** remove, 1751-1763; [eqb] is [operator==( element, value )]. *)
  Fixpoint remove_loop {V} (fuel : nat) (eqb : A -> V -> bool) (value : V) (first i last : nat)
      (arr : list A) : res (nat * list A) :=
    match fuel with
    | O => OutOfFuel
    | S fuel =>
        if i =? last then Ok (first, arr)
        else
          x <- rd arr i ;;
          if negb (eqb x value)
          then arr' <- wr arr first x ;; remove_loop fuel eqb value (S first) (S i) last arr'
          else remove_loop fuel eqb value first (S i) last arr
    end.
  Definition remove {V} (eqb : A -> V -> bool) (value : V) (first last : nat) (arr : list A)
    : res (nat * list A) :=
    let f := first + find eqb value (firstn (last - first) (skipn first arr)) in
    if negb (f =? last)
    then remove_loop (S (length arr)) eqb value f (S f) last arr
    else Ok (f, arr).

  (** set_intersection, 1707-1730.  [fuel]: each round consumes an element. *)
  Fixpoint set_intersection_loop (fuel : nat) (comp : A -> A -> bool) (l1 l2 : list A)
      (d : nat) (out : list A) : res (nat * list A) :=
    match fuel with
    | O => OutOfFuel
    | S fuel =>
        match l1, l2 with
        | x :: t1, y :: t2 =>
            if comp x y then set_intersection_loop fuel comp t1 l2 d out
            else if negb (comp y x) then
              out' <- wr out d x ;;
              set_intersection_loop fuel comp t1 t2 (S d) out'
            else set_intersection_loop fuel comp l1 t2 d out
        | _, _ => Ok (d, out)
        end
    end.
  Definition set_intersection (comp : A -> A -> bool) (l1 l2 : list A) (d : nat) (out : list A)
    : res (nat * list A) :=
    set_intersection_loop (S (length l1 + length l2)) comp l1 l2 d out.

  (** reverse( first, last ), 465-479; the [while] loop. *)
  Fixpoint reverse_loop (fuel : nat) (first last : nat) (arr : list A) : res (list A) :=
    match fuel with
    | O => OutOfFuel
    | S fuel =>
        if negb (first =? last) then
          arr' <- swap_at arr first last ;;
          if S first =? last then Ok arr'
          else last' <- dec last ;; reverse_loop fuel (S first) last' arr'
        else Ok arr
    end.
  Definition reverse (first last : nat) (arr : list A) : res (list A) :=
    if first =? last then Ok arr
    else last' <- dec last ;; reverse_loop (S (length arr)) first last' arr.

  (** split, 577-595. *)
  Fixpoint split_loop (eqb : A -> bool) (l : list A) (result : list (list A)) (temp : list A)
    : list (list A) :=
    match l with
    | [] => result
    | x :: t =>
        if eqb x then split_loop eqb t (result ++ [temp]) []
        else split_loop eqb t result (temp ++ [x])
    end.
  Definition split (eqb : A -> bool) (l : list A) : list (list A) := split_loop eqb l [] [].
End Write1.

(** partition_range, 1938-1956, with view::pop_front( n ), daw_view.h 195-203.
    A view is the pair of its begin and end positions.  Division by a zero
    [count] is undefined. *)
Definition view_pop_front (v : nat * nat) (n : nat) : (nat * nat) * (nat * nat) :=
  let '(a, b) := v in
  let n := if b - a <? n then b - a else n in
  ((a, a + n), (a + n, b)).
Fixpoint partition_loop (rounds : nat) (v : nat * nat) (sz : nat) (result : list (nat * nat))
  : list (nat * nat) :=
  match rounds with
  | O => result ++ [v]
  | S rounds =>
      let '(piece, v') := view_pop_front v sz in
      partition_loop rounds v' sz (result ++ [piece])
  end.
Definition partition_range (min_size size count : nat) : res (list (nat * nat)) :=
  if count =? 0 then UB
  else
    let sz := size / count in
    let sz := if sz <? min_size then min_size else sz in
    Ok (partition_loop (count - 1) (0, size) sz []).

Section Fold.
  Context {A B T : Type}.

  (** accumulate, algorithms/daw_algorithm_accumulate.h 41-47 and 65-83, and
      reduce, 1495-1517. *)
  Fixpoint accumulate (op : T -> A -> T) (l : list A) (init : T) : T :=
    match l with
    | [] => init
    | x :: t => accumulate op t (op init x)
    end.

  (** map_reduce, 1520-1559; [l2] is the array from first2 on. *)
  Fixpoint map_reduce (red : T -> B -> T) (mp : A -> A -> B) (l1 l2 : list A) (init : T) : res T :=
    match l1 with
    | [] => Ok init
    | x :: t1 =>
        match l2 with
        | [] => UB
        | y :: t2 => map_reduce red mp t1 t2 (red init (mp x y))
        end
    end.

  (** map with two sources, 1470-1492, and cartesian_product_map with one extra
      iterator, 1816-1832. *)
  Fixpoint map2 (f : A -> B -> T) (l1 : list A) (l2 : list B) (d : nat) (out : list T)
    : res (nat * list T) :=
    match l1 with
    | [] => Ok (d, out)
    | x :: t1 =>
        match l2 with
        | [] => UB
        | y :: t2 => out' <- wr out d (f x y) ;; map2 f t1 t2 (S d) out'
        end
    end.

  (** cartesian_product with one extra iterator, 1876-1890: the calls made to
      [func], in order. *)
  Fixpoint cartesian_product (l1 : list A) (l2 : list B) : res (list (A * B)) :=
    match l1 with
    | [] => Ok []
    | x :: t1 =>
        match l2 with
        | [] => UB
        | y :: t2 => calls <- cartesian_product t1 t2 ;; Ok ((x, y) :: calls)
        end
    end.

  (** find_transform, algorithms/daw_algorithm_find_transform.h 35-50. *)
  Fixpoint find_transform (f : A -> B) (p : B -> bool) (l : list A) : nat * option B :=
    match l with
    | [] => (0, None)
    | x :: t =>
        let result := f x in
        if p result then (0, Some result)
        else let '(pos, r) := find_transform f p t in (S pos, r)
    end.

  (** find_some, 2089-2106: position and the predicate results there. *)
  Fixpoint find_some_loop (preds : list (A -> bool)) (results : list bool) (l : list A)
    : nat * list bool :=
    match l with
    | [] => (0, results)
    | x :: t =>
        let results := map (fun p => p x) preds in
        if contains Bool.eqb true results then (0, results)
        else let '(pos, r) := find_some_loop preds results t in (S pos, r)
    end.
  Definition find_some (preds : list (A -> bool)) (l : list A) : nat * list bool :=
    find_some_loop preds (map (fun _ => false) preds) l.

  (** for_each_if, 2071-2080: the elements [onEach] is called on. *)
  Fixpoint for_each_if (p : A -> bool) (l : list A) : list A :=
    match l with
    | [] => []
    | x :: t => if p x then x :: for_each_if p t else for_each_if p t
    end.
End Fold.

Section PartialSum.
  Context {A : Type}.

  (** partial_sum, algorithms/daw_algorithm_partial_sum.h 21-49. *)
  Fixpoint partial_sum_loop (op : A -> A -> A) (sum : A) (l : list A) (d : nat) (out : list A)
    : res (nat * list A) :=
    match l with
    | [] => Ok (d, out)
    | x :: t =>
        let sum := op sum x in
        out' <- wr out d sum ;; partial_sum_loop op sum t (S d) out'
    end.
  Definition partial_sum (op : A -> A -> A) (l : list A) (d : nat) (out : list A)
    : res (nat * list A) :=
    match l with
    | [] => Ok (d, out)
    | x :: t => out' <- wr out d x ;; partial_sum_loop op x t (S d) out'
    end.
End PartialSum.
