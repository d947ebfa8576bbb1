(** Model of the comparing algorithms of include/daw/daw_algorithm.h. *)
From Verif Require Import Common AlgSearch.

Section Two.
  Context {A B : Type}.

  (** equal, 1229-1249 (four iterators). *)
  Fixpoint equal (comp : A -> B -> bool) (l1 : list A) (l2 : list B) : bool :=
    match l1, l2 with
    | x :: t1, y :: t2 => if comp x y then equal comp t1 t2 else false
    | [], [] => true
    | _, _ => false
    end.

  (** not_equal, 1262-1282 (four iterators): the same loop, driven by
      [comp] = operator!=. *)
  Fixpoint not_equal (comp : A -> B -> bool) (l1 : list A) (l2 : list B) : bool :=
    match l1, l2 with
    | x :: t1, y :: t2 => if comp x y then not_equal comp t1 t2 else false
    | [], [] => true
    | _, _ => false
    end.

  (** equal, 1289-1303 (three iterators): [l2] is whatever follows first2 in
      its array; running off it is undefined. *)
  Fixpoint equal3 (eqb : A -> B -> bool) (l1 : list A) (l2 : list B) : res bool :=
    match l1 with
    | [] => Ok true
    | x :: t1 =>
        match l2 with
        | [] => UB
        | y :: t2 => if eqb x y then equal3 eqb t1 t2 else Ok false
        end
    end.

  (** not_equal, 1315-1328 (three iterators); [neqb] is operator!=. *)
  Fixpoint not_equal3 (neqb : A -> B -> bool) (l1 : list A) (l2 : list B) : res bool :=
    match l1 with
    | [] => Ok true
    | x :: t1 =>
        match l2 with
        | [] => UB
        | y :: t2 => if neqb x y then not_equal3 neqb t1 t2 else Ok false
        end
    end.
End Two.

Section One.
  Context {A : Type}.

  (** lexicographical_compare, 896-922. *)
  Fixpoint lexicographical_compare (comp : A -> A -> bool) (l1 l2 : list A) : bool :=
    match l1, l2 with
    | x :: t1, y :: t2 =>
        if comp x y then true
        else if comp y x then false
        else lexicographical_compare comp t1 t2
    | [], _ :: _ => true
    | _, [] => false
    end.

  (** compare_range, 924-955. *)
  Fixpoint compare_range (less : A -> A -> bool) (eq : A -> A -> bool) (l1 l2 : list A) : Z :=
    match l1, l2 with
    | x :: t1, y :: t2 =>
        if negb (eq x y) then (if less x y then (-1)%Z else 1%Z)
        else compare_range less eq t1 t2
    | [], [] => 0%Z
    | [], _ :: _ => (-1)%Z
    | _ :: _, [] => 1%Z
    end.

  (** max_element, 1606-1622: loop over positions [first..last). *)
  Fixpoint max_element_loop (fuel : nat) (comp : A -> A -> bool) (largest first last : nat)
      (l : list A) : res nat :=
    match fuel with
    | O => OutOfFuel
    | S fuel =>
        if first =? last then Ok largest
        else
          m <- rd l largest ;;
          x <- rd l first ;;
          max_element_loop fuel comp (if comp m x then first else largest) (S first) last l
    end.
  Definition max_element (comp : A -> A -> bool) (l : list A) : res nat :=
    if 0 =? length l then Ok (length l)
    else max_element_loop (S (length l)) comp 0 1 (length l) l.

  (** minmax_item, 1632-1643. *)
  Definition minmax_item (comp : A -> A -> bool) (a b : A) : A * A :=
    if comp b a then (b, a) else (a, b).

  (** minmax_element, 1646-1705; the [while] loop body, taking two elements
      per round. *)
  Fixpoint minmax_loop (fuel : nat) (comp : A -> A -> bool) (mn mx first last : nat)
      (l : list A) : res (nat * nat) :=
    match fuel with
    | O => OutOfFuel
    | S fuel =>
        if first =? last then Ok (mn, mx)
        else
          let i := first in
          let first := S first in
          vi <- rd l i ;;
          vmn <- rd l mn ;;
          vmx <- rd l mx ;;
          if first =? last then
            if comp vi vmn then Ok (i, mx)
            else if negb (comp vi vmx) then Ok (mn, i)
            else Ok (mn, mx)
          else
            vf <- rd l first ;;
            if comp vf vi then
              let mn' := if comp vf vmn then first else mn in
              let mx' := if negb (comp vi vmx) then i else mx in
              minmax_loop fuel comp mn' mx' (S first) last l
            else
              let mn' := if comp vi vmn then i else mn in
              let mx' := if negb (comp vf vmx) then first else mx in
              minmax_loop fuel comp mn' mx' (S first) last l
    end.
  Definition minmax_element (comp : A -> A -> bool) (l : list A) : res (nat * nat) :=
    let last := length l in
    if 0 =? last then Ok (0, 0)
    else if 1 =? last then Ok (0, 0)
    else
      v1 <- rd l 1 ;;
      v0 <- rd l 0 ;;
      let '(mn, mx) := if comp v1 v0 then (1, 0) else (0, 1) in
      minmax_loop (S last) comp mn mx 2 last l.

  (** are_equal, 482-495: a parameter pack of values. *)
  Fixpoint are_equal (eqb : A -> A -> bool) (vs : list A) : bool :=
    match vs with
    | [] => true (* ill-formed call; never reached *)
    | [_] => true
    | v1 :: v2 :: others =>
        match others with
        | [] => eqb v1 v2
        | _ => eqb v1 v2 && are_equal eqb others
        end
    end.

  (** is_sorted_until, 1371-1393 and 1395-1414 (same control flow). *)
  Fixpoint is_sorted_until_loop (comp : A -> A -> bool) (x : A) (l : list A) : nat :=
    match l with
    | [] => 1
    | y :: t => if comp y x then 1 else S (is_sorted_until_loop comp y t)
    end.
  Definition is_sorted_until (comp : A -> A -> bool) (l : list A) : nat :=
    match l with
    | [] => 0
    | x :: t => is_sorted_until_loop comp x t
    end.
  (** is_sorted, 1416-1423. *)
  Definition is_sorted (comp : A -> A -> bool) (l : list A) : bool :=
    is_sorted_until comp l =? length l.

  (** find_unsorted, 1990-2006; std::mismatch inlined: it stops at the first
      adjacent pair that is out of order.  [std::next]/[std::prev] of an empty
      range leave it. *)
  Fixpoint find_unsorted_loop (comp : A -> A -> bool) (x : A) (l : list A) : nat :=
    match l with
    | [] => 0
    | y :: t => if negb (comp y x) then S (find_unsorted_loop comp y t) else 0
    end.
  Definition find_unsorted (comp : A -> A -> bool) (l : list A) : res nat :=
    match l with
    | [] => UB
    | x :: t =>
        let result := find_unsorted_loop comp x t in
        if result =? length l - 1 then Ok (length l) else Ok result
    end.

  (** clamp( value, max_value ), 515-522; [gt] is operator>. *)
  Definition clamp_hi (gt : A -> A -> bool) (value max_value : A) : A :=
    if gt value max_value then max_value else value.

  (** clamp( val, min, max ), cpp_17.h 143-152; same-type arguments. *)
  Definition clamp3 (lt gt : A -> A -> bool) (val min_val max_val : A) : A :=
    if lt val min_val then min_val
    else if gt val max_val then max_val
    else val.
End One.
