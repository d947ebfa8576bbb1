(** Model of daw_visit.h (vi.h), daw_variant_cast.h (vc.h) and daw_tuple_helper.h
    (th.h).

    A variant of [v_size] alternatives holds a value in one of them, or is valueless
    after an exception (then index( ) is std::variant_npos).  Visitors are functions of
    the alternative and its value; their result may be any type, in particular a function
    of a state.  The conversion of the result to the result type of the first alternative
    is not modelled.  DAW_UNREACHABLE is undefined behaviour (it ends the program if DEBUG
    is defined).  No proofs in this file. *)
From Verif Require Import Common Ints Math.
Open Scope Z_scope.
Local Arguments Z.pow : simpl never.

(** * vi.h *)
Record variant (V : Type) := Variant { v_size : nat; v_held : option (nat * V) }.
Arguments Variant {V} _ _.
Arguments v_size {V} _.
Arguments v_held {V} _.
(** std::variant_npos, and index( ). *)
Definition variant_npos : Z := 2 ^ 64 - 1.
Definition v_index {V} (v : variant V) : Z :=
  match v_held v with Some (i, _) => Z.of_nat i | None => variant_npos end.
(** vi.h:53-80 get_nt: get_if gives a null pointer if another alternative is held,
    which DAW_ASSUME excludes. *)
Definition get_nt {V} (idx : nat) (v : variant V) : res V :=
  match v_held v with Some (i, x) => if (i =? idx)%nat then Ok x else UB | None => UB end.
(** vi.h:144-163: the 16 cases of a switch over a large variant. *)
Definition cases_16 : list nat := [0; 1; 2; 3; 4; 5; 6; 7; 8; 9; 10; 11; 12; 13; 14; 15]%nat.
(** vi.h:169-356: the cases of the switch if [d] = VSz - N alternatives remain, 2 to 15
    (line 243 says >= 11, after the larger numbers have been handled). *)
Definition cases (d : nat) : list nat :=
  match d with
  | 15 => [0; 1; 2; 3; 4; 5; 6; 7; 8; 9; 10; 11; 12; 13; 14]
  | 14 => [0; 1; 2; 3; 4; 5; 6; 7; 8; 9; 10; 11; 12; 13]
  | 13 => [0; 1; 2; 3; 4; 5; 6; 7; 8; 9; 10; 11; 12]
  | 12 => [0; 1; 2; 3; 4; 5; 6; 7; 8; 9; 10; 11]
  | 11 => [0; 1; 2; 3; 4; 5; 6; 7; 8; 9; 10]
  | 10 => [0; 1; 2; 3; 4; 5; 6; 7; 8; 9]
  | 9 => [0; 1; 2; 3; 4; 5; 6; 7; 8]
  | 8 => [0; 1; 2; 3; 4; 5; 6; 7]
  | 7 => [0; 1; 2; 3; 4; 5; 6]
  | 6 => [0; 1; 2; 3; 4; 5]
  | 5 => [0; 1; 2; 3; 4]
  | 4 => [0; 1; 2; 3]
  | 3 => [0; 1; 2]
  | 2 => [0; 1]
  | _ => []
  end%nat.
(** switch( get_index( var ) ) with the cases N + c. *)
Fixpoint switch {V R} (n : nat) (cs : list nat) (v : variant V) (vis : nat -> V -> res R) (default : res R) : res R :=
  match cs with
  | [] => default
  | c :: cs =>
      if v_index v =? Z.of_nat (n + c) then x <- get_nt (n + c) v;; vis (n + c)%nat x
      else switch n cs v vis default
  end.
(** vi.h:140-358 visit_nt<N, R>; the fuel bounds the recursion in N, line 164.  The switch for 10
    alternatives (259-271) has no default, so control flows off the end: UB as well. *)
Fixpoint visit_from {V R} (fuel n : nat) (v : variant V) (vis : nat -> V -> res R) : res R :=
  match fuel with
  | O => OutOfFuel
  | S fuel =>
      let d := (v_size v - n)%nat in
      if (16 <=? d)%nat then
        switch n cases_16 v vis (if (16 <? d)%nat then visit_from fuel (n + 16) v vis else UB)
      else if (2 <=? d)%nat then switch n (cases d) v vis UB
      else x <- get_nt n v;; vis n x
  end.
(** vi.h:372-380 and 413-418 visit_nt. *)
Definition visit_nt {V R} (v : variant V) (vis : nat -> V -> res R) : res R := visit_from (S (v_size v)) 0 v vis.
(** vi.h:88-98 is_empty: if the class has a member variant_npos ([has_npos]) the index is compared
    with it; std::variant has no such member. *)
Definition is_empty {V} (has_npos : bool) (v : variant V) : bool := if has_npos then v_index v =? variant_npos else false.
(** vi.h:385-397 visit. *)
Definition visit {V R} (has_npos : bool) (v : variant V) (vis : nat -> V -> res R) : res R :=
  if is_empty has_npos v then Throw else visit_nt v vis.
(** vi.h:400-409 visit<Result>: the index, of type size_t, is tested for being negative. *)
Definition visit_result {V R} (v : variant V) (vis : nat -> V -> res R) : res R :=
  if v_index v <? 0 then Throw else visit_nt v vis.

(** * vc.h *)
(** vc.h:25-42 and 59-77 variant_cast<T>: [to i] is the conversion of alternative i to T, if there is one. *)
Definition variant_cast {V T} (to : nat -> option (V -> T)) (v : variant V) : res T :=
  visit_nt v (fun i x => match to i with Some f => Ok (f x) | None => Throw end).
(** vc.h:44-56 and 80-88 can_extract<T>: [is_t i] says that alternative i is the type T. *)
Definition can_extract {V} (is_t : nat -> bool) (v : variant V) : res bool :=
  visit_nt v (fun i _ => if is_t i then Ok true else Ok false).

(** * th.h *)
(** th.h:31-65 get( tuple, index ): the position of the element the result refers to, which is also the
    alternative it holds; [None] is std::abort( ).  [n] is the size of the tuple; the fuel is the number of
    instantiations left. *)
Fixpoint get_impl (more tpos : nat) (index : Z) : option nat :=
  match more with
  | O => None
  | S more => if index =? Z.of_nat tpos then Some tpos else get_impl more (S tpos) index
  end.
Definition tuple_get (n : nat) (index : Z) : option nat := get_impl n 0 index.
(** th.h:69-78 and 136-146 for_each and apply: a fold over &&, left to right; [f] changes a state and the
    element (apply on a tuple that is not constant). *)
Fixpoint tuple_apply {A S} (f : S -> A -> res (S * A)) (s : S) (tp : list A) : res (S * list A) :=
  match tp with
  | [] => Ok (s, [])
  | x :: tp => r <- f s x;; q <- tuple_apply f (fst r) tp;; Ok (fst q, snd r :: snd q)
  end.
(** Arithmetic operators on integers: the operands are converted to the common type; signed overflow and
    division by 0 are UB ([calc] is the arithmetic of the common type). *)
Inductive op := Add | Sub | Mul | Div.
Definition binary (o : op) (A : ity) (x : Z) (B : ity) (y : Z) : res Z :=
  let C := usual A B in
  let x := conv C x in
  let y := conv C y in
  match o with
  | Add => calc C (x + y)
  | Sub => calc C (x - y)
  | Mul => calc C (x * y)
  | Div => if y =? 0 then UB else calc C (Z.quot x y)
  end.
(** th.h:227-277 add_t, sub_t, mul_t, div_t: result = lhs op rhs, for an element of type [T]. *)
Definition op_t (o : op) (T A : ity) (x : Z) (B : ity) (y : Z) : res Z := z <- binary o A x B y;; Ok (conv T z).
(** th.h:80-106 min_t, max_t with daw::min and daw::max. *)
Definition min_t (T : ity) (x y : Z) : res Z := Ok (conv T (snd (vmin (T, x) [(T, y)]))).
Definition max_t (T : ity) (x y : Z) : res Z := Ok (conv T (snd (vmax (T, x) [(T, y)]))).
(** A tuple of integers: the types and the values.  th.h:150-166, 201-208 apply_tuple_tuple. *)
Fixpoint apply_tuple (f : ity -> Z -> Z -> res Z) (ts : list ity) (a b : list Z) : res (list Z) :=
  match ts, a, b with
  | T :: ts, x :: a, y :: b => z <- f T x y;; r <- apply_tuple f ts a b;; Ok (z :: r)
  | _, _, _ => Ok []
  end.
(** th.h:168-183, 219-225 apply_tuple_value. *)
Fixpoint apply_value (f : ity -> Z -> Z -> res Z) (ts : list ity) (a : list Z) (v : Z) : res (list Z) :=
  match ts, a with
  | T :: ts, x :: a => z <- f T x v;; r <- apply_value f ts a v;; Ok (z :: r)
  | _, _ => Ok []
  end.
(** th.h:185-199, 210-217 apply_tuple_value2. *)
Fixpoint apply_value2 (f : ity -> Z -> Z -> res Z) (ts : list ity) (v : Z) (b : list Z) : res (list Z) :=
  match ts, b with
  | T :: ts, y :: b => z <- f T v y;; r <- apply_value2 f ts v b;; Ok (z :: r)
  | _, _ => Ok []
  end.
(** th.h:280-362 the operators; [B] is the type of a single value. *)
Definition tuple_op_tuple (o : op) ts a b := apply_tuple (fun T x y => op_t o T T x T y) ts a b.
Definition value_op_tuple (o : op) B v ts b := apply_value2 (fun T x y => op_t o T B x T y) ts v b.
Definition tuple_op_value (o : op) ts a B v := apply_value (fun T x y => op_t o T T x B y) ts a v.
(** th.h:374-386 min, max. *)
Definition tuple_min ts a b := apply_tuple min_t ts a b.
Definition tuple_max ts a b := apply_tuple max_t ts a b.
(** th.h:110-133 print_t: the flag m_is_first and the text written so far.  Characters are numbers; [v] is the
    text the element is written as. *)
Definition print_one (s : bool * list Z) (v : list Z) : res ((bool * list Z) * list Z) :=
  let '(is_first, os) := s in
  let os := if negb is_first then os ++ [44] else os in
  Ok ((false, os ++ [32] ++ v), v).
(** th.h:365-372 operator<<. *)
Definition tuple_print (os : list Z) (t : list (list Z)) : res (list Z) :=
  r <- tuple_apply print_one (true, os ++ [123]) t;;
  Ok (snd (fst r) ++ [32; 125]).
(** th.h:388-453 apply_at: for each element in turn a copy of the callable, [func] in state [s], is invoked if
    the position is the index and the callable takes the element ([func] gives [Some] then).  The result is
    the list of the calls' effects; the callable itself keeps its state. *)
Fixpoint apply_at_impl {A E} (n : nat) (tp : list A) (index : Z) (func : A -> option E) : list E :=
  match tp with
  | [] => []
  | x :: tp =>
      (if Z.of_nat n =? index then match func x with Some e => [e] | None => [] end else []) ++
      apply_at_impl (S n) tp index func
  end.
Definition tuple_apply_at {A E} (tp : list A) (index : Z) (func : A -> option E) : list E := apply_at_impl 0 tp index func.
