(** Model of include/daw/pipelines: ranges and the stages that transform them.  No
    proofs in this file.

    A range is a first iterator together with the operations on iterators: comparison
    with the end, dereferencing, increment and, for random access iterators, the
    distance to the end.  An iterator is a value, so copying one is free.  Leaving the
    allowed range, failing assertions (NDEBUG or not) and reading outside are UB.
    Lifetimes (ranges that refer to a destroyed container) are not modelled.  Loops
    inside the stages take a fuel argument. *)
From Verif Require Import Common Ints Math.
Open Scope Z_scope.

Record range (A : Type) := Range {
  st : Type;
  cur : st;
  at_end : st -> bool;
  get : st -> res A;
  inc : st -> res st;
  random : bool;         (* std::distance is [rdist]: random access iterators *)
  rdist : st -> res Z    (* std::end( r ) - it *)
}.
Arguments Range {A} _ _ _ _ _ _ _.
Arguments st {A} _. Arguments cur {A} _. Arguments at_end {A} _ _. Arguments get {A} _ _.
Arguments inc {A} _ _. Arguments random {A} _. Arguments rdist {A} _ _.

(** for( auto && x: r ): the elements visited. *)
Fixpoint walk {A} (fuel : nat) (r : range A) (s : st r) : res (list A) :=
  match fuel with
  | O => OutOfFuel
  | S fuel =>
      if at_end r s then Ok []
      else
        x <- get r s ;;
        s <- inc r s ;;
        xs <- walk fuel r s ;;
        Ok (x :: xs)
  end.
Definition for_each {A} (fuel : nat) (r : range A) : res (list A) := walk fuel r (cur r).

(** std::distance( it, std::end( r ) ). *)
Fixpoint count_steps {A} (fuel : nat) (r : range A) (s : st r) : res Z :=
  match fuel with
  | O => OutOfFuel
  | S fuel =>
      if at_end r s then Ok 0
      else
        s <- inc r s ;;
        n <- count_steps fuel r s ;;
        Ok (n + 1)
  end.
Definition distance {A} (fuel : nat) (r : range A) (s : st r) : res Z :=
  if random r then rdist r s else count_steps fuel r s.

(** std::next( it, n ) for n >= 0, step by step. *)
Fixpoint next {A} (r : range A) (s : st r) (n : nat) : res (st r) :=
  match n with
  | O => Ok s
  | S n => s <- inc r s ;; next r s n
  end.
(** The elements of range_t{ it, std::next( it, n ) }. *)
Fixpoint next_n {A} (r : range A) (s : st r) (n : nat) : res (list A) :=
  match n with
  | O => Ok []
  | S n => x <- get r s ;; s <- inc r s ;; xs <- next_n r s n ;; Ok (x :: xs)
  end.
(** Steps forward, but not past the end: daw_algorithm.h 92-129 safe_advance_impl. *)
Fixpoint safe_next {A} (r : range A) (s : st r) (n : nat) : res (st r) :=
  match n with
  | O => Ok s
  | S n => if at_end r s then Ok s else s <- inc r s ;; safe_next r s n
  end.

(** A range over an array, std::vector, contiguous_view, string_view. *)
Definition of_list {A} (l : list A) : range A :=
  Range nat 0%nat (fun i => (i =? length l)%nat) (rd l)
    (fun i => if (i <? length l)%nat then Ok (S i) else UB)
    true (fun i => Ok (Z.of_nat (length l) - Z.of_nat i)).

(** pipelines/iota.h: 30-182 iota_view<T>{ first, last }. *)
Definition iota_view (T : ity) (first last : Z) : range Z :=
  Range Z first (fun v => v =? last) (fun v => Ok v) (fun v => assign_op T (v + 1))
    true (fun v => d <- calc (promote T) (last - v) ;; Ok (conv i64 d)).

(** pipelines/map.h: 20-216 map_iterator and map_view.  Dereferencing (78-84) does
    not use the projection. *)
Definition Map {A B} (fn : A -> B) (projection : A -> A) (r : range A) : range B :=
  Range (st r) (cur r) (at_end r) (fun s => x <- get r s ;; Ok (fn x)) (inc r) (random r) (rdist r).
(** 236-258: the single value form. *)
Definition MapValue {A B} (fn : A -> B) (projection : A -> A) (v : A) : B := fn (projection v).

(** pipelines/filter.h: 25-128 filter_view.  The predicate may have state: it is
    copied with the iterator. *)
Section Filter.
Context {A Q : Type}.
Variable fuel : nat.
Variable pred : Q -> A -> bool * Q.
Variable r : range A.
(** 63-65, 107-109: while( good( ) and not filter( *m_first ) ) ++m_first *)
Fixpoint skip_filtered (fuel : nat) (s : st r) (q : Q) : res (st r * Q) :=
  match fuel with
  | O => OutOfFuel
  | S fuel =>
      if at_end r s then Ok (s, q)
      else
        x <- get r s ;;
        let (b, q) := pred q x in
        if b then Ok (s, q)
        else s <- inc r s ;; skip_filtered fuel s q
  end.
Definition filter_view (q : Q) : res (range A) :=
  start <- skip_filtered fuel (cur r) q ;;
  Ok (Range (st r * Q) start (fun sq => at_end r (fst sq)) (fun sq => get r (fst sq))
       (fun sq => s <- inc r (fst sq) ;; skip_filtered fuel s (snd sq))
       false (fun _ => UB)).
End Filter.
Definition Filter {A} (fuel : nat) (p : A -> bool) (r : range A) : res (range A) :=
  filter_view fuel (fun (_ : unit) x => (p x, tt)) r tt.

(** pipelines/take.h: 48-63 TakeWhile_t, 67-82 TakeUntil_t, 88-94. *)
Definition take_while_fn {A} (fn : A -> bool) (m_trigger : bool) (value : A) : bool * bool :=
  if m_trigger then (true, true)
  else if negb (fn value) then (true, true)
  else (false, false).
Definition take_until_fn {A} (fn : A -> bool) (m_trigger : bool) (value : A) : bool * bool :=
  if m_trigger then (false, true)
  else if fn value then (false, true)
  else (true, false).
Definition TakeWhile {A} (fuel : nat) (fn : A -> bool) (r : range A) : res (range A) :=
  filter_view fuel (take_while_fn fn) r false.
Definition TakeUntil {A} (fuel : nat) (fn : A -> bool) (r : range A) : res (range A) :=
  filter_view fuel (take_until_fn fn) r false.

(** pipelines/every.h: 15-30. *)
Definition every_fn {A} (select_every : Z) (n : Z) (_ : A) : bool * Z :=
  if n >=? select_every then (true, 1) else (false, sz (n + 1)).
Definition Every {A} (fuel : nat) (select_every : Z) (r : range A) : res (range A) :=
  filter_view fuel (every_fn select_every) r select_every.

(** pipelines/sized_iterator.h: 21-172, without the debug check. *)
Definition sized_range {A} (r : range A) (how_many : Z) : range A :=
  Range (st r * Z) (cur r, conv i64 how_many) (fun sc => snd sc =? 0) (fun sc => get r (fst sc))
    (fun sc => c <- calc i64 (snd sc - 1) ;; s <- inc r (fst sc) ;; Ok (s, c))
    (random r) (fun sc => Ok (snd sc)).
(** pipelines/take.h: 25-46 Take_t, forward ranges. *)
Definition Take {A} (fuel : nat) (how_many : Z) (r : range A) : res (range A) :=
  range_size <- distance fuel r (cur r) ;;
  let take_size := Z.min range_size (conv i64 how_many) in
  Ok (sized_range r (conv u64 take_size)).

(** range_t{ it, std::end( r ) } *)
Definition from {A} (r : range A) (s : st r) : range A :=
  Range (st r) s (at_end r) (get r) (inc r) (random r) (rdist r).
(** pipelines/skip.h: 20-45 Skip_t, forward ranges; std::next with a negative count
    leaves the range. *)
Definition Skip {A} (fuel : nat) (how_many : Z) (r : range A) : res (range A) :=
  range_size <- distance fuel r (cur r) ;;
  let skip := Z.min (conv i64 how_many) range_size in
  if skip <? 0 then UB
  else s <- next r (cur r) (Z.to_nat skip) ;; Ok (from r s).

(** pipelines/drop.h: 15-37. *)
Fixpoint drop_loop {A} (fuel : nat) (stop : A -> bool) (r : range A) (f : st r) : res (st r) :=
  match fuel with
  | O => OutOfFuel
  | S fuel =>
      if at_end r f then Ok f
      else x <- get r f ;; if stop x then Ok f else f <- inc r f ;; drop_loop fuel stop r f
  end.
Definition DropWhile {A} (fuel : nat) (pred : A -> bool) (r : range A) : res (range A) :=
  f <- drop_loop fuel (fun x => negb (pred x)) r (cur r) ;; Ok (from r f).
Definition DropUntil {A} (fuel : nat) (pred : A -> bool) (r : range A) : res (range A) :=
  f <- drop_loop fuel pred r (cur r) ;; Ok (from r f).

(** pipelines/chunk.h: 20-127 chunk_view; the chunks are given by their elements.
    There is no operator-, so a distance is counted. *)
Definition Chunk {A} (chunk_size : Z) (r : range A) : range (list A) :=
  let m_chunk_size := conv i64 chunk_size in
  Range (st r) (cur r) (at_end r)
    (fun s => if m_chunk_size <? 0 then UB else next_n r s (Z.to_nat m_chunk_size))
    (fun s => safe_next r s (Z.to_nat m_chunk_size))
    false (fun _ => UB).

(** pipelines/slide.h: 20-127 slide_view. *)
Definition Slide {A} (slide_size : Z) (r : range A) : range (list A) :=
  let m_slide_size := conv i64 slide_size in
  Range (st r) (cur r) (at_end r)
    (fun s => if m_slide_size <? 0 then UB else next_n r s (Z.to_nat m_slide_size))
    (fun s => it <- safe_next r s (Z.to_nat m_slide_size) ;; if at_end r it then Ok it else inc r s)
    false (fun _ => UB).

(** pipelines/zip.h: 34-224 zip_iterator of two iterators; operator!= is false if
    either is at its end (142-153); operator- is that of the first (199-202). *)
Definition Zip {A B} (r1 : range A) (r2 : range B) : range (A * B) :=
  Range (st r1 * st r2) (cur r1, cur r2) (fun s => at_end r1 (fst s) || at_end r2 (snd s))
    (fun s => x <- get r1 (fst s) ;; y <- get r2 (snd s) ;; Ok (x, y))
    (fun s => s1 <- inc r1 (fst s) ;; s2 <- inc r2 (snd s) ;; Ok (s1, s2))
    (random r1 && random r2) (fun s => rdist r1 (fst s)).
(** pipelines/enumerate.h: 21-39 Enumerate_t and EnumerateFrom_t. *)
Definition EnumerateFrom {A} (T : ity) (offset : Z) (r : range A) : range (Z * A) :=
  Zip (iota_view T offset (highest T)) r.
Definition Enumerate {A} (T : ity) (r : range A) : range (Z * A) := EnumerateFrom T 0 r.

(** pipelines/flatten.h: 39-158 flatten_view; the inner ranges are arrays, an inner
    iterator is a position in the current one. *)
Definition Flatten {A} (r : range (list A)) : range A :=
  Range (st r * nat) (cur r, 0%nat) (fun s => at_end r (fst s))
    (fun s => if at_end r (fst s) then UB else l <- get r (fst s) ;; rd l (snd s))
    (fun s =>
       if at_end r (fst s) then UB
       else
         l <- get r (fst s) ;;
         if (length l <=? snd s)%nat then UB
         else if (S (snd s) =? length l)%nat then s' <- inc r (fst s) ;; Ok (s', 0%nat)
         else Ok (fst s, S (snd s)))
    false (fun _ => UB).

(** pipelines/concat.h: 23-118 concat_view of arrays; a pair of iterators is what is
    left of its array, m_index the number of the current array. *)
Definition Concat {A} (ranges : list (list A)) : range A :=
  Range (nat * list (list A)) (0%nat, ranges)
    (fun s => forallb (fun l => match l with [] => true | _ => false end) (snd s))
    (fun s => l <- rd (snd s) (fst s) ;; rd l 0)
    (fun s =>
       l <- rd (snd s) (fst s) ;;
       match l with
       | [] => UB
       | x :: l' => Ok (match l' with [] => S (fst s) | _ => fst s end, upd (snd s) (fst s) l')
       end)
    false (fun _ => UB).

(** pipelines/unique.h: 18-90 unique_view. *)
Fixpoint skip_equal {A} (fuel : nat) (eqb : A -> A -> bool) (r : range A) (v : A) (s : st r) : res (st r) :=
  match fuel with
  | O => OutOfFuel
  | S fuel =>
      if at_end r s then Ok s
      else x <- get r s ;; if eqb x v then s <- inc r s ;; skip_equal fuel eqb r v s else Ok s
  end.
Definition Unique {A} (fuel : nat) (eqb : A -> A -> bool) (r : range A) : range A :=
  Range (st r) (cur r) (at_end r) (get r)
    (fun s =>
       if at_end r s then Ok s
       else v <- get r s ;; s <- inc r s ;; skip_equal fuel eqb r v s)
    false (fun _ => UB).

(** pipelines/split.h: 49-126 split_view_iterator over an array.  [find first]: the
    position m_next becomes (66-81); an iterator is m_first and m_next.  The length of
    the delimiter is always 1 (23-44). *)
Definition delimiter_length : nat := 1.
Section SplitIter.
Context {A : Type}.
Variable find : nat -> nat.
Variable l : list A.
(** 66-81: sets the mutable member m_next. *)
Definition increment_iterator (s : nat * option nat) : nat * option nat :=
  match snd s with
  | Some _ => s
  | None => if (fst s =? length l)%nat then s else (fst s, Some (find (fst s)))
  end.
(** 99-107 operator++, on an iterator as it is. *)
Definition split_inc (s : nat * option nat) : res (nat * option nat) :=
  match snd s with
  | None => UB
  | Some first =>
      if (first =? length l)%nat then Ok (first, None)
      else if (length l <? first + delimiter_length)%nat then UB
      else Ok ((first + delimiter_length)%nat, None)
  end.
(** 115-119 operator*: also leaves m_next set. *)
Definition split_deref (s : nat * option nat) : res (list A) :=
  match snd (increment_iterator s) with
  | None => UB
  | Some n => Ok (firstn (n - fst s) (skipn (fst s) l))
  end.
Definition split_at_end (s : nat * option nat) : bool :=
  (fst s =? length l)%nat && match snd s with None => true | Some _ => false end.
(** std::distance: increments without dereferencing. *)
Fixpoint split_distance (fuel : nat) (s : nat * option nat) : res Z :=
  match fuel with
  | O => OutOfFuel
  | S fuel =>
      if split_at_end s then Ok 0 else s <- split_inc s ;; n <- split_distance fuel s ;; Ok (n + 1)
  end.
(** The increment of this range is that of an iterator that was dereferenced before,
    which sets m_next: every loop that looks at the elements does so.  The distance is
    the loop without dereferencing. *)
Definition split_view : range (list A) :=
  Range (nat * option nat) (increment_iterator (0%nat, None)) split_at_end split_deref
    (fun s => split_inc (increment_iterator s))
    true (split_distance (S (S (length l)))).
End SplitIter.
(** The first position from [i] on where [p] holds, else the end. *)
Fixpoint find_from {A} (p : list A -> bool) (l : list A) (i : nat) : nat :=
  match l with
  | [] => i
  | _ :: l' => if p l then i else find_from p l' (S i)
  end.
(** 70-72 and 76-79 FindIf and Find; 73-75 std::search (its specification). *)
Definition find_value {A} (p : A -> bool) (l : list A) (first : nat) : nat :=
  find_from (fun rest => match rest with [] => false | x :: _ => p x end) (skipn first l) first.
Definition is_prefix {A} (eqb : A -> A -> bool) :=
  fix is_prefix (d l : list A) : bool :=
    match d, l with
    | [], _ => true
    | _, [] => false
    | x :: d, y :: l => eqb y x && is_prefix d l
    end.
Definition std_search {A} (eqb : A -> A -> bool) (d l : list A) (first : nat) : nat :=
  find_from (is_prefix eqb d) (skipn first l) first.
Definition Split {A} (delimiter : A -> bool) (l : list A) : range (list A) := split_view (find_value delimiter l) l.
Definition SplitRange {A} (eqb : A -> A -> bool) (delimiter l : list A) : range (list A) :=
  split_view (std_search eqb delimiter l) l.

(** iterator/daw_reverse_iterator.h: 19-116 and pipelines/reverse.h: 20-40, over an
    array; an iterator is its base position. *)
Definition Reverse {A} (l : list A) : range A :=
  Range nat (length l) (fun i => (i =? 0)%nat)
    (fun i => match i with O => UB | S j => rd l j end)
    (fun i => match i with O => UB | S j => Ok j end)
    true (fun i => Ok (Z.of_nat i)).
(** 27-33: of a reversed range. *)
Definition ReverseReversed {A} (l : list A) : range A := of_list l.

(** ** Stages that end a pipeline *)
(** pipelines/find.h: 49-67 FindValue_t; [eqb needle projected]. *)
Fixpoint find_loop {A} (fuel : nat) (p : A -> bool) (r : range A) (first : st r) : res (st r) :=
  match fuel with
  | O => OutOfFuel
  | S fuel =>
      if at_end r first then Ok first
      else x <- get r first ;; if p x then Ok first else s <- inc r first ;; find_loop fuel p r s
  end.
Definition Find {A B} (fuel : nat) (eqb : B -> B -> bool) (needle : B) (projection : A -> B) (r : range A) : res (st r) :=
  find_loop fuel (fun x => eqb needle (projection x)) r (cur r).
(** 25-47 finder, 68-93 FindIf_t; the needle gets the list of FindWidth values. *)
Fixpoint end_of {A} (fuel : nat) (r : range A) (s : st r) : res (st r) :=
  match fuel with
  | O => OutOfFuel
  | S fuel => if at_end r s then Ok s else s <- inc r s ;; end_of fuel r s
  end.
Fixpoint steps_to {A} (r : range A) (s : st r) (n : nat) : res nat :=
  match n with
  | O => Ok 0%nat
  | S n => if at_end r s then Ok 0%nat else s <- inc r s ;; k <- steps_to r s n ;; Ok (S k)
  end.
Fixpoint find_if_loop {A B} (fuel : nat) (width : nat) (needle : list B -> bool) (projection : A -> B) (r : range A)
    (first : st r) : res (st r) :=
  match fuel with
  | O => OutOfFuel
  | S fuel =>
      if at_end r first then Ok first
      else
        d <- steps_to r first width ;;   (* std::distance( first, safe_next( first, last, width ) ) *)
        if (d <? width)%nat then end_of (S fuel) r first
        else
          xs <- next_n r first width ;;
          if needle (map projection xs) then Ok first
          else s <- inc r first ;; find_if_loop fuel width needle projection r s
  end.
Definition FindIf {A B} (fuel width : nat) (needle : list B -> bool) (projection : A -> B) (r : range A) : res (st r) :=
  find_if_loop fuel width needle projection r (cur r).

(** pipelines/algorithm.h: 161-182 Contains_t. *)
Fixpoint contains_loop {A} (fuel : nat) (found : A -> bool) (r : range A) (first : st r) : res bool :=
  match fuel with
  | O => OutOfFuel
  | S fuel =>
      if at_end r first then Ok false
      else x <- get r first ;; if found x then Ok true else s <- inc r first ;; contains_loop fuel found r s
  end.
Definition Contains {A B C} (fuel : nat) (compare : B -> C -> bool) (projection : A -> B) (needle : C) (r : range A) : res bool :=
  contains_loop fuel (fun x => compare (projection x) needle) r (cur r).

(** pipelines/first.h: 46-60 FirstFn. *)
Definition First {A} (r : range A) : res (option A) :=
  if at_end r (cur r) then Ok None else x <- get r (cur r) ;; Ok (Some x).

(** pipelines/numeric.h: 21-31 sum_t for an integral value type; 33-46 count_t of a
    range without size( ); 48-60 CountIf_t. *)
Fixpoint fold_range {A B} (fuel : nat) (f : B -> A -> res B) (r : range A) (acc : B) (s : st r) : res B :=
  match fuel with
  | O => OutOfFuel
  | S fuel =>
      if at_end r s then Ok acc
      else x <- get r s ;; acc <- f acc x ;; s <- inc r s ;; fold_range fuel f r acc s
  end.
Definition Sum (fuel : nat) (T : ity) (r : range Z) : res Z :=
  fold_range fuel (fun sum v => assign_op T (sum + v)) r 0 (cur r).
Definition Count {A} (fuel : nat) (r : range A) : res Z :=
  d <- distance fuel r (cur r) ;; Ok (conv u64 d).
Definition CountIf {A} (fuel : nat) (fn : A -> bool) (r : range A) : res Z :=
  fold_range fuel (fun n v => Ok (sz (n + if fn v then 1 else 0))) r 0 (cur r).

(** pipelines/to.h: 72-104 ToArray of [n] elements. *)
Fixpoint to_array {A} (n : nat) (default : A) (r : range A) (first : st r) : res (list A) :=
  match n with
  | O => Ok []
  | S n =>
      if at_end r first then xs <- to_array n default r first ;; Ok (default :: xs)
      else x <- get r first ;; s <- inc r first ;; xs <- to_array n default r s ;; Ok (x :: xs)
  end.
Definition ToArray {A} (n : nat) (default : A) (r : range A) : res (list A) := to_array n default r (cur r).
