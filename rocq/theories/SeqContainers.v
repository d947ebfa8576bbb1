(** Model of the two fixed-capacity sequence containers: ring_adaptor
    (include/daw/daw_ring_adaptor.h) and bounded_vector_t
    (include/daw/daw_bounded_vector.h).  No proofs in this file.

    Sizes and indices are size_t values: integers in [0, 2^64) with explicit
    wrapping ([sz]).  The element type is arbitrary and its copies, moves and
    constructions are plain value transfers that do not throw; a moved-from
    element keeps its value (nothing reads it before it is overwritten). *)
From Verif Require Import Common Ints.
Open Scope Z_scope.

Section Elem.
Context {A : Type}.

(** [a[z]] on an array, [z] a size_t: undefined outside the array. *)
Definition get (l : list A) (z : Z) : res A :=
  if (0 <=? z) && (z <? Z.of_nat (length l)) then rd l (Z.to_nat z) else UB.

(** [a[z] = x]. *)
Definition put (l : list A) (z : Z) (x : A) : res (list A) :=
  if (0 <=? z) && (z <? Z.of_nat (length l)) then wr l (Z.to_nat z) x else UB.

(** assert( b ): aborts in debug builds, no effect with NDEBUG. *)
Definition cassert (dbg b : bool) : res unit := if dbg && negb b then Throw else Ok tt.

(** ** ring_adaptor *)

(** daw_ring_adaptor.h:21-41: the container, m_head and m_tail.  The container is
    a fixed array; capacity( ) (71-77) is its length. *)
Record ring := { rq : list A; rhead : Z; rtail : Z }.

(** daw_ring_adaptor.h:71-77 capacity( ). *)
Definition r_capacity (r : ring) : Z := Z.of_nat (length (rq r)).

(** daw_ring_adaptor.h:35-41, 45-49: a new ring over the container [c]. *)
Definition r_make (c : list A) : ring := {| rq := c; rhead := 0; rtail := 0 |}.

(** daw_ring_adaptor.h:39-41 get_idx( ): remainder by a zero capacity is
    undefined. *)
Definition r_get_idx (r : ring) (i : Z) : res Z :=
  if r_capacity r =? 0 then UB else Ok (i mod r_capacity r).

(** daw_ring_adaptor.h:79-81 size( ). *)
Definition r_size (r : ring) : Z := sz (rtail r - rhead r).

(** daw_ring_adaptor.h:83-85 is_empty( ). *)
Definition r_is_empty (r : ring) : bool := rhead r =? rtail r.

(** daw_ring_adaptor.h:87-89 is_full( ). *)
Definition r_is_full (r : ring) : bool := r_size r =? r_capacity r.

(** daw_ring_adaptor.h:61-69 operator[]( idx ). *)
Definition r_at (dbg : bool) (r : ring) (idx : Z) : res A :=
  _ <- cassert dbg (idx <? r_size r) ;;
  i <- r_get_idx r (sz (rhead r + idx)) ;;
  get (rq r) i.

(** daw_ring_adaptor.h:91-94 clear( ). *)
Definition r_clear (r : ring) : ring := {| rq := rq r; rhead := 0; rtail := 0 |}.

(** daw_ring_adaptor.h:96-103 emplace_back( args... ): [v] is the constructed
    value. *)
Definition r_emplace_back (dbg : bool) (r : ring) (v : A) : res ring :=
  _ <- cassert dbg (negb (r_is_full r)) ;;
  idx <- r_get_idx r (rhead r) ;;
  q <- put (rq r) idx v ;;
  Ok {| rq := q; rhead := sz (rhead r + 1); rtail := rtail r |}.

(** daw_ring_adaptor.h:105-119 push_back( value ). *)
Definition r_push_back (dbg : bool) (r : ring) (v : A) : res ring :=
  _ <- cassert dbg (negb (r_is_full r)) ;;
  idx <- r_get_idx r (rtail r) ;;
  q <- put (rq r) idx v ;;
  Ok {| rq := q; rhead := rhead r; rtail := sz (rtail r + 1) |}.

(** daw_ring_adaptor.h:121-126 pop_front( ). *)
Definition r_pop_front (dbg : bool) (r : ring) : res (A * ring) :=
  _ <- cassert dbg (negb (r_is_empty r)) ;;
  idx <- r_get_idx r (rhead r) ;;
  x <- get (rq r) idx ;;
  Ok (x, {| rq := rq r; rhead := sz (rhead r + 1); rtail := rtail r |}).

(** daw_ring_adaptor.h:128-142 begin( ), end( ), with indexed_iterator
    (iterator/daw_indexed_iterator.h): reading the range from begin( ) to
    end( ) reads operator[] at the positions 0 .. size( ) - 1.  [n] positions
    from [i] on. *)
Fixpoint r_read (dbg : bool) (r : ring) (i : Z) (n : nat) : res (list A) :=
  match n with
  | O => Ok []
  | S n' =>
      x <- r_at dbg r i ;;
      xs <- r_read dbg r (i + 1) n' ;;
      Ok (x :: xs)
  end.

Definition r_contents (dbg : bool) (r : ring) : res (list A) :=
  r_read dbg r 0 (Z.to_nat (r_size r)).

(** The member functions that change a ring. *)
Inductive ring_op := RPush (v : A) | RPop | RClear | REmplace (v : A).

(** One call: the new ring and the value returned by pop_front, if any. *)
Definition ring_step (dbg : bool) (r : ring) (o : ring_op) : res (list A * ring) :=
  match o with
  | RPush v => r <- r_push_back dbg r v ;; Ok ([], r)
  | RPop => ' (x, r) <- r_pop_front dbg r ;; Ok ([x], r)
  | RClear => Ok ([], r_clear r)
  | REmplace v => r <- r_emplace_back dbg r v ;; Ok ([], r)
  end.

(** A history: all values popped, in order, and the last ring. *)
Fixpoint ring_run (dbg : bool) (r : ring) (os : list ring_op) : res (list A * ring) :=
  match os with
  | [] => Ok ([], r)
  | o :: os =>
      ' (x, r) <- ring_step dbg r o ;;
      ' (xs, r) <- ring_run dbg r os ;;
      Ok (x ++ xs, r)
  end.

(** ** bounded_vector_t *)

(** daw_bounded_vector.h:43-46: m_index, m_first and m_stack; N is the length
    of m_stack.  N > 0: the specialisation for N = 0 (353-465) has no state and
    is not modelled. *)
Record bvec := { bindex : Z; bfirst : Z; bstack : list A }.

(** T{ }. *)
Variable dflt : A.

(** daw_bounded_vector.h:49 the default constructor. *)
Definition b_empty (N : nat) : bvec := {| bindex := 0; bfirst := 0; bstack := repeat dflt N |}.

(** daw_bounded_vector.h:76-78 capacity( ). *)
Definition b_capacity (v : bvec) : Z := Z.of_nat (length (bstack v)).

(** The loops that store a sequence of values: from position [n] on, one slot
    after another. *)
Fixpoint b_store (st : list A) (n : Z) (xs : list A) : res (list A) :=
  match xs with
  | [] => Ok st
  | x :: xs => st <- put st n x ;; b_store st (n + 1) xs
  end.

(** daw_bounded_vector.h:51-55 bounded_vector_t( ptr, count ).  [mem] is what
    [ptr] points to; reading past it is undefined. *)
Definition b_from_ptr (N : nat) (mem : list A) (count : Z) : res bvec :=
  let c := Z.min count (Z.of_nat N) in
  if Z.of_nat (length mem) <? c then UB else
  st <- b_store (repeat dflt N) 0 (firstn (Z.to_nat c) mem) ;;
  Ok {| bindex := c; bfirst := 0; bstack := st |}.

(** daw_bounded_vector.h:57-62 bounded_vector_t( first, last ). *)
Definition b_from_range (N : nat) (l : list A) : res bvec :=
  st <- b_store (repeat dflt N) 0 l ;;
  Ok {| bindex := Z.of_nat (length l); bfirst := 0; bstack := st |}.

(** daw_bounded_vector.h:64-74 empty( ), full( ), size( ). *)
Definition b_is_empty (v : bvec) : bool := bindex v =? bfirst v.
Definition b_size (v : bvec) : Z := sz (bindex v - bfirst v).
Definition b_is_full (v : bvec) : bool := sz (bindex v - bfirst v) =? b_capacity v.

(** daw_bounded_vector.h:80-86 has_room( count ), available( ). *)
Definition b_has_room (v : bvec) (count : Z) : bool := b_capacity v <=? sz (count + b_size v).
Definition b_available (v : bvec) : Z := sz (b_capacity v - b_size v).

(** daw_bounded_vector.h:88-91 clear( ). *)
Definition b_clear (v : bvec) : bvec := {| bindex := 0; bfirst := 0; bstack := bstack v |}.

(** daw_bounded_vector.h:93-128 front( ), back( ), operator[], at( ). *)
Definition b_front (v : bvec) : res A := get (bstack v) (bfirst v).
Definition b_back (v : bvec) : res A := get (bstack v) (sz (bindex v - 1)).
Definition b_at_op (v : bvec) (pos : Z) : res A := get (bstack v) (sz (bfirst v + pos)).
Definition b_at (v : bvec) (pos : Z) : res A :=
  if pos <? b_size v then get (bstack v) (sz (pos + bfirst v)) else Throw.

(** daw_bounded_vector.h:138-172 begin( ), end( ): the slots from m_first to
    m_index, read in order.  (Forming [&m_stack[N]] for end( ) is taken to be
    the one-past-the-end pointer.) *)
Fixpoint b_read (st : list A) (i : Z) (n : nat) : res (list A) :=
  match n with
  | O => Ok []
  | S n' => x <- get st i ;; xs <- b_read st (i + 1) n' ;; Ok (x :: xs)
  end.

Definition b_contents (v : bvec) : res (list A) :=
  b_read (bstack v) (bfirst v) (Z.to_nat (b_size v)).

(** daw_bounded_vector.h:150-160, 174-184 rbegin( ), rend( ): a
    std::reverse_iterator reads the slot before its base. *)
Fixpoint b_rread (st : list A) (base : Z) (n : nat) : res (list A) :=
  match n with
  | O => Ok []
  | S n' => x <- get st (base - 1) ;; xs <- b_rread st (base - 1) n' ;; Ok (x :: xs)
  end.

Definition b_rcontents (v : bvec) : res (list A) :=
  b_rread (bstack v) (bindex v) (Z.to_nat (b_size v)).

(** daw_bounded_vector.h:187-193 do_move_to_front( ): the loop, [k] slots from
    [n] on, then the counters. *)
Fixpoint b_move_loop (st : list A) (first n : Z) (k : nat) : res (list A) :=
  match k with
  | O => Ok st
  | S k' =>
      x <- get st n ;;
      st <- put st (n - first) x ;;
      b_move_loop st first (n + 1) k'
  end.

Definition b_do_move_to_front (v : bvec) : res bvec :=
  st <- b_move_loop (bstack v) (bfirst v) (bfirst v) (Z.to_nat (bindex v - bfirst v)) ;;
  Ok {| bindex := sz (bindex v - bfirst v); bfirst := 0; bstack := st |}.

(** daw_bounded_vector.h:195-197 can_move_front( how_many ). *)
Definition b_can_move_front (v : bvec) (how_many : Z) : bool :=
  (0 <? bfirst v) && (sz (b_capacity v - how_many) <=? bindex v).

Definition b_make_room (v : bvec) (how_many : Z) : res bvec :=
  if b_can_move_front v how_many then b_do_move_to_front v else Ok v.

(** daw_bounded_vector.h:200-214 push_back( value ). *)
Definition b_push_back (v : bvec) (x : A) : res bvec :=
  v <- b_make_room v 1 ;;
  st <- put (bstack v) (bindex v) x ;;
  Ok {| bindex := sz (bindex v + 1); bfirst := bfirst v; bstack := st |}.

(** daw_bounded_vector.h:220-225 push_back( ): the returned position and the
    vector. *)
Definition b_push_new (v : bvec) : res (Z * bvec) :=
  v <- b_make_room v 1 ;;
  Ok (bindex v, {| bindex := sz (bindex v + 1); bfirst := bfirst v; bstack := bstack v |}).

(** daw_bounded_vector.h:227-237, 246-257 push_back( ptr, sz ); [mem] is what
    [ptr] points to. *)
Definition b_push_range (v : bvec) (mem : list A) (count : Z) : res bvec :=
  v <- b_make_room v count ;;
  let start := bindex v in
  let stop := sz (start + count) in
  let k := stop - start in
  if Z.of_nat (length mem) <? k then UB else
  st <- b_store (bstack v) start (firstn (Z.to_nat k) mem) ;;
  Ok {| bindex := stop; bfirst := bfirst v; bstack := st |}.

(** daw_bounded_vector.h:239-244 assign( count, value ). *)
Fixpoint b_push_times (v : bvec) (count : nat) (x : A) : res bvec :=
  match count with
  | O => Ok v
  | S n => v <- b_push_back v x ;; b_push_times v n x
  end.

Definition b_assign (v : bvec) (count : nat) (x : A) : res bvec :=
  b_push_times (b_clear v) count x.

(** daw_bounded_vector.h:259-266 emplace_back( args... ): [nargs] arguments
    which construct [x]. *)
Definition b_emplace_back (v : bvec) (nargs : Z) (x : A) : res bvec :=
  v <- b_make_room v nargs ;;
  st <- put (bstack v) (bindex v) x ;;
  Ok {| bindex := sz (bindex v + 1); bfirst := bfirst v; bstack := st |}.

(** daw_bounded_vector.h:268-270 pop_back( ). *)
Definition b_pop_back (v : bvec) : res (A * bvec) :=
  let i := sz (bindex v - 1) in
  x <- get (bstack v) i ;;
  Ok (x, {| bindex := i; bfirst := bfirst v; bstack := bstack v |}).

(** daw_bounded_vector.h:272-277 pop_front( count ). *)
Definition b_pop_front_n (v : bvec) (count : Z) : res bvec :=
  if bindex v <=? sz (bindex v - count)
  then Ok {| bindex := sz (bindex v + count); bfirst := bfirst v; bstack := bstack v |}
  else Throw.

(** daw_bounded_vector.h:280-284 pop_front( ). *)
Definition b_pop_front (v : bvec) : res (A * bvec) :=
  x <- b_front v ;;
  v <- b_pop_front_n v 1 ;;
  Ok (x, v).

(** daw_bounded_vector.h:286-300 resize( count ). *)
Definition b_resize (v : bvec) (count : Z) : res bvec :=
  if b_capacity v <? count then Throw else
  v <- (if b_size v <? count then
          v <- b_make_room v count ;;
          st <- b_store (bstack v) (b_size v) (repeat dflt (Z.to_nat (count - b_size v))) ;;
          Ok {| bindex := bindex v; bfirst := bfirst v; bstack := st |}
        else Ok v) ;;
  Ok {| bindex := count; bfirst := bfirst v; bstack := bstack v |}.

(** The swapping loops of erase (305-309, 320-324): [k] steps until the second
    position is end( ). *)
Fixpoint b_shift (st : list A) (i j : Z) (k : nat) : res (list A) :=
  match k with
  | O => Ok st
  | S k' =>
      x <- get st i ;;
      y <- get st j ;;
      st <- put st i y ;;
      st <- put st j x ;;
      b_shift st (i + 1) (j + 1) k'
  end.

(** std::next on a pointer into m_stack, as a slot number: past one-past-the-end
    is undefined. *)
Definition b_next (v : bvec) (slot : Z) : res Z :=
  if (0 <=? slot) && (slot <=? b_capacity v) then Ok slot else UB.

(** daw_bounded_vector.h:302-315 erase( pos ).  Iterators are slot numbers of
    m_stack.  When the second position is already past end( ) the loop does not
    stop inside the array: undefined. *)
Definition b_erase (v : bvec) (pos : Z) : res (Z * bvec) :=
  last <- b_next v (pos + 1) ;;
  if bindex v <? last then UB else
  st <- b_shift (bstack v) pos last (Z.to_nat (bindex v - last)) ;;
  v <- b_resize {| bindex := bindex v; bfirst := bfirst v; bstack := st |} (sz (b_size v - 1)) ;;
  if pos =? bindex v then Ok (bindex v, v)
  else r <- b_next v (pos + 1) ;; Ok (r, v).

(** daw_bounded_vector.h:317-336 erase( first, last ).  The debug check
    (327-329) is [dbg]. *)
Definition b_erase_range (dbg : bool) (v : bvec) (first last : Z) : res (Z * bvec) :=
  if bindex v <? last then UB else
  st <- b_shift (bstack v) first last (Z.to_nat (bindex v - last)) ;;
  let dist := last - first in
  _ <- cassert dbg ((dist <? b_size v) && (0 <=? dist)) ;;
  v <- b_resize {| bindex := bindex v; bfirst := bfirst v; bstack := st |} (sz (b_size v - dist)) ;;
  if last =? bindex v then Ok (bindex v, v)
  else r <- b_next v (last + 1) ;; Ok (r, v).

(** daw_bounded_vector.h:338-342 zero( ); [zero] is the element 0. *)
Definition b_zero (v : bvec) (zero : A) : res bvec :=
  st <- b_store (bstack v) 0 (repeat zero (length (bstack v))) ;;
  Ok {| bindex := bindex v; bfirst := bfirst v; bstack := st |}.

(** daw_bounded_vector.h:344-350 swap( rhs ), [k] = size( ) elements from [n]
    on. *)
Fixpoint b_swap_loop (l r : bvec) (n : Z) (k : nat) : res (bvec * bvec) :=
  match k with
  | O => Ok (l, r)
  | S k' =>
      x <- b_at_op l n ;;
      y <- b_at_op r n ;;
      ls <- put (bstack l) (sz (bfirst l + n)) y ;;
      rs <- put (bstack r) (sz (bfirst r + n)) x ;;
      b_swap_loop {| bindex := bindex l; bfirst := bfirst l; bstack := ls |}
                  {| bindex := bindex r; bfirst := bfirst r; bstack := rs |} (n + 1) k'
  end.

Definition b_swap (l r : bvec) : res (bvec * bvec) :=
  let l' := {| bindex := bindex r; bfirst := bfirst r; bstack := bstack l |} in
  let r' := {| bindex := bindex l; bfirst := bfirst l; bstack := bstack r |} in
  b_swap_loop l' r' 0 (Z.to_nat (b_size l')).

(** The member functions that change a vector. *)
Inductive vec_op :=
| VPush (x : A)
| VEmplace (nargs : Z) (x : A)
| VPushRange (xs : list A)
| VAssign (count : nat) (x : A)
| VPopBack
| VPopFront
| VResize (count : nat)
| VErase (pos : nat)
| VEraseRange (first last : nat)
| VClear
| VZero (zero : A).

(** One call: the values it returns (pop_back, pop_front) and the vector.
    Positions count from begin( ). *)
Definition vec_step (dbg : bool) (v : bvec) (o : vec_op) : res (list A * bvec) :=
  match o with
  | VPush x => v <- b_push_back v x ;; Ok ([], v)
  | VEmplace n x => v <- b_emplace_back v n x ;; Ok ([], v)
  | VPushRange xs => v <- b_push_range v xs (Z.of_nat (length xs)) ;; Ok ([], v)
  | VAssign n x => v <- b_assign v n x ;; Ok ([], v)
  | VPopBack => ' (x, v) <- b_pop_back v ;; Ok ([x], v)
  | VPopFront => ' (x, v) <- b_pop_front v ;; Ok ([x], v)
  | VResize n => v <- b_resize v (Z.of_nat n) ;; Ok ([], v)
  | VErase p => ' (_, v) <- b_erase v (bfirst v + Z.of_nat p) ;; Ok ([], v)
  | VEraseRange f l =>
      ' (_, v) <- b_erase_range dbg v (bfirst v + Z.of_nat f) (bfirst v + Z.of_nat l) ;; Ok ([], v)
  | VClear => Ok ([], b_clear v)
  | VZero z => v <- b_zero v z ;; Ok ([], v)
  end.

Fixpoint vec_run (dbg : bool) (v : bvec) (os : list vec_op) : res (list A * bvec) :=
  match os with
  | [] => Ok ([], v)
  | o :: os =>
      ' (x, v) <- vec_step dbg v o ;;
      ' (xs, v) <- vec_run dbg v os ;;
      Ok (x ++ xs, v)
  end.

End Elem.
Arguments ring : clear implicits.
Arguments bvec : clear implicits.
Arguments ring_op : clear implicits.
Arguments vec_op : clear implicits.
