(** Model of the iterator adaptors in include/daw/iterator.  No proofs in this file.

    An iterator into a container holding the list [l] is its position; moving it
    outside [begin, end] and reading at the end are UB.  ptrdiff_t is 64 bits, int 32
    bits; their overflow is UB.  Lifetimes of the containers are not modelled. *)
From Verif Require Import Common Ints Math AlgSearch Pipelines.
Open Scope Z_scope.

(** it + n on an iterator of a container with [len] elements. *)
Definition move (len p n : Z) : res Z :=
  if (0 <=? p + n) && (p + n <=? len) then Ok (p + n) else UB.
(** *( begin + p ). *)
Definition at_pos {A} (l : list A) (p : Z) : res A := if p <? 0 then UB else rd l (Z.to_nat p).
Definition zlen {A} (l : list A) : Z := Z.of_nat (length l).
(** A range that is only walked with ++ and compared with its end. *)
Definition forward {A} (S : Type) (first : S) (done : S -> bool) (deref : S -> res A) (step : S -> res S) : range A :=
  Range S first done deref step false (fun _ => UB).

(** * daw_circular_iterator.h.  The state is m_position; [l] the container. *)
(** 60-72 get_offset: [%=] by zero is UB. *)
Definition get_offset (size position n : Z) : res Z :=
  n <- calc i64 (n + position) ;;
  if n <? 0 then
    n <- calc i64 (n * -1) ;;
    if size =? 0 then UB else calc i64 (size - Z.rem n size)
  else if size <=? n then
    if size =? 0 then UB else Ok (Z.rem n size)
  else Ok n.
(** 127-130 and 167-171 operator+= and operator+; 132-135 and 173-177 operator-= and
    operator-. *)
Definition circ_add {A} (l : list A) (p n : Z) : res Z := get_offset (zlen l) p n.
Definition circ_sub {A} (l : list A) (p n : Z) : res Z :=
  m <- calc i64 (- n) ;; get_offset (zlen l) p m.
(** 145-165 ++ and --; 137-139 operator*. *)
Definition circ_inc {A} (l : list A) (p : Z) : res Z := get_offset (zlen l) p 1.
Definition circ_dec {A} (l : list A) (p : Z) : res Z := get_offset (zlen l) p (-1).
Definition circ_get {A} (l : list A) (p : Z) : res A := at_pos l p.
(** for( auto it = make_circular_iterator( l ); it != it.end( ); ++it ), 179-195. *)
Definition circ_range {A} (l : list A) : range A :=
  forward Z 0 (fun p => p =? zlen l) (circ_get l) (circ_inc l).

(** * daw_chunk_iterator.h.  [c] is m_chunk_size, the state the position of m_iterator. *)
(** 63-83 ++ and --. *)
Definition chunk_inc {A} (l : list A) (c p : Z) : res Z := move (zlen l) p c.
Definition chunk_dec {A} (l : list A) (c p : Z) : res Z := move (zlen l) p (- c).
(** 85-88 and 95-105 operator+= and operator+. *)
Definition chunk_add {A} (l : list A) (c p n : Z) : res Z :=
  d <- calc i64 (n * c) ;; move (zlen l) p d.
(** 90-93 and 113-117 operator-= and operator-: the code says m_iterator += as well. *)
Definition chunk_sub {A} (l : list A) (c p n : Z) : res Z :=
  d <- calc i64 (n * c) ;; move (zlen l) p d.
(** 119-122 the difference of two iterators; 132-134 operator<. *)
Definition chunk_diff (p q : Z) : res Z := calc i64 (p - q).
Definition chunk_lt (p q : Z) : bool := p <? q.
(** A loop from { begin, c } to { end, c }; 39-41 operator* and 128-130 operator!=. *)
Definition chunk_range {A} (c : Z) (l : list A) : range A :=
  forward Z 0 (fun p => p =? zlen l) (at_pos l) (chunk_inc l c).

(** * daw_indexed_iterator.h.  The state is m_position; [dbg] says whether
    dbg_precondition_check is compiled in (daw_exception.h 296-317); it aborts. *)
Definition check (dbg b : bool) : res unit := if dbg && negb b then Throw else Ok tt.
(** 38-43 the constructor, 207-233 ibegin and iend. *)
Definition idx_make {A} (dbg : bool) (l : list A) (pos : Z) : res Z :=
  _ <- check dbg (pos <=? zlen l) ;; Ok (conv i64 pos).
Definition ibegin {A} (dbg : bool) (l : list A) : res Z := idx_make dbg l 0.
Definition iend {A} (dbg : bool) (l : list A) : res Z := idx_make dbg l (zlen l).
(** 45-58 operator+= and operator-=. *)
Definition idx_add_assign {A} (dbg : bool) (l : list A) (p n : Z) : res Z :=
  q <- calc i64 (p + n) ;; _ <- check dbg (conv u64 q <=? zlen l) ;; Ok q.
Definition idx_sub_assign (dbg : bool) (p n : Z) : res Z :=
  q <- calc i64 (p - n) ;; _ <- check dbg (0 <=? q) ;; Ok q.
(** 60-90 operator* and operator->: the check allows the end position. *)
Definition idx_get {A} (dbg : bool) (l : list A) (p : Z) : res A :=
  _ <- check dbg (0 <=? p) ;; _ <- check dbg (conv u64 p <=? zlen l) ;; at_pos l (conv u64 p).
(** 92-122 ++ and --. *)
Definition idx_inc {A} (dbg : bool) (l : list A) (p : Z) : res Z :=
  _ <- check dbg (conv u64 p <=? zlen l) ;; calc i64 (p + 1).
Definition idx_dec (dbg : bool) (p : Z) : res Z := _ <- check dbg (0 <=? p) ;; calc i64 (p - 1).
(** 124-143 operator+ and next; 154-174 operator- and prev. *)
Definition idx_add {A} (dbg : bool) (l : list A) (p n : Z) : res Z :=
  q <- calc i64 (p + n) ;; _ <- check dbg ((0 <=? q) && (q <? zlen l)) ;; idx_make dbg l (conv u64 q).
Definition idx_sub {A} (dbg : bool) (l : list A) (p n : Z) : res Z :=
  q <- calc i64 (p - n) ;; _ <- check dbg ((0 <=? q) && (q <? zlen l)) ;; idx_make dbg l (conv u64 q).
(** 176-192 compare, for two iterators of one container. *)
Definition idx_compare (dbg : bool) (p q : Z) : res Z :=
  _ <- check dbg (0 <=? p) ;; _ <- check dbg (0 <=? q) ;;
  r <- calc i64 (p - q) ;; Ok (if r <? 0 then -1 else if 0 <? r then 1 else r).
(** 194-204 the difference of two iterators. *)
Definition idx_diff (dbg : bool) (p q : Z) : res Z :=
  _ <- check dbg (0 <=? p) ;; _ <- check dbg (0 <=? q) ;; _ <- check dbg (q <=? p) ;; calc i64 (p - q).
(** 285-337 the comparison operators. *)
Definition idx_eq dbg p q := c <- idx_compare dbg p q ;; Ok (c =? 0).
Definition idx_ne dbg p q := c <- idx_compare dbg p q ;; Ok (negb (c =? 0)).
Definition idx_lt dbg p q := c <- idx_compare dbg p q ;; Ok (c <? 0).
Definition idx_gt dbg p q := c <- idx_compare dbg p q ;; Ok (0 <? c).
Definition idx_le dbg p q := c <- idx_compare dbg p q ;; Ok (c <=? 0).
Definition idx_ge dbg p q := c <- idx_compare dbg p q ;; Ok (0 <=? c).
(** for( auto it = ibegin( l ); it != iend( l ); ++it ).  A failing comparison cannot
    happen for positions >= 0; it counts as not at the end here. *)
Definition idx_range {A} (dbg : bool) (l : list A) : range A :=
  forward Z 0 (fun p => match idx_eq dbg p (zlen l) with Ok b => b | _ => false end)
    (idx_get dbg l) (idx_inc dbg l).

(** * daw_find_iterator.h.  The state is the position of m_first; m_last is the end. *)
(** daw::algorithm::find_if( first, m_last, filter ). *)
Definition find_at {A} (filt : A -> bool) (l : list A) (first : nat) : nat :=
  (first + find_if filt (skipn first l))%nat.
(** 47-53 the constructor, 55-61 operator*, 71-75 ++, 83-91 begin and end, 101-109 the
    comparison.  std::next( m_first ) is UB at the end. *)
Definition find_range {A} (filt : A -> bool) (l : list A) : range A :=
  forward nat (find_at filt l 0) (fun p => (p =? length l)%nat) (rd l)
    (fun p => if (p <? length l)%nat then Ok (find_at filt l (S p)) else UB).

(** * daw_find_one_iterator.h. *)
(** daw_algorithm.h 2115-2120: the index of the first predicate that holds. *)
Fixpoint first_pred {A} (preds : list (A -> bool)) (idx : Z) (x : A) : option Z :=
  match preds with
  | [] => None
  | p :: preds => if p x then Some idx else first_pred preds (sz (idx + 1)) x
  end.
(** daw_algorithm.h 2111-2124 find_one_of on the elements from position [first] on;
    -std::size_t{ 1 } is 2^64 - 1. *)
Fixpoint find_one_of {A} (preds : list (A -> bool)) (l : list A) (first : nat) : nat * Z :=
  match l with
  | [] => (first, 2 ^ 64 - 1)
  | x :: l =>
      match first_pred preds (sz (2 ^ 64 - 1 + 1)) x with
      | Some idx => (first, idx)
      | None => find_one_of preds l (S first)
      end
  end.
(** 53-71 the constructor calls find_one_of but ignores its result: m_first stays
    [first] and m_last_index -1.  73-75 operator*, 81-90 ++, 98-106 begin and end,
    116-124 the comparison. *)
Definition find_one_range {A} (preds : list (A -> bool)) (l : list A) : range (A * Z) :=
  forward (nat * Z) (0%nat, 2 ^ 64 - 1) (fun s => (fst s =? length l)%nat)
    (fun s => x <- rd l (fst s) ;; Ok (x, snd s))
    (fun s => if (fst s <? length l)%nat then Ok (find_one_of preds (skipn (S (fst s)) l) (S (fst s))) else UB).

(** * daw_counting_iterators.h.  The state is m_iter and m_distance. *)
(** 54-58 (and 60-65, 147-158) ++; 160-171 --; 67-69 distance. *)
Definition cnt_inc {A} (l : list A) (s : Z * Z) : res (Z * Z) :=
  p <- move (zlen l) (fst s) 1 ;; d <- calc i64 (snd s + 1) ;; Ok (p, d).
Definition cnt_dec {A} (l : list A) (s : Z * Z) : res (Z * Z) :=
  p <- move (zlen l) (fst s) (-1) ;; d <- calc i64 (snd s - 1) ;; Ok (p, d).
(** 33-37 the constructor. *)
Definition cnt_make (p : Z) : Z * Z := (p, 0).
(** A history of ++ (true) and -- (false). *)
Fixpoint cnt_run {A} (l : list A) (ops : list bool) (s : Z * Z) : res (Z * Z) :=
  match ops with
  | [] => Ok s
  | b :: ops => s <- (if b then cnt_inc l s else cnt_dec l s) ;; cnt_run l ops s
  end.

(** * daw_iota_iterator.h for an integer type T.  The state is m_value; [step] is
    m_step. *)
(** 25-32 difference_type and size_type. *)
Definition signed_of (T : ity) : ity := {| signed := true; width := width T |}.
(** 52-62 operator+= and operator-=: the step is not used. *)
Definition iota_add_assign (T : ity) (v n : Z) : res Z :=
  r <- calc (promote (signed_of T)) (conv (signed_of T) v + n) ;; Ok (conv T r).
Definition iota_sub_assign (T : ity) (v n : Z) : res Z :=
  r <- calc (promote (signed_of T)) (conv (signed_of T) v - n) ;; Ok (conv T r).
(** 72-76 ++ and 84-88 --. *)
Definition iota_inc (T : ity) (step v : Z) : res Z :=
  r <- calc (promote (unsigned_of T)) (conv (unsigned_of T) v + conv (unsigned_of T) step) ;; Ok (conv T r).
Definition iota_dec (T : ity) (step v : Z) : res Z :=
  r <- calc (promote (unsigned_of T)) (conv (unsigned_of T) v - conv (unsigned_of T) step) ;; Ok (conv T r).
(** 96-112 operator+ and operator-; 119-121 operator[]. *)
Definition iota_add (T : ity) (step v n : Z) : res Z :=
  m <- calc (promote (signed_of T)) (step * n) ;;
  r <- calc (promote (unsigned_of T)) (conv (unsigned_of T) v + conv (unsigned_of T) m) ;; Ok (conv T r).
Definition iota_sub (T : ity) (step v n : Z) : res Z :=
  m <- calc (promote (signed_of T)) (step * n) ;;
  r <- calc (promote (unsigned_of T)) (conv (unsigned_of T) v - conv (unsigned_of T) m) ;; Ok (conv T r).
(** 114-117 the difference of two iterators. *)
Definition iota_diff (T : ity) (step v w : Z) : res Z :=
  d <- calc (promote T) (v - w) ;;
  if step =? 0 then UB
  else q <- calc (promote (signed_of T)) (Z.quot (conv (signed_of T) d) step) ;; Ok (conv (signed_of T) q).
(** 123-134 compare; the second test compares 0 with 0. *)
Definition iota_compare (T : ity) (v w : Z) : res Z :=
  d <- calc (promote T) (v - w) ;;
  Ok (if conv T d <? 0 then -1 else if 0 <? 0 then 1 else 0).
(** 136-164 the comparison operators; <= is written like <. *)
Definition iota_eq T v w := c <- iota_compare T v w ;; Ok (c =? 0).
Definition iota_ne T v w := c <- iota_compare T v w ;; Ok (negb (c =? 0)).
Definition iota_gt T v w := c <- iota_compare T v w ;; Ok (0 <? c).
Definition iota_ge T v w := c <- iota_compare T v w ;; Ok (0 <=? c).
Definition iota_lt T v w := c <- iota_compare T v w ;; Ok (c <? 0).
Definition iota_le T v w := c <- iota_compare T v w ;; Ok (c <? 0).
(** 195-207 iota_range{ start, last, step }: for( auto v: range ).  A comparison that
    overflows makes the following increment UB here. *)
Definition iota_range (T : ity) (start last step : Z) : range Z :=
  forward Z start (fun v => match iota_eq T v last with Ok b => b | _ => false end) (fun v => Ok v)
    (fun v => match iota_eq T v last with Ok _ => iota_inc T step v | _ => UB end).

(** * daw_integer_iterator.h 60-76 integer_range{ f, l }: 33-39 operator* and ++, 55-58
    operator!=. *)
Definition integer_range (T : ity) (f l : Z) : range Z :=
  forward Z f (fun v => v =? l) (fun v => Ok v) (fun v => assign_op T (v + 1)).

(** * daw_repeat_n_char_iterator.h.  The state is m_position. *)
(** 32-34 the constructor. *)
Definition rep_make (count : Z) : Z := conv i64 count.
(** 44-64 ++ and --. *)
Definition rep_inc (p : Z) : res Z := calc i64 (p - 1).
Definition rep_dec (p : Z) : res Z := calc i64 (p + 1).
(** 74-94 +=, -=, + and -. *)
Definition rep_add (p n : Z) : res Z := calc i64 (p + n).
Definition rep_sub (p n : Z) : res Z := calc i64 (p - n).
(** 96-99 the difference of two iterators. *)
Definition rep_diff (p q : Z) : res Z := calc i64 (q - p).
(** From repeat_n_char_iterator( count, v ) to repeat_n_char_end( ): 36-38 operator*,
    70-72 and 104-123. *)
Definition rep_range {A} (count : Z) (v : A) : range A :=
  forward Z (rep_make count) (fun p => p =? 0) (fun _ => Ok v) rep_inc.

(** * daw_zipiter.h for two iterators.  The state is m_values. *)
(** 54-72 and 99-119 ++ and --; 75-85 and 121-123 advance. *)
Definition zip_advance {A B} (l : list A) (m : list B) (s : Z * Z) (n : Z) : res (Z * Z) :=
  p <- move (zlen l) (fst s) n ;; q <- move (zlen m) (snd s) n ;; Ok (p, q).
Definition zip_inc {A B} (l : list A) (m : list B) (s : Z * Z) : res (Z * Z) := zip_advance l m s 1.
Definition zip_dec {A B} (l : list A) (m : list B) (s : Z * Z) : res (Z * Z) := zip_advance l m s (-1).
(** 140-160 operator*; 170-176 == and !=. *)
Definition zip_get {A B} (l : list A) (m : list B) (s : Z * Z) : res (A * B) :=
  x <- at_pos l (fst s) ;; y <- at_pos m (snd s) ;; Ok (x, y).
Definition zip_eq (s t : Z * Z) : bool := (fst s =? fst t) && (snd s =? snd t).
Definition zip_range {A B} (l : list A) (m : list B) : range (A * B) :=
  forward (Z * Z) (0, 0) (fun s => zip_eq s (zlen l, zlen m)) (zip_get l m) (zip_inc l m).

(** * Output iterators.  *out = v; ++out for every value in turn (std::copy). *)
Fixpoint output {S A} (assign : S -> A -> S) (s : S) (vs : list A) : S :=
  match vs with
  | [] => s
  | v :: vs => output assign (assign s v) vs
  end.
(** daw_function_iterator.h 41-44: the function is called; its effect is [f]. *)
Definition function_assign {S A} (f : S -> A -> S) (s : S) (v : A) : S := f s v.
(** daw_back_inserter.h 39-42 push_back; daw_end_inserter.h 39-42 insert at the end. *)
Definition back_assign {A} (c : list A) (v : A) : list A := c ++ [v].
Definition end_assign {A} (c : list A) (v : A) : list A := c ++ [v].
(** std::lower_bound on a container partitioned by [comp _ v]: the first position where
    it does not hold. *)
Fixpoint std_lower_bound {A} (comp : A -> A -> bool) (c : list A) (v : A) : nat :=
  match c with
  | [] => 0
  | x :: c => if comp x v then S (std_lower_bound comp c v) else 0
  end.
(** daw_sorted_insert_iterator.h 28-62: lower_bound, then emplace before it. *)
Definition sorted_assign {A} (comp : A -> A -> bool) (c : list A) (v : A) : list A :=
  let pos := std_lower_bound comp c v in firstn pos c ++ v :: skipn pos c.

(** * daw_checked_iterator_proxy.h.  [first] and [last] are positions in the container
    [l], the state is the position of [current]. *)
(** 38-48 get_flag_value: nsc_or yields a bool, which selects one flag alone. *)
Definition get_flag_value (inc dec deref : bool) : Z :=
  let result := if inc then 1 else 0 in
  let result := if negb (result =? 0) || dec then 2 else 0 in
  if negb (result =? 0) || deref then 4 else 0.
(** 34-36 is_flag_set. *)
Definition is_flag_set (flags flag : Z) : bool := negb (Z.land flags flag =? 0).
(** 70-77 ++ and 85-93 --. *)
Definition chk_inc {A} (l : list A) (flags last p : Z) : res Z :=
  if is_flag_set flags 1 && (p =? last) then Throw else move (zlen l) p 1.
Definition chk_dec {A} (l : list A) (flags first p : Z) : res Z :=
  if is_flag_set flags 2 && (p =? first) then Throw else move (zlen l) p (-1).
(** 79-83 and 95-99 the postfix operators are const: *this and the result. *)
Definition chk_post_inc {A} (l : list A) (flags last p : Z) : res (Z * Z) :=
  r <- chk_inc l flags last p ;; Ok (p, r).
Definition chk_post_dec {A} (l : list A) (flags first p : Z) : res (Z * Z) :=
  r <- chk_dec l flags first p ;; Ok (p, r).
(** 101-117 operator*. *)
Definition chk_get {A} (l : list A) (flags last p : Z) : res A :=
  if is_flag_set flags 4 && (p =? last) then Throw else at_pos l p.

(** * daw_argument_iterator.h.  argv is None for nullptr, else the argument array; the
    state is m_pos.  Two iterators with an argv are over the same array. *)
Record arg_it (A : Type) := Arg { m_argc : Z; m_pos : Z; m_argv : option (list A) }.
Arguments Arg {A} _ _ _. Arguments m_argc {A} _. Arguments m_pos {A} _. Arguments m_argv {A} _.
(** 33-35 and 31 the constructors, 167-169 end. *)
Definition arg_make {A} (argv : list A) : arg_it A := Arg (zlen argv) 0 (Some argv).
Definition arg_end {A} : arg_it A := Arg 0 0 None.
(** 37-39 operator*, 95-98 operator[]. *)
Definition arg_index {A} (a : arg_it A) (n : Z) : res A :=
  match m_argv a with
  | None => UB
  | Some l => q <- calc i64 (m_pos a + n) ;; at_pos l q
  end.
Definition arg_get {A} (a : arg_it A) : res A := arg_index a 0.
(** 41-44 ++, 69-72 operator+=: the offset is converted to int. *)
Definition arg_add {A} (a : arg_it A) (n : Z) : res (arg_it A) :=
  p <- calc i32 (m_pos a + conv i32 n) ;; Ok (Arg (m_argc a) p (m_argv a)).
Definition arg_inc {A} (a : arg_it A) : res (arg_it A) :=
  p <- calc i32 (m_pos a + 1) ;; Ok (Arg (m_argc a) p (m_argv a)).
(** 100-107 at. *)
Definition arg_at {A} (a : arg_it A) (n : Z) : res A :=
  pos <- calc i64 (m_pos a + n) ;;
  if (0 <? pos) && (pos <? m_argc a)
  then match m_argv a with None => UB | Some l => at_pos l pos end
  else Throw.
(** 109-111 at_end. *)
Definition arg_at_end {A} (a : arg_it A) : bool :=
  match m_argv a with None => true | Some _ => m_argc a <=? m_pos a end.
(** m_argv == rhs.m_argv. *)
Definition same_argv {A} (a b : arg_it A) : bool :=
  match m_argv a, m_argv b with Some _, Some _ => true | None, None => true | _, _ => false end.
(** 113-153 the comparisons. *)
Definition arg_eq {A} (a b : arg_it A) : bool :=
  if same_argv a b then m_pos a =? m_pos b else arg_at_end a && arg_at_end b.
Definition arg_ne {A} (a b : arg_it A) : bool :=
  if same_argv a b then negb (m_pos a =? m_pos b) else negb (arg_at_end a && arg_at_end b).
Definition arg_lt {A} (a b : arg_it A) : bool :=
  if same_argv a b then m_argc a <? m_argc b else negb (arg_at_end a) && arg_at_end b.
Definition arg_le {A} (a b : arg_it A) : bool :=
  if same_argv a b then m_argc a <=? m_argc b else arg_at_end b.
Definition arg_gt {A} (a b : arg_it A) : bool :=
  if same_argv a b then m_argc b <? m_argc a else arg_at_end a.
Definition arg_ge {A} (a b : arg_it A) : bool :=
  if same_argv a b then m_argc a <=? m_argc b else arg_at_end a.
(** for( auto sv: arg_iterator_t( argc, argv ) ). *)
Definition arg_range {A} (argv : list A) : range A :=
  forward (arg_it A) (arg_make argv) (fun a => negb (arg_ne a arg_end)) arg_get arg_inc.

(** * InputIterator.h: iterators of any type behind one.  An erased type is a number
    [t]; [V] are iterator values, [nxt t v] is ++ on a value of type t.  A heap cell
    holds a value together with the type it was allocated with. *)
Section Input.
Context {V : Type}.
Variable nxt : nat -> V -> V.

(** m_vtable (the type it belongs to) and m_iterator (a heap cell or nullptr). *)
Record input_it := Input { m_vtable : nat; m_iterator : option nat }.
Record istate := IState { cells : list (option (nat * V)); objs : list (option input_it) }.

Definition cell_of (w : istate) (t c : nat) : res V :=
  match nth_error (cells w) c with
  | Some (Some (t', v)) => if (t =? t')%nat then Ok v else UB
  | _ => UB
  end.
(** The slot of a live object. *)
Definition obj (w : istate) (i : nat) : res input_it :=
  match nth_error (objs w) i with Some (Some o) => Ok o | _ => UB end.
Definition set_obj (w : istate) (i : nat) (o : option input_it) : istate :=
  IState (cells w) (upd (objs w) i o).
(** 64-67 OpDel: delete through the wrong type is UB, delete nullptr does nothing. *)
Definition op_del (w : istate) (t : nat) (p : option nat) : res istate :=
  match p with
  | None => Ok w
  | Some c => _ <- cell_of w t c ;; Ok (IState (upd (cells w) c None) (objs w))
  end.
(** 88-92 OpClone: the new cell; nullptr is dereferenced. *)
Definition op_clone (w : istate) (t : nat) (p : option nat) : res (istate * nat) :=
  match p with
  | None => UB
  | Some c => v <- cell_of w t c ;; Ok (IState (cells w ++ [Some (t, v)]) (objs w), length (cells w))
  end.

Inductive iop :=
| IMake (t : nat) (v : V)   (* a new object from an iterator *)
| ICopy (j : nat)           (* a new object, copied from object j *)
| IMove (j : nat)           (* a new object, moved from object j *)
| ICopyAssign (i j : nat)   (* i = j *)
| IMoveAssign (i j : nat)   (* i = std::move( j ) *)
| IInc (i : nat)            (* ++i *)
| IDestroy (i : nat).

Definition istep (o : iop) (w : istate) : res istate :=
  match o with
  | IMake t v =>             (* 114-118, 124-130 *)
      Ok (IState (cells w ++ [Some (t, v)]) (objs w ++ [Some (Input t (Some (length (cells w))))]))
  | ICopy j =>               (* 132-134 *)
      x <- obj w j ;;
      ' (w, c) <- op_clone w (m_vtable x) (m_iterator x) ;;
      Ok (IState (cells w) (objs w ++ [Some (Input (m_vtable x) (Some c))]))
  | IMove j =>               (* 147-149 *)
      x <- obj w j ;;
      let w := set_obj w j (Some (Input (m_vtable x) None)) in
      Ok (IState (cells w) (objs w ++ [Some x]))
  | ICopyAssign i j =>       (* 136-145: the old cell is deleted with the new type *)
      x <- obj w i ;;
      if (i =? j)%nat then Ok w
      else
        y <- obj w j ;;
        ' (w, c) <- op_clone w (m_vtable y) (m_iterator y) ;;
        let w := set_obj w i (Some (Input (m_vtable y) (Some c))) in
        op_del w (m_vtable y) (m_iterator x)
  | IMoveAssign i j =>       (* 151-157: the old cell is forgotten *)
      x <- obj w i ;;
      if (i =? j)%nat then Ok w
      else
        y <- obj w j ;;
        let w := set_obj w j (Some (Input (m_vtable y) None)) in
        Ok (set_obj w i (Some y))
  | IInc i =>                (* 173-176 *)
      x <- obj w i ;;
      match m_iterator x with
      | None => UB
      | Some c =>
          v <- cell_of w (m_vtable x) c ;;
          Ok (IState (upd (cells w) c (Some (m_vtable x, nxt (m_vtable x) v))) (objs w))
      end
  | IDestroy i =>            (* 159-161 *)
      x <- obj w i ;;
      w <- op_del w (m_vtable x) (m_iterator x) ;;
      Ok (set_obj w i None)
  end.
End Input.
