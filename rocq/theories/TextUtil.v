(** Model of the character, number and parameter pack helpers of
    include/daw/daw_ascii.h, include/daw/daw_utility.h and
    include/daw/daw_string_concat.h.  Characters and integers are mathematical
    integers, conversions between types are explicit.  No proofs in this file. *)
From Verif Require Import Common Ints BitsModel.
Open Scope Z_scope.

(** ** daw_ascii.h *)

(** lines 18-29 is_ascii_digit.  [Integer{ 48 }] is the number 48 in every
    integer type that can hold it; both operands have the same type. *)
Definition is_ascii_digit (c : Z) : bool := (48 <=? c) && (c <=? 57).

(** lines 31-43 is_ascii_alpha. *)
Definition is_ascii_alpha (c : Z) : bool :=
  ((65 <=? c) && (c <=? 90)) || ((97 <=? c) && (c <=? 122)).

(** lines 45-55 is_ascii_alphanum. *)
Definition is_ascii_alphanum (c : Z) : bool := is_ascii_digit c || is_ascii_alpha c.

(** lines 57-67 is_ascii_printable. *)
Definition is_ascii_printable (c : Z) : bool := (32 <=? c) && (c <? 127).

(** lines 69-82 to_upper_ascii; [T] is the integer type. *)
Definition to_upper_ascii (T : ity) (c : Z) : Z :=
  if (97 <=? c) && (c <=? 122) then conv T (c - 32) else c.

(** lines 84-97 to_lower_ascii. *)
Definition to_lower_ascii (T : ity) (c : Z) : Z :=
  if (65 <=? c) && (c <=? 90) then conv T (c + 32) else c.

(** ** daw_utility.h, characters *)

(** daw_utility.h:298-304 AsciiUpper( chr ); [C] is the type char.  ~32U is
    2^32 - 33. *)
Definition AsciiUpper (C : ity) (chr : Z) : Z :=
  if (97 <=? chr) && (chr <=? 122)
  then conv C (Z.land (conv u32 (conv u8 chr)) (2 ^ 32 - 1 - 32)) else chr.

(** daw_utility.h:306-312 AsciiLower( chr ). *)
Definition AsciiLower (C : ity) (chr : Z) : Z :=
  if (65 <=? chr) && (chr <=? 90)
  then conv C (conv u8 (Z.lor (conv u32 (conv u8 chr)) 32)) else chr.

(** daw_utility.h:314-332 AsciiUpper( str ), AsciiLower( str ) on a string of
    CharType [W].  The lambda receives a [CharType], the call converts it to
    char, and the char that comes back is converted to [CharType].  The map over
    the string in place is [map]. *)
Definition AsciiUpper_str (C W : ity) (str : list Z) : list Z :=
  map (fun c => conv W (AsciiUpper C (conv C c))) str.
Definition AsciiLower_str (C W : ity) (str : list Z) : list Z :=
  map (fun c => conv W (AsciiLower C (conv C c))) str.

(** daw_utility.h:469-475 get_nibble( c ). *)
Definition get_nibble (c : Z) : Z :=
  let c := Z.land c 15 in
  if c <? 10 then 48 + c else 65 + (c - 10).

(** daw_utility.h:477-483 get_lc_nibble( c ). *)
Definition get_lc_nibble (c : Z) : Z :=
  let c := Z.land c 15 in
  if c <? 10 then 48 + c else 97 + (c - 10).

(** An output iterator: a position in a character buffer, or a back_inserter on
    a string. *)
Inductive out_it :=
| Buf (buf : list Z) (pos : nat)
| Back (str : list Z).

(** [*it = c] and [++it].  A back_insert_iterator appends on assignment and its
    increment does nothing. *)
Definition out_put (o : out_it) (c : Z) : res out_it :=
  match o with
  | Buf b p => b <- wr b p c ;; Ok (Buf b p)
  | Back s => Ok (Back (s ++ [c]))
  end.
Definition out_next (o : out_it) : out_it :=
  match o with
  | Buf b p => Buf b (S p)
  | Back s => Back s
  end.

(** daw_utility.h:486-495 hex( c, it_out ).  The char is converted to uint8_t
    first. *)
Definition hex_char (c : Z) (o : out_it) : res out_it :=
  let n := conv u8 c in
  o <- out_put o (get_nibble (Z.shiftr n 4)) ;;
  let o := out_next o in
  o <- out_put o (get_nibble (Z.land n 15)) ;;
  Ok (out_next o).

(** daw_utility.h:497-506 hex_lc( c, it_out ). *)
Definition hex_lc_char (c : Z) (o : out_it) : res out_it :=
  let n := conv u8 c in
  o <- out_put o (get_lc_nibble (Z.shiftr n 4)) ;;
  let o := out_next o in
  o <- out_put o (get_lc_nibble (Z.land n 15)) ;;
  Ok (out_next o).

(** daw_utility.h:508-516 hex( val, it_out ) for an integer of [n] = sizeof( T )
    bytes; [C] is the type char.  The shift of a negative value is arithmetic. *)
Fixpoint hex_int_loop (C : ity) (n : nat) (val : Z) (o : out_it) : res out_it :=
  match n with
  | O => Ok o
  | S k =>
      o <- hex_char (conv C (Z.shiftr val (8 * Z.of_nat k))) o ;;
      hex_int_loop C k val o
  end.
Definition hex_int (C T : ity) (val : Z) (o : out_it) : res out_it :=
  hex_int_loop C (Z.to_nat (width T / 8)) val o.

(** daw_utility.h:518-530 hex( val, it_out ) for any other object; [bytes] is its
    representation. *)
Fixpoint hex_object (bytes : list Z) (o : out_it) : res out_it :=
  match bytes with
  | [] => Ok o
  | b :: bytes =>
      o <- hex_char b o ;;
      hex_object bytes (out_next o)
  end.

(** daw_utility.h:532-545 hex( first_in, last_in, first_out ) on integers. *)
Fixpoint hex_range (C T : ity) (vals : list Z) (o : out_it) : res out_it :=
  match vals with
  | [] => Ok o
  | v :: vals => o <- hex_int C T v o ;; hex_range C T vals o
  end.

(** daw_utility.h:547-560 hex( str, len, first_out ) and hex( str, first_out ) on
    an array of N characters, the last of which is not written. *)
Fixpoint hex_str_loop (str : list Z) (n len : nat) (o : out_it) : res out_it :=
  match len with
  | O => Ok o
  | S len =>
      c <- rd str n ;;
      o <- hex_char c o ;;
      hex_str_loop str (S n) len o
  end.
Definition hex_str (str : list Z) (len : nat) (o : out_it) : res out_it :=
  hex_str_loop str 0 len o.
Definition hex_array (str : list Z) (o : out_it) : res out_it :=
  hex_str str (length str - 1) o.

(** daw_utility.h:562-575 hex( first_in, last_in, first_out ) on other objects:
    what is encoded is [*first_out].  Only an output position in a character
    buffer is modelled; the inputs only determine the number of rounds. *)
Fixpoint hex_objects (inputs : list (list Z)) (o : out_it) : res out_it :=
  match inputs with
  | [] => Ok o
  | _ :: inputs =>
      match o with
      | Buf b p =>
          c <- rd b p ;;
          o <- hex_char c o ;;
          hex_objects inputs o
      | Back _ => UB
      end
  end.

(** ** daw_utility.h, numbers *)

(** daw_utility.h:408-415 bitcount( value ); [fuel] bounds the loop.  Right
    shift of a negative value is arithmetic; the conversion to size_t and the
    addition wrap. *)
Fixpoint bitcount_loop (fuel : nat) (value result : Z) : res Z :=
  match fuel with
  | O => OutOfFuel
  | S fuel =>
      if value =? 0 then Ok result
      else bitcount_loop fuel (Z.shiftr value 1) (sz (result + sz (Z.land value (Z.lnot 1))))
  end.
Definition bitcount (fuel : nat) (value : Z) : res Z := bitcount_loop fuel value 0.

(** daw_utility.h:417-422 bitcount( value, values... ). *)
Fixpoint bitcount_all (fuel : nat) (value : Z) (values : list Z) : res Z :=
  match values with
  | [] => bitcount fuel value
  | v :: values =>
      a <- bitcount fuel value ;;
      b <- bitcount_all fuel v values ;;
      Ok (sz (a + b))
  end.

(** [t <= u] and [t < u] for operands of types [T] and [U]. *)
Definition c_le (T U : ity) (t u : Z) : bool :=
  conv (usual T U) t <=? conv (usual T U) u.
Definition c_lt (T U : ity) (t u : Z) : bool :=
  conv (usual T U) t <? conv (usual T U) u.

(** daw_utility.h:424-437 can_fit<D>( value ), value of type [S]. *)
Definition can_fit (D S : ity) (value : Z) : bool :=
  if c_le i32 S 0 value then c_le S D value (highest D)
  else if signed D then c_le D S (lowest D) value
  else false.

(** daw_utility.h:808-814 in_range( value, lower, upper ) with operands of types
    [V], [L] and [U]. *)
Definition in_range3 (V L U : ity) (value lower upper : Z) : bool :=
  c_le L V lower value && c_lt V U value upper.

(** daw_utility.h:868-879 narrow_cast<D>( value ), value of type [S]; in_range is
    the one of daw_int_cmp.h. *)
Definition narrow_cast (D S : ity) (value : Z) : res Z :=
  if in_range D S value then Ok (conv D value) else Throw.

(** daw_utility.h:392-405 or_all( values... ) on one unsigned type. *)
Fixpoint or_all (values : list Z) : Z :=
  match values with
  | [] => 0
  | [v] => v
  | v :: values => Z.lor v (or_all values)
  end.

(** daw_utility.h:725-729, 732-740, 743-754, 757-781 value_from_chars( ptr ) for
    1, 2, 4 and 8 bytes; [rd] reads the character at an offset.  The shifts of
    the 2 and 4 byte versions are on int; their result is converted to the
    unsigned type at once. *)
Definition value_from_chars8 (m : list Z) : res Z := rd m 0.
Definition value_from_chars16 (m : list Z) : res Z :=
  a <- rd m 0 ;; b <- rd m 1 ;;
  Ok (conv u16 (Z.lor (conv u16 (Z.shiftl a 8)) b)).
Definition value_from_chars32 (m : list Z) : res Z :=
  a <- rd m 0 ;; b <- rd m 1 ;; c <- rd m 2 ;; d <- rd m 3 ;;
  let result := conv u32 (Z.shiftl a 24) in
  let result := Z.lor result (conv u32 (Z.shiftl b 16)) in
  let result := Z.lor result (conv u32 (Z.shiftl c 8)) in
  Ok (Z.lor result (conv u32 d)).
Definition value_from_chars64 (m : list Z) : res Z :=
  a <- rd m 0 ;; b <- rd m 1 ;; c <- rd m 2 ;; d <- rd m 3 ;;
  e <- rd m 4 ;; f <- rd m 5 ;; g <- rd m 6 ;; h <- rd m 7 ;;
  let result := conv u64 (Z.shiftl (conv u64 a) 56) in
  let result := Z.lor result (conv u64 (Z.shiftl (conv u64 b) 48)) in
  let result := Z.lor result (conv u64 (Z.shiftl (conv u64 c) 40)) in
  let result := Z.lor result (conv u64 (Z.shiftl (conv u64 d) 32)) in
  let result := Z.lor result (conv u64 (Z.shiftl (conv u64 e) 24)) in
  let result := Z.lor result (conv u64 (Z.shiftl (conv u64 f) 16)) in
  let result := Z.lor result (conv u64 (Z.shiftl (conv u64 g) 8)) in
  Ok (Z.lor result (conv u64 h)).

Close Scope Z_scope.

(** ** daw_utility.h, packs and containers *)

Section Packs.
  Context {A : Type} (eqb : A -> A -> bool).

  (** daw_utility.h:626-635 pack_index_of_v<T, Ts...>: the elements of the
      expander are evaluated in order; [pos] is the value of pos after the
      increment, which starts it at 0. *)
  Fixpoint pack_index_loop (t : A) (ts : list A) (pos result : nat) : nat :=
    match ts with
    | [] => result
    | u :: ts => pack_index_loop t ts (S pos) (if eqb u t then pos else result)
    end.
  Definition pack_index_of (t : A) (ts : list A) : nat :=
    pack_index_loop t ts 0 (length ts).

  (** daw_utility.h:880-888 pack_get<N>( args... ); [pos] is the template
      parameter.  An index past the end does not compile, which the model shows
      as [UB]. *)
  Fixpoint pack_get_from (N pos : nat) (args : list A) : res A :=
    match args with
    | [] => UB
    | arg :: args => if pos =? N then Ok arg else pack_get_from N (S pos) args
    end.
  Definition pack_get (N : nat) (args : list A) : res A := pack_get_from N 0 args.

  (** daw_utility.h:890-916 pack_apply( N, func, args... ).  [ok x] says whether
      the function can be called with x; the result is the list of calls made.
      [pos] counts up to sizeof...( Args ), [k] = sizeof...( Args ) - pos. *)
  Fixpoint pack_apply_from (k pos N : nat) (ok : A -> bool) (args : list A) : res (list A) :=
    match k with
    | O => Ok []
    | S k =>
        if N =? pos then
          x <- pack_get pos args ;;
          Ok (if ok x then [x] else [])
        else pack_apply_from k (S pos) N ok args
    end.
  Definition pack_apply (N : nat) (ok : A -> bool) (args : list A) : res (list A) :=
    pack_apply_from (length args) 0 N ok args.

  (** daw_utility.h:855-864 value_is( v ).one_of( args... ) and none_of: folds
      over or / and.  [!=] is the negation of [==]. *)
  Definition one_of (v : A) (args : list A) : bool :=
    fold_right (fun a r => eqb v a || r) false args.
  Definition none_of (v : A) (args : list A) : bool :=
    fold_right (fun a r => negb (eqb v a) && r) true args.

  (** daw_utility.h:268-278 copy_vector( container, num_items ). *)
  Definition copy_vector (container : list A) (num_items : nat) : res (list A) :=
    if num_items <=? length container then Ok (firstn num_items container) else Throw.

  (** daw_utility.h:376-390 contains( container, item ) and index_of( container,
      item ) with the loop of daw::algorithm::find written out:
      algorithms/daw_algorithm_find.h find( first, last, value ). *)
  Fixpoint find_pos (l : list A) (item : A) : nat :=
    match l with
    | [] => 0
    | x :: l => if eqb x item then 0 else S (find_pos l item)
    end.
  Definition contains (l : list A) (item : A) : bool := negb (find_pos l item =? length l).
  Definition index_of (l : list A) (item : A) : nat := find_pos l item.

  (** daw_utility.h:117-133 equal_to_last: m_value.  Objects live in a memory of
      cells, [None] for a cell whose object is gone. *)
  Definition cells := list (option A).
  Definition look (m : cells) (a : nat) : res A :=
    match nth_error m a with
    | Some (Some x) => Ok x
    | _ => UB
    end.
  Definition el_call (m : cells) (last : option nat) (a : nat) : res (bool * option nat) :=
    v <- look m a ;;
    r <- match last with
         | None => Ok false
         | Some p => w <- look m p ;; Ok (eqb w v)
         end ;;
    Ok (r, Some a).

  (** What a program does: store in a cell, end the life of an object, call the
      functor on the object in a cell.  The answers of the calls are returned. *)
  Inductive el_op := Store (a : nat) (x : A) | Gone (a : nat) | Call (a : nat).
  Fixpoint el_run (m : cells) (last : option nat) (os : list el_op) : res (list bool) :=
    match os with
    | [] => Ok []
    | Store a x :: os => m <- wr m a (Some x) ;; el_run m last os
    | Gone a :: os => m <- wr m a None ;; el_run m last os
    | Call a :: os =>
        ' (r, last) <- el_call m last a ;;
        rs <- el_run m last os ;;
        Ok (r :: rs)
    end.
End Packs.
Arguments Store {A}.
Arguments Gone {A}.
Arguments Call {A}.

(** ** daw_string_concat.h *)

(** daw_string_concat.h:148-157 string_concat( arg, strings... ).  The calls to
    append are operands of a fold over +, so C++ leaves their order open:
    [order] lists the numbers of the strings in the order in which they are
    appended. *)
Fixpoint append_all {A} (order : list nat) (arg : list A) (strings : list (list A))
    : res (list A) :=
  match order with
  | [] => Ok arg
  | k :: order => s <- rd strings k ;; append_all order (arg ++ s) strings
  end.
Definition string_concat {A} (order : list nat) (arg : list A) (strings : list (list A))
    : res (list A) := append_all order arg strings.

(** string_join_iterator, daw_string_concat.h:19-142: m_strings, m_first (string
    number and offset, [None] for nullptr) and m_idx.  The viewed objects are
    std::strings: a terminating NUL is readable behind the last character. *)
Record join (A : Type) := Join { j_strings : list (list A); j_first : option (nat * nat); j_idx : nat }.
Arguments Join {A}.
Arguments j_strings {A}.
Arguments j_first {A}.
Arguments j_idx {A}.

Section Join.
  Context {A : Type} (nul : A).

  (** lines 35-37 empty( ). *)
  Definition j_empty (i : join A) : bool := length (j_strings i) <=? j_idx i.

  (** line 40 the default constructor; n is StringCount. *)
  Definition join_end (n : nat) : join A := Join (repeat [] n) None n.

  (** lines 42-48 the constructor from strings. *)
  Definition join_begin (ss : list (list A)) : join A := Join ss (Some (0, 0)) 0.

  (** lines 50-52 operator*. *)
  Definition join_deref (i : join A) : res A :=
    match j_first i with
    | None => UB
    | Some (s, k) => str <- rd (j_strings i) s ;; rd (str ++ [nul]) k
    end.

  (** lines 58-71 operator++.  m_first never leaves string m_idx; an increment
      past the terminator is undefined. *)
  Definition join_next (i : join A) : res (join A) :=
    match j_first i with
    | None => UB
    | Some (s, k) =>
        str <- rd (j_strings i) s ;;
        if length str <? k then UB
        else
          let k := S k in
          cur <- rd (j_strings i) (j_idx i) ;;
          if negb ((s =? j_idx i) && (k =? length cur))
          then Ok (Join (j_strings i) (Some (s, k)) (j_idx i))
          else
            let i := Join (j_strings i) (Some (s, k)) (S (j_idx i)) in
            if j_empty i then Ok (Join (j_strings i) None (j_idx i))
            else Ok (Join (j_strings i) (Some (j_idx i, 0)) (j_idx i))
    end.

  (** lines 135-141 operator==, operator!=. *)
  Definition join_eq (i k : join A) : bool :=
    match j_first i, j_first k with
    | None, None => true
    | Some (a, b), Some (c, d) => (a =? c) && (b =? d)
    | _, _ => false
    end.

  (** lines 122-133 operator- of two iterators; std::terminate is [Throw]. *)
  Definition join_diff (i k : join A) : res nat :=
    if j_empty i then Ok (list_sum (map (@length A) (j_strings k))) else Throw.

  (** for( ; it != last; ++it ) out.push_back( *it ). *)
  Fixpoint join_collect (fuel : nat) (i last : join A) : res (list A) :=
    match fuel with
    | O => OutOfFuel
    | S fuel =>
        if join_eq i last then Ok []
        else
          x <- join_deref i ;;
          i <- join_next i ;;
          rest <- join_collect fuel i last ;;
          Ok (x :: rest)
    end.
  (** [n] increments. *)
  Fixpoint join_advance (n : nat) (i : join A) : res (join A) :=
    match n with
    | O => Ok i
    | S n => i <- join_next i ;; join_advance n i
    end.
End Join.
