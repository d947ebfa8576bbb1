(** Model of daw::basic_bounded_string
    (include/daw/deprecated/daw_bounded_string.h, "bs.h" below): a string of at most
    Capacity characters in a bounded_vector_t of Capacity + 1 elements, which is the
    [bvec] of SeqContainers.v.  No proofs in this file.

    Not modelled: operator=( std::basic_string ) (195-199) and swap (342-344,
    747-751), which cannot be instantiated, the hash functions and operator<<.
    Arguments that are views, std::strings or iterator ranges are the list of their
    characters; pointers are the memory behind them. *)
From Verif Require Import Common Ints BitsModel SeqContainers StringView StringView1.
Open Scope Z_scope.

Definition bstr := bvec Z.

(** bs.h:60, 67 the default constructor: m_data{ }. *)
Definition bs_empty (cap : nat) : bstr := b_empty 0 (S cap).
(** bs.h:73-74 basic_bounded_string( str_ptr, count ).  83-85 (std::basic_string),
    758-763 and 765-773 (make_bounded_string_it), 775-781 (make_bounded_string of a
    container) are this with data( ) and size( ). *)
Definition bs_ptr (cap : nat) (mem : list Z) (count : Z) : res bstr := b_from_ptr 0 (S cap) mem count.
(** bs.h:91-92 basic_bounded_string( str_ptr ), strlen of impl/daw_string_impl.h:68-78. *)
Definition bs_cstr (cap : nat) (mem : list Z) : res bstr :=
  n <- sv_strlen (Some mem) 0 ;; bs_ptr cap mem n.
(** bs.h:94-96 from an array that is not const. *)
Definition bs_array (cap : nat) (arr : list Z) : res bstr := bs_ptr cap arr (Z.of_nat (length arr) - 1).
(** bs.h:783-787 make_bounded_string( str ) of a string literal. *)
Definition bs_make_literal (cap : nat) (arr : list Z) : res bstr := bs_ptr cap arr (Z.of_nat (length arr)).

(** bs.h:281-291 data( ), c_str( ): the memory from the first character on. *)
Definition bs_mem (v : bstr) : list Z := skipn (Z.to_nat (bfirst v)) (bstack v).
(** bs.h:76-79 basic_bounded_string( str, count ) from a string of capacity [n]. *)
Definition bs_other (cap : nat) (n : nat) (str : bstr) (count : Z) : res bstr :=
  bs_ptr cap (bs_mem str) (Z.min count (Z.of_nat n)).
(** bs.h:317-320 conversion to another capacity. *)
Definition bs_convert (cap : nat) (str : bstr) : res bstr := bs_ptr cap (bs_mem str) (b_size str).

(** bs.h:297-303 size( ), length( ); 309-315 empty( ), operator bool. *)
Definition bs_size (v : bstr) : Z := b_size v.
Definition bs_is_empty (v : bstr) : bool := b_is_empty v.
(** bs.h:293-295, 305-307 capacity( ), max_size( ). *)
Definition bs_capacity (v : bstr) : Z := b_capacity v - 1.
(** bs.h:116-122 full( ), has_room( count ). *)
Definition bs_full (v : bstr) : bool := b_size v =? bs_capacity v.
Definition bs_has_room (v : bstr) (count : Z) : bool := b_has_room v (sz (count + 1)).
(** bs.h:201-247 begin( ), end( ), rbegin( ), rend( ): the characters read. *)
Definition bs_read (v : bstr) : res (list Z) := b_contents v.
Definition bs_rread (v : bstr) : res (list Z) := b_rcontents v.
(** bs.h:249-279 operator[], at, front, back. *)
Definition bs_index (v : bstr) (pos : Z) : res Z := b_at_op v pos.
Definition bs_at (v : bstr) (pos : Z) : res Z := b_at v pos.
Definition bs_front (v : bstr) : res Z := b_front v.
Definition bs_back (v : bstr) : res Z := b_back v.

(** The statement [*m_data.end( ) = 0]. *)
Definition bs_terminate (v : bstr) : res bstr :=
  st <- put (bstack v) (bindex v) 0 ;; Ok {| bindex := bindex v; bfirst := bfirst v; bstack := st |}.

(** bs.h:124-130 push_back( c ). *)
Definition bs_push_back (v : bstr) (c : Z) : res bstr :=
  if bs_full v then Throw else v <- b_push_back v c ;; bs_terminate v.
(** bs.h:132-138 append( c ). *)
Definition bs_append_char (v : bstr) (c : Z) : res bstr :=
  if b_is_full v then Throw else bs_push_back v c.
(** A copy through back_inserter( m_data ). *)
Fixpoint bs_insert (v : bstr) (xs : list Z) : res bstr :=
  match xs with
  | [] => Ok v
  | x :: xs => v <- b_push_back v x ;; bs_insert v xs
  end.
(** bs.h:140-183 append of a view, of a std::basic_string (two overloads) and of an
    iterator range: the same text. *)
Definition bs_append (v : bstr) (xs : list Z) : res bstr :=
  if sz (b_size v + Z.of_nat (length xs)) <=? bs_capacity v then
    v <- bs_insert v xs ;; bs_terminate v
  else Throw.
(** bs.h:185-191 append( t, pos, count ); substr of sv1. *)
Definition bs_append_sub (v : bstr) (t : list Z) (pos count : Z) : res bstr :=
  tmp <- range1 (Some t) 0 (Z.of_nat (length t)) ;;
  sub <- substr1 tmp pos count ;;
  xs <- to_string1 sub ;;
  bs_append v xs.
(** bs.h:322-329 remove_suffix( n ), remove_suffix( ). *)
Definition bs_remove_suffix (v : bstr) (n : Z) : res bstr :=
  v <- b_resize 0 v (sz (b_size v - n)) ;; bs_terminate v.
(** bs.h:331-334 clear( ). *)
Definition bs_clear (v : bstr) : res bstr := bs_terminate (b_clear v).
(** bs.h:336-340 pop_back( ): the character and the string. *)
Definition bs_pop_back (v : bstr) : res (Z * bstr) :=
  ' (c, v) <- b_pop_back v ;; v <- bs_terminate v ;; Ok (c, v).

(** bs.h:714-720 erase( pos ), erase( first, last ): iterators are slot numbers, as
    in SeqContainers.v. *)
Definition bs_erase_at (v : bstr) (pos : Z) : res (Z * bstr) := b_erase 0 v pos.
Definition bs_erase_range (dbg : bool) (v : bstr) (first last : Z) : res (Z * bstr) :=
  b_erase_range 0 dbg v first last.
(** bs.h:722-734 erase( index, count ). *)
Definition bs_erase (dbg : bool) (v : bstr) (index count : Z) : res bstr :=
  let first := bfirst v + swrap 64 index in
  let last := if count =? npos then bindex v else first + swrap 64 count in
  ' (_, v) <- b_erase_range 0 dbg v first last ;; Ok v.

(** bs.h:346-354 copy( dest, count, pos ): the destination and the number copied. *)
Definition bs_copy (v : bstr) (dest : list Z) (count pos : Z) : res (list Z * Z) :=
  if pos <? bs_size v then
    let rlen := Z.min count (sz (bs_size v - pos)) in
    dest <- copy1_loop (Z.to_nat rlen) (Some (bs_mem v)) pos dest 0 ;;
    Ok (dest, rlen)
  else Throw.
(** bs.h:356-364 substr( pos, count ): a string of the same capacity. *)
Definition bs_substr (v : bstr) (pos count : Z) : res bstr :=
  if pos <? bs_size v then
    let rcount := Z.min count (sz (bs_size v - pos)) in
    bs_ptr (Z.to_nat (bs_capacity v)) (skipn (Z.to_nat pos) (bs_mem v)) rcount
  else Throw.

(** bs.h:366-397 and 399-430, the same text: compare of [n0] characters with [n1];
    the lambda str_compare is the one of sv1. *)
Definition bs_compare_mem (m0 : list Z) (n0 : Z) (m1 : option (list Z)) (p1 n1 : Z) : res Z :=
  cmp <- str_compare1 (Z.to_nat (Z.min n0 n1)) (Some m0) 0 m1 p1 ;;
  if cmp =? 0 then
    if n0 <? n1 then Ok (-1) else if n1 <? n0 then Ok 1 else Ok cmp
  else Ok cmp.
(** bs.h:432-436 compare( rhs ). *)
Definition bs_compare (v w : bstr) : res Z :=
  bs_compare_mem (bs_mem v) (bs_size v) (Some (bs_mem w)) 0 (bs_size w).
(** bs.h:438-446 compare with a view or a std::basic_string. *)
Definition bs_compare_view (v : bstr) (w : view1) : res Z :=
  bs_compare_mem (bs_mem v) (bs_size v) (mem1 w) (first1 w) (size1 w).
(** bs.h:462-466 compare( s ) with a C string. *)
Definition bs_compare_cstr (v : bstr) (mem : list Z) : res Z :=
  w <- cstr1 (Some mem) 0 ;; bs_compare_view v w.
(** bs.h:448-452 and 454-460 compare of substrings. *)
Definition bs_compare_sub (v : bstr) (pos count : Z) (w : bstr) : res Z :=
  s <- bs_substr v pos count ;; bs_compare s w.
Definition bs_compare_subs (v : bstr) (pos1 count1 : Z) (w : bstr) (pos2 count2 : Z) : res Z :=
  s <- bs_substr v pos1 count1 ;; t <- bs_substr w pos2 count2 ;; bs_compare s t.

(** bs.h:791-837 the relational operators of two strings. *)
Definition bs_eq (l r : bstr) : res bool := c <- bs_compare l r ;; Ok (c =? 0).
Definition bs_ne (l r : bstr) : res bool := c <- bs_compare l r ;; Ok (negb (c =? 0)).
Definition bs_lt (l r : bstr) : res bool := c <- bs_compare l r ;; Ok (c <? 0).
Definition bs_le (l r : bstr) : res bool := c <- bs_compare l r ;; Ok (c <=? 0).
Definition bs_gt (l r : bstr) : res bool := c <- bs_compare l r ;; Ok (0 <? c).
Definition bs_ge (l r : bstr) : res bool := c <- bs_compare l r ;; Ok (0 <=? c).
(** bs.h:841-887, 942-982 a string and a view or std::basic_string. *)
Definition bs_eq_view (l : bstr) (r : view1) : res bool := c <- bs_compare_view l r ;; Ok (c =? 0).
Definition bs_ne_view (l : bstr) (r : view1) : res bool := c <- bs_compare_view l r ;; Ok (negb (c =? 0)).
Definition bs_lt_view (l : bstr) (r : view1) : res bool := c <- bs_compare_view l r ;; Ok (c <? 0).
Definition bs_le_view (l : bstr) (r : view1) : res bool := c <- bs_compare_view l r ;; Ok (c <=? 0).
Definition bs_gt_view (l : bstr) (r : view1) : res bool := c <- bs_compare_view l r ;; Ok (0 <? c).
Definition bs_ge_view (l : bstr) (r : view1) : res bool := c <- bs_compare_view l r ;; Ok (0 <=? c).
(** bs.h:891-937, 986-1032 a view or std::basic_string and a string. *)
Definition view_eq_bs (l : view1) (r : bstr) : res bool := c <- bs_compare_view r l ;; Ok (c =? 0).
Definition view_ne_bs (l : view1) (r : bstr) : res bool := c <- bs_compare_view r l ;; Ok (negb (c =? 0)).
Definition view_lt_bs (l : view1) (r : bstr) : res bool := c <- bs_compare_view r l ;; Ok (0 <? c).
Definition view_le_bs (l : view1) (r : bstr) : res bool := c <- bs_compare_view r l ;; Ok (0 <=? c).
Definition view_gt_bs (l : view1) (r : bstr) : res bool := c <- bs_compare_view r l ;; Ok (c <? 0).
Definition view_ge_bs (l : view1) (r : bstr) : res bool := c <- bs_compare_view r l ;; Ok (c <=? 0).

(** bs.h:104-108 conversion to a view, and the views { data( ), size( ) } that the
    search functions build. *)
Definition bs_view (v : bstr) : res view1 := range1 (Some (bs_mem v)) 0 (bs_size v).
(** bs.h:1036-1088, 1142-1188 equality of a string and a C string or an array of
    characters: compare( rhs ) of sv1 takes a pointer. *)
Definition bs_eq_cstr (l : bstr) (mem : list Z) : res bool :=
  x <- bs_view l ;; y <- cstr1 (Some mem) 0 ;; eq1 x y.
(** bs.h:1092-1098 a C string and a string; 1201-1206 an array, with != . *)
Definition cstr_eq_bs (mem : list Z) (r : bstr) : res bool :=
  x <- cstr1 (Some mem) 0 ;; y <- bs_view r ;; eq1 x y.
Definition array_ne_bs (arr : list Z) (r : bstr) : res bool :=
  x <- cstr1 (Some arr) 0 ;; y <- bs_view r ;; ne1 x y.
(** bs.h:1192-1199 an array and a string, with == . *)
Definition array_eq_bs (arr : list Z) (r : bstr) : res bool :=
  x <- range1 (Some arr) 0 (Z.of_nat (length arr) - 1) ;; y <- bs_view r ;; eq1 x y.

(** bs.h:478-482, 499-503, 520-537, 603-607, 639-643, 660-664 find, rfind,
    find_first_of, search, search_last, find_last_of, find_first_not_of,
    find_last_not_of of a string: [f] is the function of sv1 with that name. *)
Definition bs_search (f : view1 -> view1 -> Z -> res Z) (v w : bstr) (pos : Z) : res Z :=
  x <- bs_view v ;; y <- bs_view w ;; f x y pos.
Definition bs_find := bs_search find1.
Definition bs_rfind := bs_search rfind1.
Definition bs_find_first_of := bs_search find_first_of1.
Definition bs_find_last_of := bs_search find_last_of1.
Definition bs_find_first_not_of := bs_search find_first_not_of1.
(** bs.h:489-492, 510-513, 574-577, 625-628, 650-653 the same with a pointer and a
    count, which become a string of the capacity of *this first; 484-487, 505-508,
    569-572, 645-648 with a character: count 1. *)
Definition bs_search_ptr (f : view1 -> view1 -> Z -> res Z) (v : bstr) (mem : list Z) (pos count : Z) : res Z :=
  w <- bs_ptr (Z.to_nat (bs_capacity v)) mem count ;; bs_search f v w pos.
Definition bs_find_ptr := bs_search_ptr find1.
Definition bs_rfind_ptr := bs_search_ptr rfind1.
Definition bs_find_first_of_ptr := bs_search_ptr find_first_of1.
Definition bs_find_last_of_ptr := bs_search_ptr find_last_of1.
Definition bs_find_first_not_of_ptr := bs_search_ptr find_first_not_of1.
(** bs.h:539-567 find_first_of_if, find_first_not_of_if. *)
Definition bs_find_if (want : bool) (v : bstr) (pred : Z -> bool) (pos : Z) : res Z :=
  x <- bs_view v ;; find_first_if1 want x pred pos.

(** bs.h:682-712 starts_with, ends_with. *)
Definition bs_starts_with_char (v : bstr) (c : Z) : res bool :=
  if bs_is_empty v then Ok false else x <- bs_front v ;; Ok (x =? c).
Definition bs_starts_with (v s : bstr) : res bool :=
  x <- bs_view v ;; y <- bs_view s ;; starts_with1 x y.
Definition bs_ends_with_char (v : bstr) (c : Z) : res bool :=
  if bs_is_empty v then Ok false else x <- bs_back v ;; Ok (x =? c).
Definition bs_ends_with (v s : bstr) : res bool :=
  x <- bs_view v ;; y <- bs_view s ;; ends_with1 x y.
(** bs.h:694-696, 710-712 with a C string. *)
Definition bs_starts_with_cstr (v : bstr) (mem : list Z) : res bool :=
  s <- bs_cstr (Z.to_nat (bs_capacity v)) mem ;; bs_starts_with v s.
Definition bs_ends_with_cstr (v : bstr) (mem : list Z) : res bool :=
  s <- bs_cstr (Z.to_nat (bs_capacity v)) mem ;; bs_ends_with v s.

(** bs.h:585-590 to_string. *)
Definition bs_to_string (v : bstr) : res (list Z) := x <- bs_view v ;; to_string1 x.

(** bs.h:1238-1243 std::basic_string + string. *)
Definition string_plus_bs (lhs : list Z) (rhs : bstr) : res (list Z) := s <- bs_read rhs ;; Ok (lhs ++ s).
(** bs.h:1255-1261 C string + string. *)
Definition cstr_plus_bs (cap : nat) (mem : list Z) (rhs : bstr) : res bstr :=
  result <- bs_cstr cap mem ;; xs <- bs_read rhs ;; bs_append result xs.
(** bs.h:1264-1276 string + std::basic_string. *)
Definition bs_plus_string (lhs : bstr) (rhs : list Z) : res bstr := bs_append lhs rhs.
(** bs.h:1287-1292 string + C string. *)
Definition bs_plus_cstr (lhs : bstr) (mem : list Z) : res bstr :=
  w <- cstr1 (Some mem) 0 ;; xs <- to_string1 w ;; bs_append lhs xs.

(** bs.h:1294-1304 split; 1310-1331 forward to it. *)
Definition bs_split (v : bstr) (pred : Z -> bool) : res (list view1) :=
  x <- bs_view v ;; split1 x pred.

(** The member functions that change a string. *)
Inductive bs_op :=
| BPush (c : Z)
| BAppendChar (c : Z)
| BAppend (xs : list Z)
| BAppendSub (t : list Z) (pos count : Z)
| BRemoveSuffix (n : Z)
| BClear
| BPop
| BErase (p : nat)
| BEraseRange (f e : nat)
| BEraseIndex (index count : Z).

(** What the caller gets: the characters returned (pop_back) or an exception. *)
Inductive bs_out := Returned (cs : list Z) | Threw.

(** The functions other than the range erases check before they change anything,
    and resize checks first, too: after an exception the string is as before. *)
Definition bs_keep (v : bstr) (r : res bstr) : res (bs_out * bstr) :=
  match r with
  | Ok v' => Ok (Returned [], v')
  | Throw => Ok (Threw, v)
  | UB => UB
  | OutOfFuel => OutOfFuel
  end.

(** One call.  An exception of a range erase (debug builds only) ends the
    history.  Positions count from begin( ). *)
Definition bs_step (dbg : bool) (v : bstr) (o : bs_op) : res (bs_out * bstr) :=
  match o with
  | BPush c => bs_keep v (bs_push_back v c)
  | BAppendChar c => bs_keep v (bs_append_char v c)
  | BAppend xs => bs_keep v (bs_append v xs)
  | BAppendSub t pos count => bs_keep v (bs_append_sub v t pos count)
  | BRemoveSuffix n => bs_keep v (bs_remove_suffix v n)
  | BClear => bs_keep v (bs_clear v)
  | BPop => ' (c, v) <- bs_pop_back v ;; Ok (Returned [c], v)
  | BErase p => ' (_, v) <- bs_erase_at v (bfirst v + Z.of_nat p) ;; Ok (Returned [], v)
  | BEraseRange f e =>
      ' (_, v) <- bs_erase_range dbg v (bfirst v + Z.of_nat f) (bfirst v + Z.of_nat e) ;; Ok (Returned [], v)
  | BEraseIndex index count => v <- bs_erase dbg v index count ;; Ok (Returned [], v)
  end.

Fixpoint bs_run (dbg : bool) (v : bstr) (os : list bs_op) : res (list bs_out * bstr) :=
  match os with
  | [] => Ok ([], v)
  | o :: os =>
      ' (x, v) <- bs_step dbg v o ;;
      ' (xs, v) <- bs_run dbg v os ;;
      Ok (x :: xs, v)
  end.
