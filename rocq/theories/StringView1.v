(** Model of the deprecated daw::sv1::basic_string_view
    (include/daw/deprecated/daw_string_view1.h, "sv1.h" below) and of the helpers
    of include/daw/impl/daw_string_impl.h ("impl.h") it uses.  No proofs in this
    file.

    A view is modelled with the default bounds type, a pair of pointers: offsets
    into one array ([None]: the null pointer).  Forming a pointer outside the array
    and reading outside it are undefined, as in StringView.v, whose [rdp], [padd]
    and those loops that are the same text in both headers are used here.
    The overloads that only build a view from a pointer and forward are not
    repeated. *)
From Verif Require Import Common Ints BitsModel StringView.
Open Scope Z_scope.

(** sv1.h:164-165 m_first, m_last. *)
Record view1 := V1 { mem1 : option (list Z); first1 : Z; last1 : Z }.

(** sv1.h:135-143, 364-373 size( ); 382-384 empty( ). *)
Definition size1 (v : view1) : Z := sz (last1 v - first1 v).
Definition empty1 (v : view1) : bool := size1 v =? 0.

(** sv1.h:145-162 dec_front, dec_back with pointer bounds. *)
Definition dec_front1 (v : view1) (n : Z) : res view1 :=
  f <- padd (mem1 v) (first1 v) (swrap 64 n) ;; Ok (V1 (mem1 v) f (last1 v)).
Definition dec_back1 (v : view1) (n : Z) : res view1 :=
  l <- padd (mem1 v) (last1 v) (- swrap 64 n) ;; Ok (V1 (mem1 v) (first1 v) l).

(** sv1.h:189-197 the default constructor and construction from nullptr. *)
Definition null1 : view1 := V1 None 0 0.
(** sv1.h:199-203 basic_string_view( s, count ) with a count other than npos. *)
Definition range1 (m : option (list Z)) (s count : Z) : res view1 :=
  l <- padd m s count ;; Ok (V1 m s l).
(** sv1.h:199-203 with count = npos: impl.h:85-98 sstrlen, 68-78 strlen (the loop
    is the one of sv2).  A character array goes this way, too: the array
    constructor (212-215) is a template and the pointer constructor is not. *)
Definition cstr1 (m : option (list Z)) (s : Z) : res view1 :=
  n <- sv_strlen m s ;; range1 m s n.
(** sv1.h:248-251 basic_string_view( first, last ). *)
Definition between1 (m : option (list Z)) (f l : Z) : view1 := V1 m f l.
(** sv1.h:1180-1185 make_string_view( str ) and the view built by split( str, d ),
    1639-1643, for an array of N characters. *)
Definition make_view1 (arr : list Z) : res view1 := range1 (Some arr) 0 (Z.of_nat (length arr)).

(** sv1.h:331-348 operator[], at, front, back. *)
Definition index1 (v : view1) (pos : Z) : res Z := rdp (mem1 v) (first1 v + pos).
Definition at1 (v : view1) (pos : Z) : res Z :=
  if pos <? size1 v then p <- padd (mem1 v) (first1 v) pos ;; rdp (mem1 v) p else Throw.
Definition front1 (v : view1) : res Z := rdp (mem1 v) (first1 v).
Definition back1 (v : view1) : res Z := p <- padd (mem1 v) (last1 v) (-1) ;; rdp (mem1 v) p.

(** sv1.h:390-404 remove_prefix, remove_suffix; 406-409 clear. *)
Definition remove_prefix1 (v : view1) (n : Z) : res view1 := dec_front1 v (Z.min n (size1 v)).
Definition remove_suffix1 (v : view1) (n : Z) : res view1 := dec_back1 v (Z.min n (size1 v)).
Definition clear1 (v : view1) : view1 := null1.

(** sv1.h:586-593 substr( pos, count ). *)
Definition substr1 (v : view1) (pos count : Z) : res view1 :=
  if size1 v <? pos then Throw
  else
    let rcount := Z.min count (sz (size1 v - pos)) in
    f <- padd (mem1 v) (first1 v) pos ;;
    l <- padd (mem1 v) f rcount ;;
    Ok (between1 (mem1 v) f l).

(** sv1.h:571-584 copy( dest, count, pos ): the new destination and the count. *)
Fixpoint copy1_loop (n : nat) (m : option (list Z)) (p : Z) (dest : list Z) (d : nat) : res (list Z) :=
  match n with
  | O => Ok dest
  | S n => c <- rdp m p ;; dest <- wr dest d c ;; copy1_loop n m (p + 1) dest (S d)
  end.
Definition copy1 (v : view1) (dest : list Z) (count pos : Z) : res (list Z * Z) :=
  if size1 v <? pos then Throw
  else
    let rlen := Z.min count (sz (size1 v - pos)) in
    if 0 <? rlen then
      f <- padd (mem1 v) (first1 v) pos ;;
      l <- padd (mem1 v) f rlen ;;
      dest <- copy1_loop (Z.to_nat rlen) (mem1 v) f dest 0 ;;
      Ok (dest, rlen)
    else Ok (dest, rlen).

(** sv1.h:561-564 resize( n ). *)
Definition resize1 (v : view1) (n : Z) : res view1 :=
  if n <? size1 v then l <- padd (mem1 v) (first1 v) n ;; Ok (V1 (mem1 v) (first1 v) l)
  else Throw.

(** sv1.h:600-614 the lambda str_compare of compare; [n] characters remain. *)
Fixpoint str_compare1 (n : nat) (m0 : option (list Z)) (p0 : Z) (m1 : option (list Z)) (p1 : Z) : res Z :=
  match n with
  | O => Ok 0
  | S n =>
      x <- rdp m0 p0 ;; y <- rdp m1 p1 ;;
      if negb (x =? y) then (if x <? y then Ok (-1) else Ok 1)
      else str_compare1 n m0 (p0 + 1) m1 (p1 + 1)
  end.
(** sv1.h:597-627 compare( lhs, rhs ); 629-675 the other overloads forward. *)
Definition compare1 (lhs rhs : view1) : res Z :=
  cmp <- str_compare1 (Z.to_nat (Z.min (size1 lhs) (size1 rhs)))
           (mem1 lhs) (first1 lhs) (mem1 rhs) (first1 rhs) ;;
  if cmp =? 0 then
    if size1 lhs <? size1 rhs then Ok (-1)
    else if size1 rhs <? size1 lhs then Ok 1
    else Ok cmp
  else Ok cmp.
(** sv1.h:649-660 compare of substrings. *)
Definition compare_subs1 (lhs : view1) (pos1 count1 : Z) (rhs : view1) (pos2 count2 : Z) : res Z :=
  l <- substr1 lhs pos1 count1 ;; r <- substr1 rhs pos2 count2 ;; compare1 l r.
(** sv1.h:1205-1437 the relational operators on two views. *)
Definition eq1 (l r : view1) : res bool := c <- compare1 l r ;; Ok (c =? 0).
Definition ne1 (l r : view1) : res bool := c <- compare1 l r ;; Ok (negb (c =? 0)).
Definition lt1 (l r : view1) : res bool := c <- compare1 l r ;; Ok (c <? 0).
Definition le1 (l r : view1) : res bool := c <- compare1 l r ;; Ok (c <=? 0).
Definition gt1 (l r : view1) : res bool := c <- compare1 l r ;; Ok (0 <? c).
Definition ge1 (l r : view1) : res bool := c <- compare1 l r ;; Ok (0 <=? c).

(** The number of rounds the forward loops can make before they leave the array. *)
Definition rounds (m : option (list Z)) : nat :=
  match m with Some l => S (length l) | None => 1%nat end.
(** impl.h:25-44 details::search( first, last, s_first, s_last ): the loops of
    StringView.v; the result is [last] when nothing is found. *)
Definition search_it (m : option (list Z)) (first last : Z) (w : view1) : res Z :=
  r <- search_outer (rounds m) m first last (mem1 w) (first1 w) (Z.to_nat (last1 w - first1 w)) ;;
  Ok (match r with Some p => p | None => last end).

(** sv1.h:677-694 find( v, pos ). *)
Definition find1 (v w : view1) (pos : Z) : res Z :=
  if size1 v <? size1 w then Ok npos
  else if empty1 w then Ok pos
  else
    f <- padd (mem1 v) (first1 v) pos ;;
    r <- search_it (mem1 v) f (last1 v) w ;;
    if last1 v =? r then Ok npos else Ok (sz (r - first1 v)).
(** sv1.h:696-700 find( c, pos ), and the like for the other searches: a view of
    one character. *)
Definition char1 (c : Z) : view1 := V1 (Some [c]) 0 1.

(** sv1.h:725-732 the loop of rfind; impl.h:154-158 compare is char_traits::compare,
    used for equality: the loop of StringView.v.  [pos] counts down. *)
Fixpoint rfind1_loop (pos : nat) (v w : view1) : res Z :=
  cur <- padd (mem1 v) (first1 v) (Z.of_nat pos) ;;
  c <- sv2_compare (Z.to_nat (size1 w)) (mem1 v) cur (mem1 w) (first1 w) ;;
  if c =? 0 then Ok (sz (cur - first1 v))
  else match pos with
       | O => Ok npos
       | S pos => rfind1_loop pos v w
       end.
(** sv1.h:713-733 rfind( v, pos ). *)
Definition rfind1 (v w : view1) (pos : Z) : res Z :=
  if size1 v <? size1 w then Ok npos
  else
    let pos := Z.min pos (size1 v - size1 w) in
    if empty1 w then Ok pos else rfind1_loop (Z.to_nat pos) v w.

(** sv1.h:756-770 find_first_of( v, pos ); impl.h:100-122 details::find_first_of. *)
Definition find_first_of1 (v w : view1) (pos : Z) : res Z :=
  if (size1 v <=? pos) || empty1 w then Ok npos
  else
    f <- padd (mem1 v) (first1 v) pos ;;
    p <- first_eq_loop (Z.to_nat (last1 v - f)) (mem1 v) f (mem1 w) (first1 w) (Z.to_nat (size1 w)) ;;
    if last1 v =? p then Ok npos else Ok (sz (p - first1 v)).

(** sv1.h:778-791 search( v, pos ). *)
Definition search1 (v w : view1) (pos : Z) : res Z :=
  if (size1 v <=? sz (pos + size1 w)) || empty1 w then Ok npos
  else
    f <- padd (mem1 v) (first1 v) pos ;;
    r <- search_it (mem1 v) f (last1 v) w ;;
    if last1 v =? r then Ok npos else Ok (sz (r - first1 v)).
(** sv1.h:798-815 search_last( v, pos ); [fuel] bounds the loop. *)
Fixpoint search_last1_loop (fuel : nat) (v w : view1) (last_pos fpos : Z) : res Z :=
  match fuel with
  | O => OutOfFuel
  | S fuel =>
      if fpos =? npos then Ok last_pos
      else
        let last_pos := fpos in
        fpos <- search1 v w fpos ;;
        if fpos =? last_pos then Ok last_pos else search_last1_loop fuel v w last_pos fpos
  end.
Definition search_last1 (v w : view1) (pos : Z) : res Z :=
  if (size1 v <=? sz (pos + size1 w)) || empty1 w then Ok npos
  else fpos <- search1 v w pos ;; search_last1_loop 2 v w pos fpos.

(** sv1.h:822-855 find_first_of_if, find_first_not_of_if; impl.h:160-194. *)
Definition find_first_if1 (want : bool) (v : view1) (pred : Z -> bool) (pos : Z) : res Z :=
  if size1 v <=? pos then Ok npos
  else
    f <- padd (mem1 v) (first1 v) pos ;;
    p <- first_if_loop want pred (Z.to_nat (last1 v - f)) (mem1 v) f ;;
    if last1 v =? p then Ok npos else Ok (sz (p - first1 v)).

(** sv1.h:884-891 reverse_distance( rbegin( ), iter ), iter given by its base. *)
Definition reverse_distance1 (v : view1) (base : Z) : Z := sz (sz (size1 v - 1) - (last1 v - base)).
(** sv1.h:899-904, 918-922: the number of characters skipped at the end. *)
Definition from_back (v : view1) (pos : Z) : Z :=
  if size1 v <=? pos then 0 else sz (size1 v - (pos + 1)).
(** sv1.h:894-910 find_last_of( s, pos ); std::find_first_of over reverse iterators
    looks at the characters before the base, last first. *)
Definition find_last_of1 (v w : view1) (pos : Z) : res Z :=
  if size1 w =? 0 then Ok npos
  else
    b <- padd (mem1 v) (last1 v) (- from_back v pos) ;;
    base <- last_eq_loop (Z.to_nat (b - first1 v)) (mem1 v) (first1 v) (mem1 w) (first1 w) (Z.to_nat (size1 w)) ;;
    if base =? first1 v then Ok npos else Ok (reverse_distance1 v base).
(** sv1.h:912-926 find_last_of_if( pred, pos ). *)
Definition find_last_if1 (v : view1) (pred : Z -> bool) (pos : Z) : res Z :=
  b <- padd (mem1 v) (last1 v) (- from_back v pos) ;;
  base <- last_if_loop pred (Z.to_nat (b - first1 v)) (mem1 v) (first1 v) ;;
  if base =? first1 v then Ok npos else Ok (reverse_distance1 v base).
(** sv1.h:928-942 find_last_of( c, pos ); the loop runs down from the last
    character until it reaches m_first + pos; [fuel] bounds it. *)
Fixpoint last_char1_loop (fuel : nat) (m : option (list Z)) (f first last c : Z) : res Z :=
  match fuel with
  | O => OutOfFuel
  | S fuel =>
      if first =? last then Ok npos
      else
        x <- rdp m first ;;
        if x =? c then Ok (sz (first - f))
        else first <- padd m first (-1) ;; last_char1_loop fuel m f first last c
  end.
Definition find_last_char1 (v : view1) (c pos : Z) : res Z :=
  let pos := if size1 v <=? pos then 0 else pos in
  first <- padd (mem1 v) (last1 v) (-1) ;;
  last <- padd (mem1 v) (first1 v) pos ;;
  last_char1_loop (rounds (mem1 v)) (mem1 v) (first1 v) first last c.

(** sv1.h:972-991 find_first_not_of( v, pos ); impl.h:124-152. *)
Definition find_first_not_of1 (v w : view1) (pos : Z) : res Z :=
  if size1 v <=? pos then Ok npos
  else if empty1 w then Ok pos
  else
    f <- padd (mem1 v) (first1 v) pos ;;
    p <- first_not_loop (Z.to_nat (last1 v - f)) (mem1 v) f (mem1 w) (first1 w) (Z.to_nat (size1 w)) ;;
    if last1 v =? p then Ok npos else Ok (sz (p - first1 v)).

(** sv1.h:167-183 find_not_of( first, last, sv ) over reverse iterators.  The inner
    loop, 175-179: sv.size( ) times the comparison with sv[0].  [n] characters
    remain before the base. *)
Fixpoint inner_not_of1 (k : nat) (c : Z) (w : view1) : res bool :=
  match k with
  | O => Ok false
  | S k => d <- index1 w 0 ;; if c =? d then Ok true else inner_not_of1 k c w
  end.
Fixpoint not_of1_loop (n : nat) (m : option (list Z)) (f : Z) (w : view1) : res Z :=
  match n with
  | O => Ok f
  | S n' =>
      c <- rdp m (f + Z.of_nat n') ;;
      b <- inner_not_of1 (Z.to_nat (size1 w)) c w ;;
      if b then Ok (f + Z.of_nat n) else not_of1_loop n' m f w
  end.
(** sv1.h:1013-1030 find_last_not_of( v, pos ). *)
Definition find_last_not_of1 (v w : view1) (pos : Z) : res Z :=
  let pos := if size1 v <=? pos then sz (size1 v - 1) else pos in
  if empty1 w then Ok pos
  else
    let pos := sz (size1 v - sz (pos + 1)) in
    b <- padd (mem1 v) (last1 v) (- pos) ;;
    base <- not_of1_loop (Z.to_nat (b - first1 v)) (mem1 v) (first1 v) w ;;
    if base =? first1 v then Ok npos else Ok (reverse_distance1 v base).

(** sv1.h:1052-1106 starts_with, ends_with; [fuel] = characters left in [s]. *)
Definition starts_with_char1 (v : view1) (c : Z) : res bool :=
  if empty1 v then Ok false else x <- front1 v ;; Ok (x =? c).
Fixpoint starts1_loop (fuel : nat) (m : option (list Z)) (lhs : Z) (s : view1) : res bool :=
  if empty1 s then Ok true
  else match fuel with
       | O => OutOfFuel
       | S fuel =>
           x <- rdp m lhs ;; y <- front1 s ;;
           if negb (x =? y) then Ok false
           else s <- remove_prefix1 s 1 ;; starts1_loop fuel m (lhs + 1) s
       end.
Definition starts_with1 (v s : view1) : res bool :=
  if size1 v <? size1 s then Ok false
  else starts1_loop (Z.to_nat (size1 s)) (mem1 v) (first1 v) s.
Definition ends_with_char1 (v : view1) (c : Z) : res bool :=
  if empty1 v then Ok false else x <- back1 v ;; Ok (x =? c).
(** [base] is the base of the reverse iterator lhs. *)
Fixpoint ends1_loop (fuel : nat) (m : option (list Z)) (base : Z) (s : view1) : res bool :=
  if empty1 s then Ok true
  else match fuel with
       | O => OutOfFuel
       | S fuel =>
           x <- rdp m (base - 1) ;; y <- back1 s ;;
           if negb (x =? y) then Ok false
           else s <- remove_suffix1 s 1 ;; ends1_loop fuel m (base - 1) s
       end.
Definition ends_with1 (v s : view1) : res bool :=
  if size1 v <? size1 s then Ok false
  else ends1_loop (Z.to_nat (size1 s)) (mem1 v) (last1 v) s.

(** sv1.h:411-415, 458-462 pop_front( ), pop_back( ): the character and the view. *)
Definition pop_front1 (v : view1) : res (Z * view1) :=
  c <- front1 v ;; v <- remove_prefix1 v 1 ;; Ok (c, v).
Definition pop_back1 (v : view1) : res (Z * view1) :=
  c <- back1 v ;; v <- remove_suffix1 v 1 ;; Ok (c, v).
(** sv1.h:421-425 pop_front( count ), 468-473 pop_back( count ): the piece and the
    view. *)
Definition pop_front_n1 (v : view1) (count : Z) : res (view1 * view1) :=
  result <- substr1 v 0 count ;;
  v <- remove_prefix1 v count ;;
  Ok (result, v).
Definition pop_back_n1 (v : view1) (count : Z) : res (view1 * view1) :=
  let count := Z.min count (size1 v) in
  result <- substr1 v (sz (size1 v - count)) npos ;;
  v <- remove_suffix1 v count ;;
  Ok (result, v).
(** sv1.h:431-437 pop_front( where ); 449-456 pop_front( pred ). *)
Definition pop_front_at1 (v w : view1) : res (view1 * view1) :=
  pos <- find1 v w 0 ;;
  ' (result, v) <- pop_front_n1 v pos ;;
  v <- remove_prefix1 v (size1 w) ;;
  Ok (result, v).
Definition pop_front_if1 (v : view1) (pred : Z -> bool) : res (view1 * view1) :=
  pos <- find_first_if1 true v pred 0 ;;
  ' (result, v) <- pop_front_n1 v pos ;;
  v <- remove_prefix1 v 1 ;;
  Ok (result, v).
(** sv1.h:479-490 pop_back( where ); 503-515 pop_back( pred ). *)
Definition pop_back_at1 (v w : view1) : res (view1 * view1) :=
  pos <- rfind1 v w npos ;;
  if pos =? npos then
    let result := v in
    v <- remove_prefix1 v npos ;;
    Ok (result, v)
  else
    result <- substr1 v (sz (pos + size1 w)) npos ;;
    v <- remove_suffix1 v (sz (size1 v - pos)) ;;
    Ok (result, v).
Definition pop_back_if1 (v : view1) (pred : Z -> bool) : res (view1 * view1) :=
  pos <- find_last_if1 v pred npos ;;
  if pos =? npos then
    let result := v in
    v <- remove_prefix1 v npos ;;
    Ok (result, v)
  else
    result <- substr1 v (sz (pos + 1)) npos ;;
    v <- remove_suffix1 v (sz (size1 v - pos)) ;;
    Ok (result, v).
(** sv1.h:522-531 try_pop_front( where ); 538-547 try_pop_back( where ). *)
Definition try_pop_front1 (v w : view1) : res (view1 * view1) :=
  pos <- find1 v w 0 ;;
  if pos =? npos then Ok (null1, v)
  else
    ' (result, v) <- pop_front_n1 v pos ;;
    v <- remove_prefix1 v (size1 w) ;;
    Ok (result, v).
Definition try_pop_back1 (v w : view1) : res (view1 * view1) :=
  pos <- rfind1 v w npos ;;
  if pos =? npos then Ok (null1, v)
  else
    result <- substr1 v (sz (pos + size1 w)) npos ;;
    v <- remove_suffix1 v (sz (size1 v - pos)) ;;
    Ok (result, v).
(** sv1.h:553-559 consume_front( where ). *)
Definition consume_front1 (v w : view1) : res view1 :=
  pos <- find1 v w 0 ;;
  v <- remove_prefix1 v pos ;;
  remove_prefix1 v (size1 w).

(** sv1.h:1594-1607 split( str, pred ); [fuel] bounds the loop. *)
Fixpoint split1_loop (fuel : nat) (str : view1) (pred : Z -> bool) (last_pos : Z) : res (list view1) :=
  match fuel with
  | O => OutOfFuel
  | S fuel =>
      if empty1 str then Ok []
      else
        r <- find_first_if1 true str pred 0 ;;
        let n := Z.min (size1 str) r in
        piece <- range1 (mem1 str) last_pos n ;;
        if n =? npos then Ok [piece]
        else
          str <- remove_prefix1 str (sz (n + 1)) ;;
          rest <- split1_loop fuel str pred (first1 str) ;;
          Ok (piece :: rest)
  end.
Definition split1 (str : view1) (pred : Z -> bool) : res (list view1) :=
  split1_loop (S (Z.to_nat (size1 str))) str pred (first1 str).

(** sv1.h:1440-1514 operator+ and 871-882, 1700-1706 to_string: the characters
    copied one after another through a back_inserter. *)
Definition to_string1 (v : view1) : res (list Z) :=
  read_n (Z.to_nat (size1 v)) (mem1 v) (first1 v).
Definition plus1 (lhs : list Z) (rhs : view1) : res (list Z) := s <- to_string1 rhs ;; Ok (lhs ++ s).
Definition plus_right1 (lhs : view1) (rhs : list Z) : res (list Z) := s <- to_string1 lhs ;; Ok (s ++ rhs).
