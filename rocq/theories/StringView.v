(** Model of daw_string_view.h (namespace daw::sv2): construction, element access,
    sub-ranges, comparison and searching.  No proofs in this file.

    Characters are the integer values of CharT.  A pointer is an offset into one
    array object ([None] is the null pointer); forming a pointer outside
    [0, length] and reading outside the array are undefined.  Positions and sizes
    are size_t values (64 bits).
    Parameters of the section:
    - [dbg]: the range, zero and assert checks are compiled in (lines 55-84; a
      failing check ends the call, which is [Throw] whether it throws, asserts or
      terminates);
    - [one_byte]: sizeof( CharT ) == 1;
    - [runtime]: the std::memchr branch of find( CharT ) is taken (sizeof 1, not
      constant evaluated); otherwise its loop.
    Not modelled: the wmemchr branch for 2-byte characters; conversions to other
    string types; iterators as objects; overloads that only build a view from a
    pointer and forward. *)
From Verif Require Import Common Ints BitsModel.
Open Scope Z_scope.

Record view := View { vmem : option (list Z); voff : Z; vlast : Z }.

(** npos, line 656; zt_offset, lines 599-600. *)
Definition npos : Z := 2 ^ 64 - 1.
Definition zt_offset : Z := 2 ^ 63.

(** Reading through and adding to a pointer. *)
Definition rdp (m : option (list Z)) (o : Z) : res Z :=
  match m with
  | Some l => if o <? 0 then UB else rd l (Z.to_nat o)
  | None => UB
  end.
Definition padd (m : option (list Z)) (o n : Z) : res Z :=
  match m with
  | Some l => if (0 <=? o + n) && (o + n <=? Z.of_nat (length l)) then Ok (o + n) else UB
  | None => if n =? 0 then Ok o else UB
  end.

(** size, lines 602-607 and 956-958; empty 968-970; is_zero_terminated 609-615 and
    948-951. *)
Definition vsize (v : view) : Z := Z.land (vlast v) (zt_offset - 1).
Definition vempty (v : view) : bool := vsize v =? 0.
Definition vzt (v : view) : bool := negb (vlast v <? zt_offset).

(** unset_zero_terminated, lines 626-630. *)
Definition unset_zt (l : Z) : Z := Z.land l (zt_offset - 1).

(** dec_front 632-635, dec_back 637-640, inc_front 642-645, inc_back 647-650. *)
Definition dec_front (v : view) (n : Z) : res view :=
  o <- padd (vmem v) (voff v) (swrap 64 n) ;;
  Ok (View (vmem v) o (sz (vlast v - n))).
Definition dec_back (v : view) (n : Z) : view :=
  View (vmem v) (voff v) (unset_zt (sz (vlast v - n))).
Definition inc_front (v : view) (n : Z) : res view :=
  o <- padd (vmem v) (voff v) (- swrap 64 n) ;;
  Ok (View (vmem v) o (sz (vlast v + n))).
Definition inc_back (v : view) (n : Z) : view :=
  View (vmem v) (voff v) (unset_zt (sz (vlast v + n))).

(** begin/data 873 and 978-980, end/data_end 916 and 986-988 (last_pointer,
    594-597). *)
Definition vend (v : view) : res Z := padd (vmem v) (voff v) (vsize v).
(** m_first[n]. *)
Definition vget (v : view) (n : Z) : res Z := rdp (vmem v) (voff v + n).

(** Default construction and construction from nullptr, lines 665-671. *)
Definition v_null : view := View None 0 0.
(** basic_string_view( s, count ), lines 686-689. *)
Definition v_range (m : option (list Z)) (o count : Z) : view := View m o count.
(** basic_string_view( first, last ), lines 824-834. *)
Definition v_between (m : option (list Z)) (first last : Z) : view := View m first (sz (last - first)).

(** sv2_details::strlen, lines 309-319. *)
Fixpoint strlen_loop (fuel : nat) (m : option (list Z)) (str pos : Z) : res Z :=
  match fuel with
  | O => OutOfFuel
  | S fuel =>
      c <- rdp m pos ;;
      if negb (c =? 0) then strlen_loop fuel m str (pos + 1) else Ok (sz (pos - str))
  end.
Definition sv_strlen (m : option (list Z)) (str : Z) : res Z :=
  match m with
  | None => Ok 0
  | Some l => strlen_loop (S (length l)) m str str
  end.

Section SV.
  Variables dbg one_byte runtime : bool.

  (** DAW_STRING_VIEW_DBG_RNG_CHECK, lines 55-70. *)
  Definition chk (b : bool) : res unit := if dbg && negb b then Throw else Ok tt.

  (** set_zero_terminated( f, l ), lines 617-624, with DBG_ZERO_CHECK 72-84. *)
  Definition set_zt (m : option (list Z)) (f l : Z) : res Z :=
    match m with
    | None => Ok l
    | Some _ =>
        if zt_offset <=? l then Ok l
        else
          _ <- (if dbg then c <- rdp m (f + l) ;; (if c =? 0 then Ok tt else Throw) else Ok tt) ;;
          Ok (sz (l + zt_offset))
    end.
  (** basic_string_view( s, count, zero_terminated ), lines 696-702. *)
  Definition v_range_zt (m : option (list Z)) (o count : Z) : res view :=
    l <- set_zt m o count ;; Ok (View m o l).
  (** basic_string_view( first, last, zero_terminated ), lines 841-851. *)
  Definition v_between_zt (m : option (list Z)) (first last : Z) : res view :=
    l <- set_zt m first (sz (last - first)) ;; Ok (View m first l).
  (** set_zero_terminated( ), lines 704-708. *)
  Definition v_mark_zt (v : view) : res view :=
    if vzt v then Ok v else l <- set_zt (vmem v) (voff v) (vlast v) ;; Ok (View (vmem v) (voff v) l).
  (** Construction from a zero-terminated pointer, lines 716-722. *)
  Definition v_cstr (m : option (list Z)) (o : Z) : res view :=
    n <- sv_strlen m o ;; l <- set_zt m o n ;; Ok (View m o l).
  (** Construction from a character array of N elements, lines 796-805. *)
  Definition v_literal (arr : list Z) : res view :=
    let N := Z.of_nat (length arr) in
    c <- rdp (Some arr) (N - 1) ;;
    if c =? 0 then l <- set_zt (Some arr) 0 (N - 1) ;; Ok (View (Some arr) 0 l)
    else Ok (View (Some arr) 0 N).

  (** operator[] 995-1001, at 1007-1014, front 1019-1024, back 1029-1034. *)
  Definition sv_index (v : view) (pos : Z) : res Z := _ <- chk (pos <? vsize v) ;; vget v pos.
  Definition sv_at (v : view) (pos : Z) : res Z :=
    if negb (pos <? vsize v) then Throw else sv_index v pos.
  Definition sv_front (v : view) : res Z := _ <- chk (negb (vempty v)) ;; vget v 0.
  Definition sv_back (v : view) : res Z :=
    _ <- chk (negb (vempty v)) ;; e <- vend v ;; p <- padd (vmem v) e (-1) ;; rdp (vmem v) p.

  (** clear 1042-1044, reset 1049-1052. *)
  Definition sv_clear (v : view) : view := View (vmem v) (voff v) 0.
  Definition sv_reset (v : view) : view := v_null.

  (** remove_prefix 1056-1060 and (1 character) 1076-1079; remove_prefix_unsafe
      1065-1072, 1083-1089; remove_suffix 1093-1097, 1111-1114;
      remove_suffix_unsafe 1101-1108, 1118-1123. *)
  Definition remove_prefix (v : view) (n : Z) : res view := dec_front v (Z.min n (vsize v)).
  Definition remove_prefix_unsafe (v : view) (n : Z) : res view :=
    _ <- chk (n <=? vsize v) ;; dec_front v n.
  Definition remove_suffix (v : view) (n : Z) : view := dec_back v (Z.min n (vsize v)).
  Definition remove_suffix_unsafe (v : view) (n : Z) : res view :=
    _ <- chk (n <=? vsize v) ;; Ok (dec_back v n).

  (** resize, lines 1783-1789. *)
  Definition resize (v : view) (new_size : Z) : res view :=
    if negb (new_size =? vsize v)
    then _ <- chk (new_size <=? vsize v) ;; Ok (View (vmem v) (voff v) new_size)
    else Ok v.

  (** copy, lines 1798-1811: the characters are written to [dest] from its start;
      the result is the new destination and the returned count. *)
  Fixpoint sv_copy_loop (n : nat) (v : view) (pos : Z) (dest : list Z) (d : nat) : res (list Z) :=
    match n with
    | O => Ok dest
    | S n =>
        c <- vget v pos ;; dest <- wr dest d c ;; sv_copy_loop n v (pos + 1) dest (S d)
    end.
  Definition sv_copy (v : view) (dest : list Z) (count pos : Z) : res (list Z * Z) :=
    _ <- chk (pos <=? vsize v) ;;
    let rlen := Z.min count (sz (vsize v - pos)) in
    dest <- sv_copy_loop (Z.to_nat rlen) v pos dest 0 ;;
    Ok (dest, rlen).

  (** substr( pos, count ) 1823-1830; substr_unsafe( pos, count ) 1838-1849;
      substr( ) 1852-1855; substr( pos ) 1863-1866; substr_unsafe( pos )
      1874-1879. *)
  Definition substr (v : view) (pos count : Z) : res view :=
    _ <- chk (pos <=? vsize v) ;;
    let rcount := Z.min count (sz (vsize v - pos)) in
    f <- padd (vmem v) (voff v) pos ;;
    l <- padd (vmem v) f rcount ;;
    Ok (v_between (vmem v) f l).
  Definition substr_unsafe (v : view) (pos count : Z) : res view :=
    _ <- chk (sz (pos + count) <=? vsize v) ;;
    f <- padd (vmem v) (voff v) pos ;;
    l <- padd (vmem v) f count ;;
    if sz (pos + count) =? vsize v then v_between_zt (vmem v) f l
    else Ok (v_between (vmem v) f l).
  Definition substr_all (v : view) : res view := substr_unsafe v 0 (vsize v).
  Definition substr_from (v : view) (pos : Z) : res view := substr v pos npos.
  Definition substr_unsafe_from (v : view) (pos : Z) : res view :=
    _ <- chk (pos <=? vsize v) ;; substr_unsafe v pos (sz (vsize v - pos)).

  (** The lambda of compare, lines 1886-1901; [n] characters remain. *)
  Fixpoint str_compare (cmp : Z -> Z -> bool) (n : nat) (m0 : option (list Z)) (p0 : Z)
      (m1 : option (list Z)) (p1 : Z) : res Z :=
    match n with
    | O => Ok 0
    | S n =>
        x <- rdp m0 p0 ;; y <- rdp m1 p1 ;;
        if cmp x y then Ok (-1)
        else if cmp y x then Ok 1
        else str_compare cmp n m0 (p0 + 1) m1 (p1 + 1)
    end.
  (** compare, lines 1882-1916 (1919-1923 and the other overloads forward to it). *)
  Definition sv_compare_by (cmp : Z -> Z -> bool) (lhs rhs : view) : res Z :=
    ret <- str_compare cmp (Z.to_nat (Z.min (vsize lhs) (vsize rhs)))
             (vmem lhs) (voff lhs) (vmem rhs) (voff rhs) ;;
    if ret =? 0 then
      if vsize lhs <? vsize rhs then Ok (-1)
      else if vsize rhs <? vsize lhs then Ok 1
      else Ok ret
    else Ok ret.
  (** With the default Compare, sv2_details::less 167-174. *)
  Definition sv_compare := sv_compare_by Z.ltb.
  (** compare( pos1, count1, v ) 1942-1946; compare( pos1, count1, v, pos2, count2 )
      1949-1954. *)
  Definition sv_compare_sub (lhs : view) (pos1 count1 : Z) (rhs : view) : res Z :=
    l <- substr lhs pos1 count1 ;; sv_compare l rhs.
  Definition sv_compare_subs (lhs : view) (pos1 count1 : Z) (rhs : view) (pos2 count2 : Z) : res Z :=
    l <- substr lhs pos1 count1 ;; r <- substr rhs pos2 count2 ;; sv_compare l r.
  (** operator== 2583-2586, != 2602-2605, < 2630-2633, <= 2649-2652, > 2668-2671,
      >= 2687-2690. *)
  Definition sv_eq (lhs rhs : view) : res bool := c <- sv_compare lhs rhs ;; Ok (c =? 0).
  Definition sv_ne (lhs rhs : view) : res bool := c <- sv_compare lhs rhs ;; Ok (negb (c =? 0)).
  Definition sv_lt (lhs rhs : view) : res bool := c <- sv_compare lhs rhs ;; Ok (c <? 0).
  Definition sv_le (lhs rhs : view) : res bool := c <- sv_compare lhs rhs ;; Ok (c <=? 0).
  Definition sv_gt (lhs rhs : view) : res bool := c <- sv_compare lhs rhs ;; Ok (0 <? c).
  Definition sv_ge (lhs rhs : view) : res bool := c <- sv_compare lhs rhs ;; Ok (0 <=? c).

  (** sv2_details::search( haystack, haystack_sz, needle, needle_sz ), lines
      321-356.  memmem (327-338) is taken to do what the loop does.  The inner
      loop, 345-354; [k] characters of the needle remain. *)
  Inductive hit := Found | AtEnd | Differ.
  Fixpoint search_inner (k : nat) (hm : option (list Z)) (hit_ hlast : Z)
      (nm : option (list Z)) (nit : Z) : res hit :=
    match k with
    | O => Ok Found
    | S k =>
        if hit_ =? hlast then Ok AtEnd
        else
          x <- rdp hm hit_ ;; y <- rdp nm nit ;;
          if negb (x =? y) then Ok Differ
          else search_inner k hm (hit_ + 1) hlast nm (nit + 1)
    end.
  (** The outer loop, 343-356. *)
  Fixpoint search_outer (fuel : nat) (hm : option (list Z)) (h hlast : Z)
      (nm : option (list Z)) (n : Z) (nsz : nat) : res (option Z) :=
    match fuel with
    | O => OutOfFuel
    | S fuel =>
        r <- search_inner nsz hm h hlast nm n ;;
        match r with
        | Found => Ok (Some h)
        | AtEnd => Ok None
        | Differ => search_outer fuel hm (h + 1) hlast nm n nsz
        end
    end.
  (** A size that leaves the array is undefined (memmem requires a valid range). *)
  Definition search_ptr (hm : option (list Z)) (h hsz : Z) (nm : option (list Z)) (n nsz : Z) : res (option Z) :=
    hlast <- padd hm h hsz ;;
    _ <- padd nm n nsz ;;
    search_outer (S (Z.to_nat hsz)) hm h hlast nm n (Z.to_nat nsz).

  (** find( v, pos ), lines 2054-2071; find_first_match( v, pos ), 2101-2118, is
      the same text. *)
  Definition sv_find (v w : view) (pos : Z) : res Z :=
    if vsize v <? vsize w then Ok npos
    else if vempty w then Ok pos
    else
      f <- padd (vmem v) (voff v) (swrap 64 pos) ;;
      r <- search_ptr (vmem v) f (sz (vsize v - pos)) (vmem w) (voff w) (vsize w) ;;
      match r with
      | None => Ok npos
      | Some p => Ok (sz (p - voff v))
      end.

  (** std::memchr( first, c, sz ): offset of the first byte equal to c. *)
  Fixpoint memchr_loop (n : nat) (m : option (list Z)) (p c : Z) : res (option Z) :=
    match n with
    | O => Ok None
    | S n =>
        x <- rdp m p ;;
        if wrap 8 x =? wrap 8 c then Ok (Some p) else memchr_loop n m (p + 1) c
    end.
  (** for( n = pos; n < sz; ++n ) if( first[n] == c ) return n;, lines 2021-2026 and
      2031-2036; [k] = sz - n. *)
  Fixpoint find_char_loop (k : nat) (m : option (list Z)) (first n c : Z) : res Z :=
    match k with
    | O => Ok npos
    | S k =>
        x <- rdp m (first + n) ;;
        if x =? c then Ok n else find_char_loop k m first (n + 1) c
    end.
  (** find( c, pos ), lines 1993-2040. *)
  Definition sv_find_char (v : view) (c pos : Z) : res Z :=
    _ <- chk (pos <=? vsize v) ;;
    first <- padd (vmem v) (voff v) pos ;;
    e <- vend v ;;
    let n := sz (e - first) in
    if runtime then
      _ <- padd (vmem v) first n ;;
      r <- memchr_loop (Z.to_nat n) (vmem v) first c ;;
      match r with
      | None => Ok npos
      | Some p => Ok (sz (p - first))
      end
    else find_char_loop (Z.to_nat (n - pos)) (vmem v) first pos c.

  (** contains( v ) 2074-2076; contains( c, pos ) 2079-2082; contains( s, pos,
      count ) 2085-2088 converts the position to bool; contains( s, pos )
      2091-2094. *)
  Definition sv_contains (v w : view) : res bool := r <- sv_find v w 0 ;; Ok (negb (r =? npos)).
  Definition sv_contains_char (v : view) (c pos : Z) : res bool :=
    r <- sv_find_char v c pos ;; Ok (negb (r =? npos)).
  Definition sv_contains_count (v w : view) (pos : Z) : res bool :=
    r <- sv_find v w pos ;; Ok (negb (r =? 0)).
  Definition sv_contains_pos (v w : view) (pos : Z) : res bool :=
    r <- sv_find v w pos ;; Ok (negb (r =? npos)).

  (** sv2_details::search( haystack, needles ), lines 358-385.  The loop over one
      needle, 371-382: [it] runs on through the haystack. *)
  Inductive mhit := MFound | MEnd | MDiffer (it : Z).
  Fixpoint multi_inner (k : nat) (hm : option (list Z)) (it last : Z)
      (nm : option (list Z)) (s_it : Z) : res mhit :=
    match k with
    | O => Ok MFound
    | S k =>
        if it =? last then Ok MEnd
        else
          x <- rdp hm it ;; y <- rdp nm s_it ;;
          if negb (x =? y) then Ok (MDiffer it)
          else multi_inner k hm (it + 1) last nm (s_it + 1)
    end.
  (** The loop over the needles, 367-383: the returned pointer, if any. *)
  Fixpoint multi_needles (ns : list view) (hm : option (list Z)) (h it last : Z) : res (option Z) :=
    match ns with
    | [] => Ok None
    | n :: ns =>
        r <- multi_inner (Z.to_nat (vsize n)) hm it last (vmem n) (voff n) ;;
        match r with
        | MFound => Ok (Some h)
        | MEnd => Ok (Some last)
        | MDiffer it => multi_needles ns hm h it last
        end
    end.
  Fixpoint multi_outer (fuel : nat) (hay : view) (ns : list view) (last : Z) : res Z :=
    match fuel with
    | O => OutOfFuel
    | S fuel =>
        if vempty hay then vend hay
        else
          r <- multi_needles ns (vmem hay) (voff hay) (voff hay) last ;;
          match r with
          | Some p => Ok p
          | None => hay <- remove_prefix hay 1 ;; multi_outer fuel hay ns last
          end
    end.
  (** find_first_match( needles, pos ), lines 1972-1986. *)
  Definition find_first_match (v : view) (ns : list view) (pos : Z) : res Z :=
    if existsb vempty ns then Ok pos
    else
      hay <- substr_from v pos ;;
      last <- vend hay ;;
      p <- multi_outer (S (Z.to_nat (vsize hay))) hay ns last ;;
      e <- vend v ;;
      if e =? p then Ok npos else Ok (sz (p - voff v)).

  (** sv2_details::compare, lines 293-307, used by rfind only for equality. *)
  Fixpoint sv2_compare (n : nat) (m0 : option (list Z)) (p0 : Z) (m1 : option (list Z)) (p1 : Z) : res Z :=
    match n with
    | O => Ok 0
    | S n =>
        x <- rdp m0 p0 ;; y <- rdp m1 p1 ;;
        let diff := x - y in
        if diff <? 0 then Ok (-1) else if 0 <? diff then Ok 1
        else sv2_compare n m0 (p0 + 1) m1 (p1 + 1)
    end.
  (** The loop of rfind, lines 2134-2141; [pos] counts down. *)
  Fixpoint rfind_loop (pos : nat) (v w : view) : res Z :=
    p <- padd (vmem v) (voff v) (Z.of_nat pos) ;;
    c <- sv2_compare (Z.to_nat (vsize w)) (vmem v) p (vmem w) (voff w) ;;
    if c =? 0 then Ok (Z.of_nat pos)
    else match pos with
         | O => Ok npos
         | S pos => rfind_loop pos v w
         end.
  (** rfind( v, pos ), lines 2125-2143. *)
  Definition sv_rfind (v w : view) (pos : Z) : res Z :=
    if vsize v <? vsize w then Ok npos
    else
      let pos := Z.min pos (vsize v - vsize w) in
      if vempty w then Ok pos else rfind_loop (Z.to_nat pos) v w.
  (** A one-character view, as rfind( c ) 2162-2165, find_first_of( c ) 2290-2294 and
      the like build. *)
  Definition v_char (c : Z) : view := View (Some [c]) 0 1.
  Definition sv_rfind_char (v : view) (c pos : Z) : res Z := sv_rfind v (v_char c) pos.

  (** The bitset of sv2_details::find_first_of, lines 191-197. *)
  Fixpoint needle_bits (n : nat) (m : option (list Z)) (p : Z) (bs : list Z) : res (list Z) :=
    match n with
    | O => Ok bs
    | S n => c <- rdp m p ;; bs <- bs_set bs (wrap 8 c) ;; needle_bits n m (p + 1) bs
    end.
  Fixpoint first_bit_loop (n : nat) (m : option (list Z)) (p : Z) (bs : list Z) : res Z :=
    match n with
    | O => Ok p
    | S n =>
        c <- rdp m p ;; b <- bs_test bs (wrap 8 c) ;;
        if b then Ok p else first_bit_loop n m (p + 1) bs
    end.
  (** Is the character one of the [n] characters from [q]?  Inner loop of lines
      208-215 and of find_first_not_of, 279-284. *)
  Fixpoint any_eq (n : nat) (c : Z) (m : option (list Z)) (q : Z) : res bool :=
    match n with
    | O => Ok false
    | S n => d <- rdp m q ;; if c =? d then Ok true else any_eq n c m (q + 1)
    end.
  Fixpoint first_eq_loop (n : nat) (m : option (list Z)) (p : Z) (nm : option (list Z)) (q : Z) (k : nat) : res Z :=
    match n with
    | O => Ok p
    | S n =>
        c <- rdp m p ;; b <- any_eq k c nm q ;;
        if b then Ok p else first_eq_loop n m (p + 1) nm q k
    end.
  (** sv2_details::find_first_of, lines 176-219 (with bp_eq). *)
  Definition first_of_ptr (m : option (list Z)) (p : Z) (n : nat) (nm : option (list Z)) (q : Z) (k : nat) : res Z :=
    if one_byte then
      bs <- needle_bits k nm q (bs_new 256) ;; first_bit_loop n m p bs
    else first_eq_loop n m p nm q k.
  (** find_first_of( v, pos ), lines 2183-2199. *)
  Definition find_first_of (v w : view) (pos : Z) : res Z :=
    if (vsize v <=? pos) || vempty w then Ok npos
    else
      f <- padd (vmem v) (voff v) pos ;;
      p <- first_of_ptr (vmem v) f (Z.to_nat (vsize v - pos)) (vmem w) (voff w) (Z.to_nat (vsize w)) ;;
      e <- vend v ;;
      if e =? p then Ok npos else Ok (sz (p - voff v)).

  (** search( v, pos ), lines 2211-2225; search_last, 2232-2247.  [fuel] bounds the
      rounds of its loop. *)
  Definition sv_search (v w : view) (pos : Z) : res Z :=
    if (vsize v <=? sz (pos + vsize w)) || vempty w then Ok npos
    else
      f <- padd (vmem v) (voff v) (swrap 64 pos) ;;
      r <- search_ptr (vmem v) f (sz (vsize v - pos)) (vmem w) (voff w) (vsize w) ;;
      match r with
      | None => Ok npos
      | Some p => Ok (sz (p - voff v))
      end.
  Fixpoint search_last_loop (fuel : nat) (v w : view) (last_pos fpos : Z) : res Z :=
    match fuel with
    | O => OutOfFuel
    | S fuel =>
        if fpos =? npos then Ok last_pos
        else
          let last_pos := fpos in
          fpos <- sv_search v w fpos ;;
          if fpos =? last_pos then Ok last_pos else search_last_loop fuel v w last_pos fpos
    end.
  Definition search_last (v w : view) (pos : Z) : res Z :=
    if (vsize v <=? sz (pos + vsize w)) || vempty w then Ok npos
    else
      fpos <- sv_search v w pos ;;
      search_last_loop (S (S (Z.to_nat (vsize v)))) v w pos fpos.

  (** sv2_details::find_first_of_if 221-240, find_first_not_of_if 242-261: [want] is
      the predicate value looked for; [n] characters remain. *)
  Fixpoint first_if_loop (want : bool) (pred : Z -> bool) (n : nat) (m : option (list Z)) (p : Z) : res Z :=
    match n with
    | O => Ok p
    | S n =>
        c <- rdp m p ;;
        if Bool.eqb (pred c) want then Ok p else first_if_loop want pred n m (p + 1)
    end.
  (** find_first_of_if 2257-2271; find_first_not_of_if 2275-2288. *)
  Definition find_first_if (want : bool) (v : view) (pred : Z -> bool) (pos : Z) : res Z :=
    if vsize v <=? pos then Ok npos
    else
      f <- padd (vmem v) (voff v) pos ;;
      p <- first_if_loop want pred (Z.to_nat (vsize v - pos)) (vmem v) f ;;
      e <- vend v ;;
      if e =? p then Ok npos else Ok (sz (p - voff v)).
  Definition find_first_of_if := find_first_if true.
  Definition find_first_not_of_if := find_first_if false.

  (** find_last_of( s, pos ), lines 2313-2341.  The one-byte branch, 2325-2335;
      [n] counts down. *)
  Fixpoint last_bit_loop (n : nat) (v : view) (bs : list Z) : res Z :=
    match n with
    | O => Ok npos
    | S n =>
        c <- vget v (Z.of_nat n) ;; b <- bs_test bs (wrap 8 c) ;;
        if b then Ok (Z.of_nat n) else last_bit_loop n v bs
    end.
  (** The other branch: algorithm::find_first_of over reverse iterators
      (algorithms/daw_algorithm_find.h 33-50); [n] characters of the haystack
      starting at [first] remain, the result is the base of the iterator. *)
  Fixpoint last_eq_loop (n : nat) (m : option (list Z)) (first : Z) (nm : option (list Z)) (q : Z) (k : nat) : res Z :=
    match n with
    | O => Ok first
    | S n' =>
        c <- rdp m (first + Z.of_nat n') ;; b <- any_eq k c nm q ;;
        if b then Ok (first + Z.of_nat n) else last_eq_loop n' m first nm q k
    end.
  (** reverse_distance( rbegin( ), iter ), lines 2302-2310, iter given by its base. *)
  Definition reverse_distance (v : view) (e base : Z) : Z := sz (sz (vsize v - 1) - (e - base)).
  Definition find_last_of (v w : view) (pos : Z) : res Z :=
    if vempty w then Ok npos
    else
      let pos := if vsize v <=? pos then 0 else sz (vsize v - (pos + 1)) in
      hay <- substr_from v pos ;;
      if one_byte then
        bs <- needle_bits (Z.to_nat (vsize w)) (vmem w) (voff w) (bs_new 256) ;;
        last_bit_loop (Z.to_nat (vsize v)) v bs
      else
        base <- last_eq_loop (Z.to_nat (vsize hay)) (vmem hay) (voff hay) (vmem w) (voff w) (Z.to_nat (vsize w)) ;;
        e <- vend v ;;
        if base =? voff v then Ok npos else Ok (reverse_distance v e base).

  (** find_last_of_if( pred, pos ), lines 2367-2376, with algorithm::find_if over
      reverse iterators. *)
  Fixpoint last_if_loop (pred : Z -> bool) (n : nat) (m : option (list Z)) (first : Z) : res Z :=
    match n with
    | O => Ok first
    | S n' =>
        c <- rdp m (first + Z.of_nat n') ;;
        if pred c then Ok (first + Z.of_nat n) else last_if_loop pred n' m first
    end.
  Definition find_last_of_if (v : view) (pred : Z -> bool) (pos : Z) : res Z :=
    hay <- substr v 0 pos ;;
    base <- last_if_loop pred (Z.to_nat (vsize hay)) (vmem hay) (voff hay) ;;
    e <- vend v ;;
    if base =? voff v then Ok npos else Ok (reverse_distance v e base).

  (** sv2_details::find_first_not_of, lines 263-291; [n] characters remain. *)
  Fixpoint first_not_loop (n : nat) (m : option (list Z)) (p : Z) (nm : option (list Z)) (q : Z) (k : nat) : res Z :=
    match n with
    | O => Ok p
    | S n =>
        c <- rdp m p ;; b <- any_eq k c nm q ;;
        if b then first_not_loop n m (p + 1) nm q k else Ok p
    end.
  (** find_first_not_of( v, pos ), lines 2385-2406. *)
  Definition find_first_not_of (v w : view) (pos : Z) : res Z :=
    if vsize v <=? pos then Ok npos
    else if vempty w then Ok pos
    else
      hay <- substr_from v pos ;;
      p <- first_not_loop (Z.to_nat (vsize hay)) (vmem hay) (voff hay) (vmem w) (voff w) (Z.to_nat (vsize w)) ;;
      e <- vend v ;;
      if e =? p then Ok npos else Ok (sz (p - voff v)).
  Definition find_first_not_of_char (v : view) (c pos : Z) : res Z := find_first_not_of v (v_char c) pos.

  (** find_last_not_of_if( pred, pos ), lines 2455-2469; the loop, 2463-2467. *)
  Fixpoint last_not_if_loop (n : nat) (v : view) (pred : Z -> bool) : res Z :=
    c <- vget v (Z.of_nat n) ;;
    if negb (pred c) then Ok (Z.of_nat n)
    else match n with
         | O => Ok npos
         | S n => last_not_if_loop n v pred
         end.
  (** pos <= size( ) < 2^63 here, so the conversion to difference_type keeps it. *)
  Definition find_last_not_of_if (v : view) (pred : Z -> bool) (pos : Z) : res Z :=
    if vempty v then Ok npos
    else
      let pos := if vsize v <? pos then vsize v - 1 else pos in
      last_not_if_loop (Z.to_nat pos) v pred.
  (** find_last_not_of( v, pos ), lines 2479-2496. *)
  Fixpoint last_not_loop (n : nat) (v w : view) : res Z :=
    c <- vget v (Z.of_nat n) ;;
    r <- sv_find_char w c 0 ;;
    if r =? npos then Ok (Z.of_nat n)
    else match n with
         | O => Ok npos
         | S n => last_not_loop n v w
         end.
  Definition find_last_not_of (v w : view) (pos : Z) : res Z :=
    if vempty v then Ok npos
    else
      let pos := if vsize v <? pos then vsize v - 1 else pos in
      if vempty w then Ok pos else last_not_loop (Z.to_nat pos) v w.
  Definition find_last_not_of_char (v : view) (c pos : Z) : res Z := find_last_not_of v (v_char c) pos.

  (** starts_with( c ) 2529-2534, starts_with( s ) 2536-2551, ends_with( c )
      2557-2562, ends_with( s ) 2564-2577; [fuel] = characters left in [s]. *)
  Definition starts_with_char (v : view) (c : Z) : res bool :=
    if vempty v then Ok false else x <- sv_front v ;; Ok (x =? c).
  Fixpoint starts_loop (fuel : nat) (m : option (list Z)) (lhs : Z) (s : view) : res bool :=
    if vempty s then Ok true
    else match fuel with
         | O => OutOfFuel
         | S fuel =>
             x <- rdp m lhs ;; y <- sv_front s ;;
             if negb (x =? y) then Ok false
             else s <- remove_prefix s 1 ;; starts_loop fuel m (lhs + 1) s
         end.
  Definition starts_with (v s : view) : res bool :=
    if vsize v <? vsize s then Ok false
    else starts_loop (Z.to_nat (vsize s)) (vmem v) (voff v) s.
  Definition ends_with_char (v : view) (c : Z) : res bool :=
    if vempty v then Ok false else x <- sv_back v ;; Ok (x =? c).
  (** [base] is the base of the reverse iterator lhs: *lhs is the character before. *)
  Fixpoint ends_loop (fuel : nat) (m : option (list Z)) (base : Z) (s : view) : res bool :=
    if vempty s then Ok true
    else match fuel with
         | O => OutOfFuel
         | S fuel =>
             x <- rdp m (base - 1) ;; y <- sv_back s ;;
             if negb (x =? y) then Ok false
             else ends_loop fuel m (base - 1) (remove_suffix s 1)
         end.
  Definition ends_with (v s : view) : res bool :=
    if vsize v <? vsize s then Ok false
    else e <- vend v ;; ends_loop (Z.to_nat (vsize s)) (vmem v) e s.

  (** is_space, lines 2708-2718. *)
  Definition sv_is_space (c : Z) : bool :=
    (c =? 32) || (c =? 9) || (c =? 10) || (c =? 11) || (c =? 12) || (c =? 13).
  (** remove_prefix_while( pred ) 2721-2728, ( c ) 2730-2735; remove_suffix_while
      ( pred ) 2749-2756, ( c ) 2758-2763. *)
  Definition remove_prefix_while (v : view) (pred : Z -> bool) : res view :=
    pos <- find_first_not_of_if v pred 0 ;; remove_prefix v pos.
  Definition remove_prefix_while_char (v : view) (c : Z) : res view :=
    pos <- find_first_not_of_char v c 0 ;; remove_prefix v pos.
  Definition remove_suffix_while (v : view) (pred : Z -> bool) : res view :=
    pos <- find_last_not_of_if v pred npos ;; resize v (sz (pos + 1)).
  Definition remove_suffix_while_char (v : view) (c : Z) : res view :=
    pos <- find_last_not_of_char v c npos ;; resize v (sz (pos + 1)).
  (** trim_prefix 2737-2740 (and the copy, 2742-2747), trim_suffix 2765-2768, trim
      2777-2780, trim_copy 2782-2787.  trim_suffix_copy (2770-2775) assigns through
      a const member and does not compile. *)
  Definition trim_prefix (v : view) : res view := remove_prefix_while v sv_is_space.
  Definition trim_suffix (v : view) : res view := remove_suffix_while v sv_is_space.
  Definition trim (v : view) : res view := v <- trim_prefix v ;; trim_suffix v.

  (** expand_prefix 2791-2795 and 2799-2803; expand_suffix 2807-2811, 2815-2819. *)
  Definition nonnull (v : view) : bool := match vmem v with None => false | Some _ => true end.
  Definition expand_prefix (v : view) (n : Z) : res view := _ <- chk (nonnull v) ;; inc_front v n.
  Definition expand_suffix (v : view) (n : Z) : res view := _ <- chk (nonnull v) ;; Ok (inc_back v n).

  (** operator<<, lines 2926-2943, with sv_insert_aligned 2900-2923 and
      sv_insert_fill_chars 2875-2898, on a stream that stays good: the characters
      written, given os.width( ), os.fill( ) and whether adjustfield is left. *)
  Fixpoint read_n (n : nat) (m : option (list Z)) (p : Z) : res (list Z) :=
    match n with
    | O => Ok []
    | S n => c <- rdp m p ;; r <- read_n n m (p + 1) ;; Ok (c :: r)
    end.
  Fixpoint fill_chars (fuel : nat) (n : Z) (fill : Z) : res (list Z) :=
    match fuel with
    | O => OutOfFuel
    | S fuel =>
        if 8 <=? n then r <- fill_chars fuel (n - 8) fill ;; Ok (repeat fill 8 ++ r)
        else Ok (if 0 <? n then repeat fill (Z.to_nat n) else [])
    end.
  Definition stream_out (v : view) (width fill : Z) (align_left : bool) : res (list Z) :=
    str <- read_n (Z.to_nat (vsize v)) (vmem v) (voff v) ;;
    let w := sz width in
    if w <=? vsize v then Ok str
    else
      pad <- fill_chars (S (Z.to_nat (w - vsize v))) (w - vsize v) fill ;;
      Ok (if align_left then str ++ pad else pad ++ str).
End SV.
