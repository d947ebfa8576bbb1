(** Model of daw_string_view.h, second part: the pop_*, try_pop_* and
    remove_prefix_until members, lines 1125-1777, and histories of view operations.
    A member that changes *this and returns a piece is modelled by a function that
    returns the pair (piece, new view).  No proofs in this file.
    Not modelled: pop_back_until( CharT, nodiscard ) 1376-1387, which uses
    where.size( ) on a character, and remove_prefix_until( pred, nodiscard )
    1771-1777, which calls a member find_if that does not exist (neither compiles
    when used).
    find_predicate_result_size (387-390) is the constant 1. *)
From Verif Require Import Common Ints BitsModel StringView.
Open Scope Z_scope.

Section Pop.
  Variables dbg runtime : bool.

  (** pop_front( ) 1127-1131; pop_front_unsafe( ) 1135-1141. *)
  Definition pop_front_char (v : view) : res (Z * view) :=
    c <- sv_front dbg v ;; v <- remove_prefix v 1 ;; Ok (c, v).
  Definition pop_front_char_unsafe (v : view) : res (Z * view) :=
    _ <- chk dbg (1 <=? vsize v) ;;
    c <- sv_front dbg v ;; v <- remove_prefix_unsafe dbg v 1 ;; Ok (c, v).
  (** pop_front( count ) 1148-1153; pop_front_unsafe( count ) 1160-1168, which calls
      substr_unsafe( 0 ). *)
  Definition pop_front (v : view) (count : Z) : res (view * view) :=
    r <- substr dbg v 0 count ;; v <- remove_prefix v count ;; Ok (r, v).
  Definition pop_front_unsafe (v : view) (count : Z) : res (view * view) :=
    _ <- chk dbg (count <=? vsize v) ;;
    r <- substr_unsafe_from dbg v 0 ;; v <- remove_prefix_unsafe dbg v count ;; Ok (r, v).

  (** pop_front_until( where, nodiscard ) 1177-1183 and, for a character, 1189-1194. *)
  Definition pop_front_until_keep (v w : view) : res (view * view) :=
    pos <- sv_find v w 0 ;; pop_front v pos.
  Definition pop_front_until_char_keep (v : view) (c : Z) : res (view * view) :=
    pos <- sv_find_char dbg runtime v c 0 ;; pop_front v pos.
  (** pop_front_while( c ) 1200-1205, pop_front_while( where ) 1211-1216. *)
  Definition pop_front_while_char (v : view) (c : Z) : res (view * view) :=
    pos <- find_first_not_of_char dbg v c 0 ;; pop_front v pos.
  Definition pop_front_while (v w : view) : res (view * view) :=
    pos <- find_first_not_of dbg v w 0 ;; pop_front v pos.
  (** pop_front_until( where ) 1222-1228, ( c ) 1234-1240. *)
  Definition pop_front_until (v w : view) : res (view * view) :=
    pos <- sv_find v w 0 ;; ' (r, v) <- pop_front v pos ;; v <- remove_prefix v (vsize w) ;; Ok (r, v).
  Definition pop_front_until_char (v : view) (c : Z) : res (view * view) :=
    pos <- sv_find_char dbg runtime v c 0 ;; ' (r, v) <- pop_front v pos ;; v <- remove_prefix v 1 ;; Ok (r, v).
  (** pop_front_until( pred, nodiscard ) 1256-1260; pop_front_while( pred ) 1277-1281;
      pop_front_until( pred ) 1297-1302. *)
  Definition pop_front_until_if_keep (v : view) (pred : Z -> bool) : res (view * view) :=
    pos <- find_first_of_if v pred 0 ;; pop_front v pos.
  Definition pop_front_while_if (v : view) (pred : Z -> bool) : res (view * view) :=
    pos <- find_first_not_of_if v pred 0 ;; pop_front v pos.
  Definition pop_front_until_if (v : view) (pred : Z -> bool) : res (view * view) :=
    ' (r, v) <- pop_front_until_if_keep v pred ;; v <- remove_prefix v 1 ;; Ok (r, v).

  (** pop_back( ) 1310-1314; pop_back_unsafe( ) 1318-1325; pop_back( count )
      1331-1337; pop_back_unsafe( count ) 1344-1352. *)
  Definition pop_back_char (v : view) : res (Z * view) :=
    c <- sv_back dbg v ;; Ok (c, remove_suffix v 1).
  Definition pop_back_char_unsafe (v : view) : res (Z * view) :=
    _ <- chk dbg (1 <=? vsize v) ;;
    c <- sv_back dbg v ;; v <- remove_suffix_unsafe dbg v 1 ;; Ok (c, v).
  Definition pop_back (v : view) (count : Z) : res (view * view) :=
    let count := Z.min count (vsize v) in
    r <- substr dbg v (sz (vsize v - count)) npos ;; Ok (r, remove_suffix v count).
  Definition pop_back_unsafe (v : view) (count : Z) : res (view * view) :=
    _ <- chk dbg (count <=? vsize v) ;;
    r <- substr_unsafe dbg v (sz (vsize v - count)) count ;;
    v <- remove_suffix_unsafe dbg v count ;; Ok (r, v).

  (** The branch of pop_back_until taken when nothing is found, e.g. 1360-1364. *)
  Definition pop_all (v : view) : res (view * view) :=
    v' <- remove_prefix v npos ;; Ok (v, v').
  (** result = substr( pos + skip ); remove_suffix( size( ) - pos - keep ). *)
  Definition split_back (v : view) (pos skip keep : Z) : res (view * view) :=
    r <- substr_from dbg v (sz (pos + skip)) ;;
    Ok (r, remove_suffix v (sz (sz (vsize v - pos) - keep))).
  (** pop_back_until( where ) 1394-1405, and the same text in pop_back_until( where,
      nodiscard ) 1358-1370; ( c ) 1412-1423; ( pred ) 1436-1448; ( pred, nodiscard )
      1461-1472. *)
  Definition pop_back_until (v w : view) : res (view * view) :=
    pos <- sv_rfind v w npos ;; if pos =? npos then pop_all v else split_back v pos (vsize w) 0.
  Definition pop_back_until_keep (v w : view) : res (view * view) :=
    pos <- sv_rfind v w npos ;; if pos =? npos then pop_all v else split_back v pos (vsize w) 0.
  Definition pop_back_until_char (v : view) (c : Z) : res (view * view) :=
    pos <- sv_rfind_char v c npos ;; if pos =? npos then pop_all v else split_back v pos 1 0.
  Definition pop_back_until_if (v : view) (pred : Z -> bool) : res (view * view) :=
    pos <- find_last_of_if dbg v pred npos ;; if pos =? npos then pop_all v else split_back v pos 1 0.
  Definition pop_back_until_if_keep (v : view) (pred : Z -> bool) : res (view * view) :=
    pos <- find_last_of_if dbg v pred npos ;; if pos =? npos then pop_all v else split_back v pos 0 0.

  (** try_pop_front_until( where ) 1479-1488, ( where, nodiscard ) 1498-1507,
      ( c, nodiscard ) 1514-1522, ( c ) 1529-1538, ( pred, nodiscard ) 1555-1563,
      ( pred ) 1580-1585. *)
  Definition try_pop_front_until (v w : view) : res (view * view) :=
    pos <- sv_find v w 0 ;;
    if pos =? npos then Ok (v_null, v)
    else ' (r, v) <- pop_front v pos ;; v <- remove_prefix v (vsize w) ;; Ok (r, v).
  Definition try_pop_front_until_keep (v w : view) : res (view * view) :=
    pos <- sv_find v w 0 ;; if pos =? npos then Ok (v_null, v) else pop_front v pos.
  Definition try_pop_front_until_char_keep (v : view) (c : Z) : res (view * view) :=
    pos <- sv_find_char dbg runtime v c 0 ;; if pos =? npos then Ok (v_null, v) else pop_front v pos.
  Definition try_pop_front_until_char (v : view) (c : Z) : res (view * view) :=
    pos <- sv_find_char dbg runtime v c 0 ;;
    if pos =? npos then Ok (v_null, v)
    else ' (r, v) <- pop_front v pos ;; v <- remove_prefix v 1 ;; Ok (r, v).
  Definition try_pop_front_until_if_keep (v : view) (pred : Z -> bool) : res (view * view) :=
    pos <- find_first_of_if v pred 0 ;; if pos =? npos then Ok (v_null, v) else pop_front v pos.
  Definition try_pop_front_until_if (v : view) (pred : Z -> bool) : res (view * view) :=
    ' (r, v) <- try_pop_front_until_if_keep v pred ;; v <- remove_prefix v 1 ;; Ok (r, v).

  (** try_pop_back_until( where ) 1593-1602, ( where, nodiscard ) 1609-1619,
      ( c, nodiscard ) 1626-1635, ( c ) 1642-1651, ( pred ) 1665-1674,
      ( pred, nodiscard ) 1687-1697. *)
  Definition try_pop_back_until (v w : view) : res (view * view) :=
    pos <- sv_rfind v w npos ;; if pos =? npos then Ok (v_null, v) else split_back v pos (vsize w) 0.
  Definition try_pop_back_until_keep (v w : view) : res (view * view) :=
    pos <- sv_rfind v w npos ;; if pos =? npos then Ok (v_null, v) else split_back v pos (vsize w) 0.
  Definition try_pop_back_until_char_keep (v : view) (c : Z) : res (view * view) :=
    pos <- sv_rfind_char v c npos ;; if pos =? npos then Ok (v_null, v) else split_back v pos 0 1.
  Definition try_pop_back_until_char (v : view) (c : Z) : res (view * view) :=
    pos <- sv_rfind_char v c npos ;; if pos =? npos then Ok (v_null, v) else split_back v pos 0 0.
  Definition try_pop_back_until_if (v : view) (pred : Z -> bool) : res (view * view) :=
    pos <- find_last_of_if dbg v pred npos ;; if pos =? npos then Ok (v_null, v) else split_back v pos 0 0.
  Definition try_pop_back_until_if_keep (v : view) (pred : Z -> bool) : res (view * view) :=
    pos <- find_last_of_if dbg v pred npos ;; if pos =? npos then Ok (v_null, v) else split_back v pos 0 1.

  (** remove_prefix_until( c ) 1704-1710, ( c, nodiscard ) 1716-1721, ( where )
      1728-1734, ( where, nodiscard ) 1741-1746, ( pred ) 1755-1762. *)
  Definition remove_prefix_until_char (v : view) (c : Z) : res view :=
    pos <- sv_find_char dbg runtime v c 0 ;; v <- remove_prefix v pos ;; remove_prefix v 1.
  Definition remove_prefix_until_char_keep (v : view) (c : Z) : res view :=
    pos <- sv_find_char dbg runtime v c 0 ;; remove_prefix v pos.
  Definition remove_prefix_until (v w : view) : res view :=
    pos <- sv_find v w 0 ;; v <- remove_prefix v pos ;; remove_prefix v (vsize w).
  Definition remove_prefix_until_keep (v w : view) : res view :=
    pos <- sv_find v w 0 ;; remove_prefix v pos.
  Definition remove_prefix_until_if (v : view) (pred : Z -> bool) : res view :=
    pos <- find_first_of_if v pred 0 ;; v <- remove_prefix v pos ;; remove_prefix v 1.

  (** Operations that turn one view into another, for histories.  Where a member
      returns a piece and also changes the view, [piece] says which is followed. *)
  Inductive vop :=
  | VRemovePrefix (n : Z)
  | VRemoveSuffix (n : Z)
  | VResize (n : Z)
  | VClear
  | VReset
  | VSubstr (pos count : Z)
  | VSubstrAll
  | VSubstrUnsafe (pos count : Z)
  | VSubstrUnsafeFrom (pos : Z)
  | VPopFront (piece : bool) (count : Z)
  | VPopBack (piece : bool) (count : Z)
  | VPopFrontUnsafe (piece : bool) (count : Z)
  | VPopBackUnsafe (piece : bool) (count : Z)
  | VPopFrontUntil (piece : bool) (w : view)
  | VPopBackUntil (piece : bool) (w : view)
  | VTryPopFrontUntil (piece : bool) (w : view)
  | VTryPopBackUntil (piece : bool) (w : view)
  | VRemovePrefixUntil (w : view)
  | VRemovePrefixWhile (pred : Z -> bool)
  | VRemoveSuffixWhile (pred : Z -> bool)
  | VTrim
  | VSetZeroTerminated.

  Definition pick (piece : bool) (r : res (view * view)) : res view :=
    ' (a, b) <- r ;; Ok (if piece then a else b).

  Definition vstep (v : view) (o : vop) : res view :=
    match o with
    | VRemovePrefix n => remove_prefix v n
    | VRemoveSuffix n => Ok (remove_suffix v n)
    | VResize n => resize dbg v n
    | VClear => Ok (sv_clear v)
    | VReset => Ok (sv_reset v)
    | VSubstr pos count => substr dbg v pos count
    | VSubstrAll => substr_all dbg v
    | VSubstrUnsafe pos count => substr_unsafe dbg v pos count
    | VSubstrUnsafeFrom pos => substr_unsafe_from dbg v pos
    | VPopFront piece n => pick piece (pop_front v n)
    | VPopBack piece n => pick piece (pop_back v n)
    | VPopFrontUnsafe piece n => pick piece (pop_front_unsafe v n)
    | VPopBackUnsafe piece n => pick piece (pop_back_unsafe v n)
    | VPopFrontUntil piece w => pick piece (pop_front_until v w)
    | VPopBackUntil piece w => pick piece (pop_back_until v w)
    | VTryPopFrontUntil piece w => pick piece (try_pop_front_until v w)
    | VTryPopBackUntil piece w => pick piece (try_pop_back_until v w)
    | VRemovePrefixUntil w => remove_prefix_until v w
    | VRemovePrefixWhile p => remove_prefix_while v p
    | VRemoveSuffixWhile p => remove_suffix_while dbg v p
    | VTrim => trim dbg v
    | VSetZeroTerminated => v_mark_zt dbg v
    end.
  Fixpoint vrun (v : view) (os : list vop) : res view :=
    match os with
    | [] => Ok v
    | o :: os => v <- vstep v o ;; vrun v os
    end.
End Pop.
