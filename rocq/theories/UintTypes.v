(** Model of daw_uint_types.h: the enumerations UInt64, UInt32, UInt16 and UInt8 used as
    numbers.  No proofs in this file. *)
From Verif Require Import Common Ints Math.
Open Scope Z_scope.

(** The types in the signatures: E are the enumerations (25-28), U the std::uintN_t. *)
Inductive uty := U64 | U32 | U16 | U8 | E64 | E32 | E16 | E8 | B.
Definition bits_of (t : uty) : Z :=
  match t with U64 | E64 => 64 | U32 | E32 => 32 | U16 | E16 => 16 | U8 | E8 => 8 | B => 1 end.
(** The underlying type; B is bool. *)
Definition base (t : uty) : ity := {| signed := false; width := bits_of t |}.

Inductive bop := OpAdd | OpSub | OpMul | OpDiv | OpAnd | OpOr | OpXor | OpShl | OpShr
  | OpEq | OpNe | OpLt | OpLe | OpGt | OpGe.
(** One overload of a binary operator: the line of its definition, the operator without =,
    whether it is the compound assignment, the types of the parameters, the types lhs and
    rhs have in the expression (that of the static_cast, or their own), the type the
    result of the expression is converted to, and the type returned.  All five forms of
    the bodies are of this kind:
      return static_cast<ret>( static_cast<la>( lhs ) op static_cast<ra>( rhs ) );
      lhs = static_cast<mid>( static_cast<la>( lhs ) op static_cast<ra>( rhs ) ); return lhs;
      lhs op= static_cast<ra>( rhs ); return lhs;
      auto tmp = static_cast<la>( lhs ); tmp op= static_cast<ra>( rhs ); lhs = static_cast<ret>( tmp ); return lhs;
      return static_cast<la>( lhs ) op static_cast<ra>( rhs );
    with mid = ret, the type of lhs, the type of lhs, la and bool. *)
Record overload := Row { line : Z; oper : bop; assigns : bool; lhs_ty : uty; rhs_ty : uty;
  la : uty; ra : uty; mid : uty; ret : uty }.

(** The built-in operator on values of types [T] and [U].  A shift by the number of bits
    or more is undefined; no negative number is shifted. *)
Definition of_bool (b : bool) : Z := if b then 1 else 0.
Definition builtin (o : bop) (T U : ity) (x y : Z) : res Z :=
  let C := usual T U in
  match o with
  | OpAdd => calc C (x + y)
  | OpSub => calc C (x - y)
  | OpMul => calc C (x * y)
  | OpDiv => if y =? 0 then UB else calc C (Z.quot x y)
  | OpAnd => Ok (Z.land x y)
  | OpOr => Ok (Z.lor x y)
  | OpXor => Ok (Z.lxor x y)
  | OpShl => if y <? width (promote T) then calc (promote T) (x * 2 ^ y) else UB
  | OpShr => if y <? width (promote T) then Ok (x / 2 ^ y) else UB
  | OpEq => Ok (of_bool (x =? y))
  | OpNe => Ok (of_bool (negb (x =? y)))
  | OpLt => Ok (of_bool (x <? y))
  | OpLe => Ok (of_bool (x <=? y))
  | OpGt => Ok (of_bool (x >? y))
  | OpGe => Ok (of_bool (x >=? y))
  end.
(** A call: the value returned, which a compound assignment also leaves in lhs. *)
Definition call (r : overload) (x y : Z) : res Z :=
  v <- builtin (oper r) (base (la r)) (base (ra r)) (conv (base (la r)) x) (conv (base (ra r)) y) ;;
  Ok (conv (base (ret r)) (conv (base (mid r)) v)).

(** All the binary operators, 62-665, 687-1073, 1095-1388, 1389-1736, 1777-2120,
    2161-2404, 2468-2601 and 2641-2877, in the order of the file. *)
Definition overloads : list overload := [
  Row 62 OpShl true E64 U64 U64 U64 U64 E64;
  Row 69 OpShl true E64 E64 U64 U64 U64 E64;
  Row 76 OpShl true E64 E32 U64 U64 U64 E64;
  Row 83 OpShl true E64 E16 U64 U64 U64 E64;
  Row 90 OpShl true E64 E8 U64 U64 U64 E64;
  Row 97 OpShr true E64 U64 U64 U64 U64 E64;
  Row 104 OpShr true E64 E64 U64 U64 U64 E64;
  Row 111 OpShr true E64 E32 U64 U64 U64 E64;
  Row 118 OpShr true E64 E16 U64 U64 U64 E64;
  Row 125 OpShr true E64 E8 U64 U64 U64 E64;
  Row 132 OpShl false E64 U64 U64 U64 U64 E64;
  Row 138 OpShl false E64 E64 U64 U64 U64 E64;
  Row 144 OpShl false E64 E32 U64 U64 U64 E64;
  Row 150 OpShl false E64 E16 U64 U64 U64 E64;
  Row 156 OpShl false E64 E8 U64 U64 U64 E64;
  Row 162 OpShl false U64 E64 U64 U64 U64 U64;
  Row 167 OpShl false U64 E32 U64 U64 U64 U64;
  Row 172 OpShl false U64 E16 U64 U64 U64 U64;
  Row 177 OpShl false U64 E8 U64 U64 U64 U64;
  Row 182 OpShr false E64 U64 U64 U64 U64 E64;
  Row 188 OpShr false E64 E64 U64 U64 U64 E64;
  Row 194 OpShr false E64 E32 U64 U64 U64 E64;
  Row 200 OpShr false E64 E16 U64 U64 U64 E64;
  Row 206 OpShr false E64 E8 U64 U64 U64 E64;
  Row 212 OpShr false U64 E64 U64 U64 U64 U64;
  Row 217 OpShr false U64 E32 U64 U64 U64 U64;
  Row 222 OpShr false U64 E16 U64 U64 U64 U64;
  Row 227 OpShr false U64 E8 U64 U64 U64 U64;
  Row 232 OpOr true E64 U64 U64 U64 U64 E64;
  Row 239 OpOr true E64 E64 U64 U64 U64 E64;
  Row 246 OpOr true E64 E32 U64 U64 U64 E64;
  Row 253 OpOr true E64 E16 U64 U64 U64 E64;
  Row 260 OpOr true E64 E8 U64 U64 U64 E64;
  Row 267 OpAnd true E64 U64 U64 U64 U64 E64;
  Row 274 OpAnd true E64 E64 U64 U64 U64 E64;
  Row 281 OpAnd true E64 E32 U64 U64 U64 E64;
  Row 288 OpAnd true E64 E16 U64 U64 U64 E64;
  Row 295 OpAnd true E64 E8 U64 U64 U64 E64;
  Row 302 OpXor true E64 U64 U64 U64 U64 E64;
  Row 309 OpXor true E64 E64 U64 U64 U64 E64;
  Row 316 OpXor true E64 E32 U64 U64 U64 E64;
  Row 323 OpXor true E64 E16 U64 U64 U64 E64;
  Row 330 OpXor true E64 E8 U64 U64 U64 E64;
  Row 337 OpOr false E64 U64 U64 U64 E64 E64;
  Row 342 OpOr false U64 E64 U64 U64 E64 E64;
  Row 347 OpAnd false E64 U64 U64 U64 E64 E64;
  Row 352 OpAnd false U64 E64 U64 U64 E64 E64;
  Row 357 OpXor false E64 U64 U64 U64 E64 E64;
  Row 362 OpXor false U64 E64 U64 U64 E64 E64;
  Row 367 OpEq false E64 U64 U64 U64 B B;
  Row 372 OpEq false E64 E32 U64 U64 B B;
  Row 377 OpEq false E64 E16 U64 U64 B B;
  Row 382 OpEq false E64 E8 U64 U64 B B;
  Row 387 OpEq false U64 E64 U64 U64 B B;
  Row 392 OpEq false U64 E32 U64 U64 B B;
  Row 397 OpEq false U64 E16 U64 U64 B B;
  Row 402 OpEq false U64 E8 U64 U64 B B;
  Row 407 OpNe false E64 U64 U64 U64 B B;
  Row 412 OpNe false U64 E64 U64 U64 B B;
  Row 417 OpGt false E64 U64 U64 U64 B B;
  Row 422 OpGt false E32 U64 U64 U64 B B;
  Row 427 OpGt false E16 U64 U64 U64 B B;
  Row 432 OpGt false E8 U64 U64 U64 B B;
  Row 437 OpGt false U64 E64 U64 U64 B B;
  Row 442 OpGt false U64 E32 U64 U64 B B;
  Row 447 OpGt false U64 E16 U64 U64 B B;
  Row 452 OpGt false U64 E8 U64 U64 B B;
  Row 457 OpGe false E64 U64 U64 U64 B B;
  Row 462 OpGe false E32 U64 U64 U64 B B;
  Row 467 OpGe false E16 U64 U64 U64 B B;
  Row 472 OpGe false E8 U64 U64 U64 B B;
  Row 477 OpGe false U64 E64 U64 U64 B B;
  Row 482 OpGe false U64 E32 U64 U64 B B;
  Row 487 OpGe false U64 E16 U64 U64 B B;
  Row 492 OpGe false U64 E8 U64 U64 B B;
  Row 497 OpLt false E64 U64 U64 U64 B B;
  Row 502 OpLt false U64 E64 U64 U64 B B;
  Row 507 OpLt false U64 E32 U64 U64 B B;
  Row 512 OpLt false U64 E16 U64 U64 B B;
  Row 517 OpLt false U64 E8 U64 U64 B B;
  Row 522 OpLe false E64 U64 U64 U64 B B;
  Row 527 OpLe false E32 U64 U64 U64 B B;
  Row 532 OpLe false E16 U64 U64 U64 B B;
  Row 537 OpLe false E8 U64 U64 U64 B B;
  Row 542 OpLe false U64 E64 U64 U64 B B;
  Row 547 OpLe false U64 E32 U64 U64 B B;
  Row 552 OpLe false U64 E16 U64 U64 B B;
  Row 557 OpLe false U64 E8 U64 U64 B B;
  Row 562 OpOr false E64 E64 U64 U64 E64 E64;
  Row 567 OpOr false E64 E32 U64 U64 E64 E64;
  Row 572 OpOr false E64 E16 U64 U64 E64 E64;
  Row 577 OpOr false E64 E8 U64 U64 E64 E64;
  Row 582 OpOr false E32 E64 U64 U64 E64 E64;
  Row 587 OpOr false E16 E64 U64 U64 E64 E64;
  Row 592 OpOr false E8 E64 U64 U64 E64 E64;
  Row 597 OpAnd false E64 E64 U64 U64 E64 E64;
  Row 602 OpAnd false E64 E32 U64 U64 E64 E64;
  Row 607 OpAnd false E64 E16 U64 U64 E64 E64;
  Row 612 OpAnd false E64 E8 U64 U64 E64 E64;
  Row 617 OpAnd false E32 E64 U64 U64 E64 E64;
  Row 622 OpAnd false E16 E64 U64 U64 E64 E64;
  Row 627 OpAnd false E8 E64 U64 U64 E64 E64;
  Row 632 OpXor false E64 E64 U64 U64 E64 E64;
  Row 637 OpXor false E64 E32 U64 U64 E64 E64;
  Row 642 OpXor false E64 E16 U64 U64 E64 E64;
  Row 647 OpXor false E64 E8 U64 U64 E64 E64;
  Row 652 OpXor false E32 E64 U64 U64 E64 E64;
  Row 657 OpXor false E16 E64 U64 U64 E64 E64;
  Row 662 OpXor false E8 E64 U64 U64 E64 E64;
  Row 687 OpShl true E32 U32 U32 U32 U32 E32;
  Row 695 OpShl true E32 E32 U32 U32 U32 E32;
  Row 702 OpShl true E32 E16 U32 U32 U32 E32;
  Row 709 OpShl true E32 E8 U32 U32 U32 E32;
  Row 716 OpShr true E32 U32 U32 U32 U32 E32;
  Row 724 OpShr true E32 E32 U32 U32 U32 E32;
  Row 731 OpShr true E32 E16 U32 U32 U32 E32;
  Row 738 OpShr true E32 E8 U32 U32 U32 E32;
  Row 745 OpShl false E32 U32 U32 U32 U32 E32;
  Row 752 OpShl false E32 E32 U32 U32 U32 E32;
  Row 758 OpShl false E32 E16 U32 U32 U32 E32;
  Row 764 OpShl false E32 E8 U32 U32 U32 E32;
  Row 770 OpShl false U32 E32 U32 U32 U32 U32;
  Row 776 OpShr false E32 U32 U32 U32 U32 E32;
  Row 783 OpShr false E32 E32 U32 U32 U32 E32;
  Row 788 OpShr false E32 E16 U32 U32 U32 E32;
  Row 793 OpShr false E32 E8 U32 U32 U32 E32;
  Row 799 OpShr false U32 E32 U32 U32 U32 U32;
  Row 805 OpShr false U32 E16 U32 U32 U32 U32;
  Row 811 OpShr false U32 E8 U32 U32 U32 U32;
  Row 817 OpOr true E32 U32 U32 U32 U32 E32;
  Row 825 OpOr true E32 E32 U32 U32 U32 E32;
  Row 832 OpOr true E32 E16 U32 U32 U32 E32;
  Row 839 OpOr true E32 E8 U32 U32 U32 E32;
  Row 846 OpAnd true E32 U32 U32 U32 U32 E32;
  Row 854 OpAnd true E32 E32 U32 U32 U32 E32;
  Row 861 OpAnd true E32 E16 U32 U32 U32 E32;
  Row 868 OpAnd true E32 E8 U32 U32 U32 E32;
  Row 875 OpXor true E32 U32 U32 U32 U32 E32;
  Row 883 OpXor true E32 E32 U32 U32 U32 E32;
  Row 890 OpXor true E32 E16 U32 U32 U32 E32;
  Row 897 OpXor true E32 E8 U32 U32 U32 E32;
  Row 904 OpGe false E32 U32 U32 U32 B B;
  Row 910 OpGe false U32 E32 U32 U32 B B;
  Row 916 OpLt false E32 U32 U32 U32 B B;
  Row 922 OpLt false U32 E32 U32 U32 B B;
  Row 928 OpLe false E32 U32 U32 U32 B B;
  Row 934 OpLe false U32 E32 U32 U32 B B;
  Row 940 OpOr false E32 U32 U32 U32 E32 E32;
  Row 946 OpOr false U32 E32 U32 U32 E32 E32;
  Row 952 OpAnd false E32 U32 U32 U32 E32 E32;
  Row 958 OpAnd false U32 E32 U32 U32 E32 E32;
  Row 964 OpXor false E32 U32 U32 U32 E32 E32;
  Row 970 OpXor false U32 E32 U32 U32 E32 E32;
  Row 976 OpEq false E32 U32 U32 U32 B B;
  Row 982 OpEq false U32 E32 U32 U32 B B;
  Row 988 OpNe false E32 U32 U32 U32 B B;
  Row 994 OpNe false U32 E32 U32 U32 B B;
  Row 1000 OpOr false E32 E32 U32 U32 E32 E32;
  Row 1005 OpOr false E32 E16 U32 U32 E32 E32;
  Row 1010 OpOr false E32 E8 U32 U32 E32 E32;
  Row 1015 OpOr false E16 E32 U32 U32 E32 E32;
  Row 1020 OpOr false E8 E32 U32 U32 E32 E32;
  Row 1025 OpAnd false E32 E32 U32 U32 E32 E32;
  Row 1030 OpAnd false E32 E16 U32 U32 E32 E32;
  Row 1035 OpAnd false E32 E8 U32 U32 E32 E32;
  Row 1040 OpAnd false E16 E32 U32 U32 E32 E32;
  Row 1045 OpAnd false E8 E32 U32 U32 E32 E32;
  Row 1050 OpXor false E32 E32 U32 U32 E32 E32;
  Row 1055 OpXor false E32 E16 U32 U32 E32 E32;
  Row 1060 OpXor false E32 E8 U32 U32 E32 E32;
  Row 1065 OpXor false E16 E32 U32 U32 E32 E32;
  Row 1070 OpXor false E8 E32 U32 U32 E32 E32;
  Row 1095 OpShl true E16 U16 U32 U32 U32 E16;
  Row 1103 OpShl true E16 E16 U32 U32 U32 E16;
  Row 1110 OpShl true E16 E8 U32 U32 U32 E16;
  Row 1117 OpShr true E16 U16 U32 U32 U32 E16;
  Row 1125 OpShr true E16 E16 U32 U32 U32 E16;
  Row 1132 OpShr true E16 E8 U32 U32 U32 E16;
  Row 1139 OpShl false E16 U16 U32 U32 U32 E16;
  Row 1146 OpShl false E16 E16 U32 U32 U32 E16;
  Row 1152 OpShl false E16 E8 U32 U32 U32 E16;
  Row 1158 OpShl false U16 E16 U32 U32 U16 U16;
  Row 1165 OpShr false E16 U16 U32 U32 U32 E16;
  Row 1172 OpShr false E16 E16 U32 U32 U32 E16;
  Row 1178 OpShr false U16 E16 U32 U32 U16 U16;
  Row 1185 OpOr true E16 U16 U32 U32 U32 E16;
  Row 1193 OpOr true E16 E16 U32 U32 U32 E16;
  Row 1200 OpOr true E16 E8 U32 U32 U32 E16;
  Row 1207 OpAnd true E16 U16 U32 U32 U32 E16;
  Row 1215 OpAnd true E16 E16 U32 U32 U32 E16;
  Row 1222 OpAnd true E16 E8 U32 U32 U32 E16;
  Row 1229 OpXor true E16 U16 U32 U32 U32 E16;
  Row 1237 OpXor true E16 E16 U32 U32 U32 E16;
  Row 1244 OpXor true E16 E8 U32 U32 U32 E16;
  Row 1251 OpOr false E16 U16 U32 U32 E16 E16;
  Row 1257 OpOr false U16 E16 U32 U32 E16 E16;
  Row 1263 OpAnd false E16 U16 U32 U32 E16 E16;
  Row 1269 OpAnd false U16 E16 U32 U32 E16 E16;
  Row 1275 OpXor false E16 U16 U32 U32 E16 E16;
  Row 1281 OpXor false U16 E16 U32 U32 E16 E16;
  Row 1287 OpEq false E16 U16 U32 U32 B B;
  Row 1293 OpEq false U16 E16 U32 U32 B B;
  Row 1299 OpNe false E16 U16 U32 U32 B B;
  Row 1305 OpNe false U16 E16 U32 U32 B B;
  Row 1311 OpGt false E16 U16 U32 U32 B B;
  Row 1317 OpGt false U16 E16 U32 U32 B B;
  Row 1323 OpGe false E16 U16 U32 U32 B B;
  Row 1329 OpGe false U16 E16 U32 U32 B B;
  Row 1335 OpLt false E16 U16 U32 U32 B B;
  Row 1341 OpLt false U16 E16 U32 U32 B B;
  Row 1347 OpLe false E16 U16 U32 U32 B B;
  Row 1353 OpLe false U16 E16 U32 U32 B B;
  Row 1359 OpOr false E16 E16 U32 U32 E16 E16;
  Row 1364 OpOr false E16 E8 U32 U32 E16 E16;
  Row 1369 OpAnd false E16 E16 U32 U32 E16 E16;
  Row 1374 OpAnd false E16 E8 U32 U32 E16 E16;
  Row 1379 OpXor false E16 E16 U32 U32 E16 E16;
  Row 1384 OpXor false E16 E8 U32 U32 E16 E16;
  Row 1389 OpAdd true E64 E64 U64 U64 E64 E64;
  Row 1395 OpAdd true E64 E32 U64 U64 E64 E64;
  Row 1401 OpAdd true E64 E16 U64 U64 E64 E64;
  Row 1407 OpAdd true E64 E8 U64 U64 E64 E64;
  Row 1413 OpAdd true E64 U64 U64 U64 E64 E64;
  Row 1418 OpAdd true U64 E64 U64 U64 U64 U64;
  Row 1424 OpAdd false E64 E64 U64 U64 E64 E64;
  Row 1428 OpAdd false E64 E32 U64 U64 E64 E64;
  Row 1432 OpAdd false E64 E16 U64 U64 E64 E64;
  Row 1436 OpAdd false E64 E8 U64 U64 E64 E64;
  Row 1440 OpAdd false E32 E64 U64 U64 E64 E64;
  Row 1444 OpAdd false E16 E64 U64 U64 E64 E64;
  Row 1448 OpAdd false E8 E64 U64 U64 E64 E64;
  Row 1453 OpAdd false E64 U64 U64 U64 E64 E64;
  Row 1458 OpAdd false U64 E64 U64 U64 U64 E64;
  Row 1463 OpSub true E64 E64 U64 U64 E64 E64;
  Row 1468 OpSub true E64 E32 U64 U64 E64 E64;
  Row 1473 OpSub true E64 E16 U64 U64 E64 E64;
  Row 1478 OpSub true E64 E8 U64 U64 E64 E64;
  Row 1484 OpSub true E64 U64 U64 U64 E64 E64;
  Row 1489 OpSub true U64 E64 U64 U64 U64 U64;
  Row 1495 OpSub false E64 E64 U64 U64 E64 E64;
  Row 1500 OpSub false E64 E32 U64 U64 E64 E64;
  Row 1505 OpSub false E64 E16 U64 U64 E64 E64;
  Row 1510 OpSub false E64 E8 U64 U64 E64 E64;
  Row 1515 OpSub false E32 E64 U64 U64 E64 E64;
  Row 1519 OpSub false E16 E64 U64 U64 E64 E64;
  Row 1523 OpSub false E8 E64 U64 U64 E64 E64;
  Row 1528 OpSub false E64 U64 U64 U64 E64 E64;
  Row 1533 OpSub false U64 E64 U64 U64 U64 E64;
  Row 1538 OpMul true E64 E64 U64 U64 E64 E64;
  Row 1544 OpMul true E64 E32 U64 U64 E64 E64;
  Row 1550 OpMul true E64 E16 U64 U64 E64 E64;
  Row 1556 OpMul true E64 E8 U64 U64 E64 E64;
  Row 1562 OpMul true E64 U64 U64 U64 E64 E64;
  Row 1567 OpMul true U64 E64 U64 U64 U64 U64;
  Row 1573 OpMul false E64 E64 U64 U64 E64 E64;
  Row 1579 OpMul false E64 E32 U64 U64 E64 E64;
  Row 1585 OpMul false E64 E16 U64 U64 E64 E64;
  Row 1591 OpMul false E64 E8 U64 U64 E64 E64;
  Row 1597 OpMul false E32 E64 U64 U64 E64 E64;
  Row 1602 OpMul false E16 E64 U64 U64 E64 E64;
  Row 1607 OpMul false E8 E64 U64 U64 E64 E64;
  Row 1612 OpMul false E64 U64 U64 U64 E64 E64;
  Row 1617 OpMul false U64 E64 U64 U64 U64 E64;
  Row 1622 OpDiv true E64 E64 U64 U64 E64 E64;
  Row 1628 OpDiv true E64 E32 U64 U64 E64 E64;
  Row 1634 OpDiv true E64 E16 U64 U64 E64 E64;
  Row 1640 OpDiv true E64 E8 U64 U64 E64 E64;
  Row 1646 OpDiv true E64 U64 U64 U64 E64 E64;
  Row 1651 OpDiv true U64 E64 U64 U64 U64 U64;
  Row 1657 OpDiv true U64 E32 U64 U64 U64 U64;
  Row 1663 OpDiv true U64 E16 U64 U64 U64 U64;
  Row 1669 OpDiv true U64 E8 U64 U64 U64 U64;
  Row 1675 OpDiv false E64 E64 U64 U64 E64 E64;
  Row 1680 OpDiv false E64 E32 U64 U64 E64 E64;
  Row 1686 OpDiv false E64 E16 U64 U64 E64 E64;
  Row 1692 OpDiv false E64 E8 U64 U64 E64 E64;
  Row 1698 OpDiv false E32 E64 U64 U64 E64 E64;
  Row 1703 OpDiv false E16 E64 U64 U64 E64 E64;
  Row 1708 OpDiv false E8 E64 U64 U64 E64 E64;
  Row 1713 OpDiv false E64 U64 U64 U64 E64 E64;
  Row 1718 OpDiv false U64 E64 U64 U64 U64 E64;
  Row 1723 OpDiv false U64 E32 U64 U64 U64 E64;
  Row 1728 OpDiv false U64 E16 U64 U64 U64 E64;
  Row 1733 OpDiv false U64 E8 U64 U64 U64 E64;
  Row 1777 OpAdd true E32 E32 U32 U32 E32 E32;
  Row 1783 OpAdd true E32 E16 U32 U32 E32 E32;
  Row 1789 OpAdd true E32 E8 U32 U32 E32 E32;
  Row 1795 OpAdd true E32 U32 U32 U32 E32 E32;
  Row 1800 OpAdd true U32 E32 U32 U32 U32 U32;
  Row 1806 OpAdd true U32 E16 U32 U32 U32 U32;
  Row 1812 OpAdd true U32 E8 U32 U32 U32 U32;
  Row 1818 OpAdd false E32 E32 U32 U32 E32 E32;
  Row 1824 OpAdd false E32 E16 U32 U32 E32 E32;
  Row 1830 OpAdd false E32 E8 U32 U32 E32 E32;
  Row 1836 OpAdd false E16 E32 U32 U32 E32 E32;
  Row 1841 OpAdd false E8 E32 U32 U32 E32 E32;
  Row 1846 OpAdd false E32 U32 U32 U32 E32 E32;
  Row 1851 OpAdd false E16 U32 U32 U32 E32 E32;
  Row 1855 OpAdd false E8 U32 U32 U32 E32 E32;
  Row 1859 OpAdd false U32 E32 U32 U32 E32 E32;
  Row 1864 OpAdd false U32 E16 U32 U32 E32 E32;
  Row 1869 OpAdd false U32 E8 U32 U32 E32 E32;
  Row 1874 OpSub true E32 E32 U32 U32 E32 E32;
  Row 1880 OpSub true E32 E16 U32 U32 E32 E32;
  Row 1886 OpSub true E32 E8 U32 U32 E32 E32;
  Row 1892 OpSub true E32 U32 U32 U32 E32 E32;
  Row 1897 OpSub true U32 E32 U32 U32 U32 U32;
  Row 1903 OpSub true U32 E16 U32 U32 U32 U32;
  Row 1909 OpSub true U32 E8 U32 U32 U32 U32;
  Row 1915 OpSub false E32 E32 U32 U32 E32 E32;
  Row 1921 OpSub false E32 E16 U32 U32 E32 E32;
  Row 1927 OpSub false E32 E8 U32 U32 E32 E32;
  Row 1933 OpSub false E16 E32 U32 U32 E32 E32;
  Row 1938 OpSub false E8 E32 U32 U32 E32 E32;
  Row 1943 OpSub false E32 U32 U32 U32 E32 E32;
  Row 1948 OpSub false U32 E32 U32 U32 U32 E32;
  Row 1953 OpSub false U32 E16 U32 U32 U32 E32;
  Row 1958 OpSub false U32 E8 U32 U32 U32 E32;
  Row 1963 OpMul true E32 E32 U32 U32 E32 E32;
  Row 1969 OpMul true E32 E16 U32 U32 E32 E32;
  Row 1975 OpMul true E32 E8 U32 U32 E32 E32;
  Row 1981 OpMul true E32 U32 U32 U32 E32 E32;
  Row 1986 OpMul true U32 E32 U32 U32 U32 U32;
  Row 1992 OpMul true U32 E16 U32 U32 U32 U32;
  Row 1998 OpMul true U32 E8 U32 U32 U32 U32;
  Row 2004 OpMul false E32 E32 U32 U32 E32 E32;
  Row 2009 OpMul false E32 E16 U32 U32 E32 E32;
  Row 2014 OpMul false E32 E8 U32 U32 E32 E32;
  Row 2019 OpMul false E16 E32 U32 U32 E32 E32;
  Row 2024 OpMul false E8 E32 U32 U32 E32 E32;
  Row 2029 OpMul false E32 U32 U32 U32 E32 E32;
  Row 2033 OpMul false U32 E32 U32 U32 U32 E32;
  Row 2038 OpMul false U32 E16 U32 U32 U32 E32;
  Row 2043 OpMul false U32 E8 U32 U32 U32 E32;
  Row 2048 OpDiv true E32 E32 U32 U64 E32 E32;
  Row 2054 OpDiv true E32 E16 U32 U64 E32 E32;
  Row 2060 OpDiv true E32 E8 U32 U64 E32 E32;
  Row 2066 OpDiv true E32 U32 U32 U32 E32 E32;
  Row 2071 OpDiv true U32 E32 U32 U32 U32 U32;
  Row 2077 OpDiv false E32 E32 U32 U64 E32 E32;
  Row 2082 OpDiv false E32 E16 U32 U64 E32 E32;
  Row 2087 OpDiv false E32 E8 U32 U64 E32 E32;
  Row 2092 OpDiv false E16 E32 U32 U64 E32 E32;
  Row 2097 OpDiv false E8 E32 U32 U64 E32 E32;
  Row 2102 OpDiv false E32 U32 U32 U32 E32 E32;
  Row 2107 OpDiv false U32 E32 U32 U32 U32 E32;
  Row 2112 OpDiv false U32 E16 U32 U32 U32 E32;
  Row 2117 OpDiv false U32 E8 U32 U32 U32 E32;
  Row 2161 OpAdd true E16 E16 U32 U32 E16 E16;
  Row 2167 OpAdd true E16 E8 U32 U32 E16 E16;
  Row 2173 OpAdd true E16 U16 U32 U16 E16 E16;
  Row 2178 OpAdd true U16 E16 U32 U32 U16 U16;
  Row 2185 OpAdd true U16 E8 U32 U32 U16 U16;
  Row 2192 OpAdd false E16 E16 U32 U32 E16 E16;
  Row 2198 OpAdd false E16 E8 U32 U32 E16 E16;
  Row 2204 OpAdd false E8 E16 U32 U32 E16 E16;
  Row 2209 OpAdd false E16 U16 U32 U16 E16 E16;
  Row 2214 OpAdd false E8 U16 U32 U16 E16 E16;
  Row 2218 OpAdd false U16 E16 U16 U16 E16 E16;
  Row 2223 OpSub true E16 E16 U32 U32 E16 E16;
  Row 2229 OpSub true E16 E8 U16 U16 E16 E16;
  Row 2235 OpSub true E16 U16 U16 U16 E16 E16;
  Row 2240 OpSub true U16 E16 U32 U32 U16 U16;
  Row 2247 OpSub true U16 E8 U32 U32 U16 U16;
  Row 2254 OpSub false E16 E16 U16 U16 E16 E16;
  Row 2259 OpSub false E16 E8 U16 U16 E16 E16;
  Row 2264 OpSub false E8 E16 U16 U16 E16 E16;
  Row 2269 OpSub false E16 U16 U16 U16 E16 E16;
  Row 2273 OpSub false U16 E16 U16 U16 E16 E16;
  Row 2278 OpSub false U16 E8 U16 U16 E16 E16;
  Row 2283 OpMul true E16 E16 U32 U32 E16 E16;
  Row 2289 OpMul true E16 E8 U32 U32 E16 E16;
  Row 2295 OpMul true E16 U16 U32 U16 E16 E16;
  Row 2300 OpMul true U16 E16 U32 U32 U16 U16;
  Row 2307 OpMul true U16 E8 U32 U32 U16 U16;
  Row 2314 OpMul false E16 E16 U32 U32 E16 E16;
  Row 2319 OpMul false E16 E8 U32 U32 E16 E16;
  Row 2323 OpMul false E8 E16 U32 U32 E16 E16;
  Row 2328 OpMul false E16 U16 U32 U32 E16 E16;
  Row 2333 OpMul false E8 U16 U32 U32 E16 E16;
  Row 2338 OpMul false U16 E16 U32 U32 E16 E16;
  Row 2343 OpDiv true E16 E16 U32 U32 E16 E16;
  Row 2349 OpDiv true E16 E8 U32 U32 E16 E16;
  Row 2355 OpDiv true E16 U16 U16 U16 E16 E16;
  Row 2360 OpDiv true U16 E16 U32 U32 U16 U16;
  Row 2367 OpDiv true U16 E8 U32 U32 U16 U16;
  Row 2374 OpDiv false E16 E16 U32 U32 E16 E16;
  Row 2379 OpDiv false E16 E8 U32 U32 E16 E16;
  Row 2384 OpDiv false E8 E16 U32 U32 E16 E16;
  Row 2389 OpDiv false E16 U16 U32 U32 E16 E16;
  Row 2394 OpDiv false U16 E16 U32 U32 U16 E16;
  Row 2400 OpDiv false U16 E8 U32 U32 U16 E16;
  Row 2468 OpAdd true E8 E8 U32 U32 E8 E8;
  Row 2474 OpAdd true E8 U8 U32 U8 E8 E8;
  Row 2479 OpAdd true U8 E8 U32 U32 U8 U8;
  Row 2485 OpAdd false E8 E8 U32 U32 E8 E8;
  Row 2491 OpAdd false E8 U8 U32 U8 E8 E8;
  Row 2496 OpAdd false U8 E8 U32 U32 U8 E8;
  Row 2502 OpSub true E8 E8 U32 U32 E8 E8;
  Row 2508 OpSub true E8 U8 U32 U8 E8 E8;
  Row 2513 OpSub true U8 E8 U32 U32 U8 U8;
  Row 2519 OpSub false E8 E8 U32 U32 E8 E8;
  Row 2525 OpSub false E8 U8 U32 U8 E8 E8;
  Row 2530 OpSub false U8 E8 U32 U32 U8 E8;
  Row 2536 OpMul true E8 E8 U32 U32 E8 E8;
  Row 2542 OpMul true E8 U8 U32 U8 E8 E8;
  Row 2547 OpMul true U8 E8 U32 U32 U8 U8;
  Row 2553 OpMul false E8 E8 U32 U32 E8 E8;
  Row 2559 OpMul false E8 U64 U32 U64 E8 E8;
  Row 2564 OpMul false U8 E64 U8 U32 U8 E8;
  Row 2569 OpDiv true E8 E8 U64 U64 E8 E8;
  Row 2575 OpDiv true E8 U64 U64 U64 E8 E8;
  Row 2580 OpDiv true U8 E64 U64 U64 U8 U8;
  Row 2586 OpDiv false E8 E8 U64 U64 E8 E8;
  Row 2592 OpDiv false E8 U64 U64 U64 E8 E8;
  Row 2597 OpDiv false U8 E64 U32 U32 U8 E8;
  Row 2641 OpShl true E8 U8 U32 U32 U32 E8;
  Row 2649 OpShl true E8 E8 U32 U32 U32 E8;
  Row 2656 OpShr true E8 U8 U32 U32 U32 E8;
  Row 2664 OpShr true E8 E8 U32 U32 U32 E8;
  Row 2671 OpShl false E8 U8 U32 U32 U32 E8;
  Row 2678 OpShl false E8 E8 U32 U32 U32 E8;
  Row 2684 OpShl false U8 E8 U32 U32 U8 U8;
  Row 2691 OpShr false E8 U8 U32 U32 U32 E8;
  Row 2698 OpShr false E8 E8 U32 U32 U32 E8;
  Row 2704 OpShr false U8 E8 U32 U32 U8 U8;
  Row 2711 OpOr true E8 U8 U32 U32 U32 E8;
  Row 2719 OpOr true E8 E8 U32 U32 U32 E8;
  Row 2726 OpAnd true E8 U8 U32 U32 U32 E8;
  Row 2734 OpAnd true E8 E8 U32 U32 U32 E8;
  Row 2741 OpXor true E8 U8 U32 U32 U32 E8;
  Row 2749 OpXor true E8 E8 U32 U32 U32 E8;
  Row 2756 OpGt false E8 U8 U32 U32 B B;
  Row 2762 OpGt false U8 E8 U32 U32 B B;
  Row 2768 OpGe false E8 U8 U32 U32 B B;
  Row 2774 OpGe false U8 E8 U32 U32 B B;
  Row 2780 OpLt false E8 U8 U32 U32 B B;
  Row 2786 OpLt false U8 E8 U32 U32 B B;
  Row 2792 OpLe false E8 U8 U32 U32 B B;
  Row 2798 OpLe false U8 E8 U32 U32 B B;
  Row 2804 OpOr false E8 U8 U32 U32 E8 E8;
  Row 2810 OpOr false U8 E8 U32 U32 E8 E8;
  Row 2816 OpAnd false E8 U8 U32 U32 E8 E8;
  Row 2822 OpAnd false U8 E8 U32 U32 E8 E8;
  Row 2828 OpXor false E8 U8 U32 U32 E8 E8;
  Row 2834 OpXor false U8 E8 U32 U32 E8 E8;
  Row 2840 OpEq false E8 U8 U32 U32 B B;
  Row 2846 OpEq false U8 E8 U32 U32 B B;
  Row 2852 OpNe false E8 U8 U32 U32 B B;
  Row 2858 OpNe false U8 E8 U32 U32 B B;
  Row 2864 OpOr false E8 E8 U32 U32 E8 E8;
  Row 2869 OpAnd false E8 E8 U32 U32 E8 E8;
  Row 2874 OpXor false E8 E8 U32 U32 E8 E8
].

(** Unary operators 1738-1775, 2122-2159, 2406-2443, 2603-2640, of the enumeration with
    [w] bits.  The expressions use std::uint64_t for UInt64 and std::uint32_t for the
    other three. *)
Definition wide (w : Z) : ity := if w =? 64 then u64 else u32.
Definition uw (w : Z) : ity := {| signed := false; width := w |}.
Definition iw (w : Z) : ity := {| signed := true; width := w |}.
Definition u_not (w v : Z) : bool := conv (wide w) v =? 0.
Definition u_plus (w v : Z) : Z := v.
(** -static_cast<std::intN_t>( value ), promoted. *)
Definition u_neg (w v : Z) : res Z :=
  n <- calc (promote (iw w)) (- conv (iw w) v) ;; Ok (conv (uw w) (conv (wide w) n)).
(** ++ and --: the new value; the postfix ones return the old one. *)
Definition u_inc (w v : Z) : res Z := n <- calc (wide w) (conv (wide w) v + 1) ;; Ok (conv (uw w) n).
Definition u_dec (w v : Z) : res Z := n <- calc (wide w) (conv (wide w) v - 1) ;; Ok (conv (uw w) n).
Definition u_inc_post (w v : Z) : res (Z * Z) := n <- u_inc w v ;; Ok (v, n).
Definition u_dec_post (w v : Z) : res (Z * Z) := n <- u_dec w v ;; Ok (v, n).
Definition u_com (w v : Z) : Z := conv (uw w) (conv (wide w) (Z.lnot (conv (wide w) v))).

(** 667-685, 1075-1093, 2445-2466 and 2930-2952: rotate_left and rotate_right, both as
    template and as function.  [bits] is unsigned; w - bits is unsigned arithmetic. *)
Definition sub32 (x y : Z) : Z := wrap 32 (x - y).
Definition rotate_left (w v bits : Z) : res Z :=
  a <- builtin OpShl (wide w) u32 v bits ;; b <- builtin OpShr (wide w) u32 v (sub32 w bits) ;;
  Ok (conv (uw w) (Z.lor a b)).
Definition rotate_right (w v bits : Z) : res Z :=
  a <- builtin OpShr (wide w) u32 v bits ;; b <- builtin OpShl (wide w) u32 v (sub32 w bits) ;;
  Ok (conv (uw w) (Z.lor a b)).

(** 2879-2928 set_bit< N > and get_bit< N >: ~( 1U << N ) is computed in 32 bits and then
    converted to std::uintN_t. *)
Definition set_bit (w n : Z) (v : Z) (state : bool) : res Z :=
  one <- builtin OpShl u32 u32 1 n ;;
  b <- builtin OpShl (wide w) u32 (of_bool state) n ;;
  Ok (Z.lor (Z.land v (conv (uw w) (conv u32 (Z.lnot one)))) (conv (uw w) b)).
Definition get_bit (w n : Z) (v : Z) : res Z :=
  a <- builtin OpShr (wide w) u32 v n ;; Ok (Z.land a 1).

(** 2954-2996 mask_from_lsb64< N > and the others. *)
Definition mask_from_lsb (w n : Z) : res Z :=
  if n =? 0 then Ok 0
  else m <- builtin OpShl (wide w) u32 (u_com w 1) (n - 1) ;; Ok (u_com w (conv (uw w) m)).

(** 2998-3046 to_uint64_buffer, to_uint32_buffer and to_uint16_buffer: ptr[k] is ored in
    for k = n - 1 down to 0.  The elements are characters, signed or not. *)
Fixpoint read_bytes (C : ity) (n : nat) (ptr : list Z) (result : Z) : res Z :=
  match n with
  | O => Ok result
  | S n =>
      c <- rd ptr n ;;
      b <- builtin OpShl C u32 (conv C (conv u8 c)) (8 * Z.of_nat n) ;;
      read_bytes C n ptr (Z.lor result b)
  end.
Definition to_uint_buffer (w : Z) (ptr : list Z) : res Z :=
  r <- read_bytes (wide w) (Z.to_nat (w / 8)) ptr 0 ;; Ok (conv (uw w) r).

(** 30-52 to_uint64 and the others, of an integer. *)
Definition to_uint (w num : Z) : Z := conv (uw w) num.

(** 3316-3337 the literals; [dbg]: assert is active. *)
Definition literal (dbg : bool) (w value : Z) : res Z :=
  let ok := if w =? 64 then true else if w =? 32 then value <=? highest (uw w) else value <? highest (uw w) in
  if dbg && negb ok then Throw else Ok (conv (uw w) value).

(** 3050-3313 numeric_limits. *)
Definition nl_digits (w : Z) : Z := w - 0.
Definition nl_digits10 (w : Z) : Z := Z.quot (nl_digits w * 3) 10.
Definition nl_min (w : Z) : Z := 0.
Definition nl_max (w : Z) : Z := conv (uw w) (highest (uw w)).
