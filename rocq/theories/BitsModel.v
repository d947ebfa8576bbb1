(** Model of the integer and bit utilities: daw_int_cmp.h, daw_integer_reverse.h,
    daw_endian.h, daw_bit.h, daw_bitset.h.  No proofs in this file. *)
From Verif Require Import Common Ints.
Open Scope Z_scope.

(** * daw_int_cmp.h.  A call with argument types [T], [U] and values [t], [u]. *)

(** The built-in [t == u], [t < u] on operands of types [T], [U]. *)
Definition op_eq (T U : ity) (t u : Z) : bool :=
  let C := usual T U in conv C t =? conv C u.
Definition op_lt (T U : ity) (t u : Z) : bool :=
  let C := usual T U in conv C t <? conv C u.

(** cmp_equal, lines 22-35. *)
Definition cmp_equal (T U : ity) (t u : Z) : bool :=
  let UT := unsigned_of T in
  let UU := unsigned_of U in
  if Bool.eqb (signed T) (signed U) then op_eq T U t u
  else if signed T then (if t <? 0 then false else op_eq UT U (conv UT t) u)
  else (if u <? 0 then false else op_eq T UU t (conv UU u)).

(** cmp_not_equal, lines 37-50. *)
Definition cmp_not_equal (T U : ity) (t u : Z) : bool :=
  let UT := unsigned_of T in
  let UU := unsigned_of U in
  if Bool.eqb (signed T) (signed U) then negb (op_eq T U t u)
  else if signed T then (if t <? 0 then true else negb (op_eq UT U (conv UT t) u))
  else (if u <? 0 then true else negb (op_eq T UU t (conv UU u))).

(** cmp_less, lines 52-65. *)
Definition cmp_less (T U : ity) (t u : Z) : bool :=
  let UT := unsigned_of T in
  let UU := unsigned_of U in
  if Bool.eqb (signed T) (signed U) then op_lt T U t u
  else if signed T then (if t <? 0 then true else op_lt UT U (conv UT t) u)
  else (if u <? 0 then false else op_lt T UU t (conv UU u)).

(** cmp_greater 67-72, cmp_less_equal 74-79, cmp_greater_equal 81-86. *)
Definition cmp_greater (T U : ity) (t u : Z) : bool := cmp_less U T u t.
Definition cmp_less_equal (T U : ity) (t u : Z) : bool := negb (cmp_less U T u t).
Definition cmp_greater_equal (T U : ity) (t u : Z) : bool := negb (cmp_less T U t u).

(** in_range<R>( T t ), lines 88-98.  [std::is_same] is equality of signedness
    and width. *)
Definition same_type (T U : ity) : bool :=
  Bool.eqb (signed T) (signed U) && (width T =? width U).
Definition in_range (R T : ity) (t : Z) : bool :=
  if same_type R T then true
  else cmp_greater_equal T R t (lowest R) && cmp_less_equal T R t (highest R).

(** signbit, lines 100-108. *)
Definition signbit (T : ity) (t : Z) : bool :=
  if negb (signed T) then false else t <? 0.

(** * daw_integer_reverse.h, the portable branches.  The compiler builtins of the
    other branch are not modelled. *)

(** uint8_t, lines 20-31. *)
Definition reverse_bits8 (value : Z) : Z :=
  let x := value in
  wrap 8
    (Z.lor (Z.lor (Z.lor (Z.lor (Z.lor (Z.lor (Z.lor
      (Z.shiftl (Z.land x 0x1) 7) (Z.shiftl (Z.land x 0x2) 5))
      (Z.shiftl (Z.land x 0x4) 3)) (Z.shiftl (Z.land x 0x8) 1))
      (Z.shiftr (Z.land x 0x10) 1)) (Z.shiftr (Z.land x 0x20) 3))
      (Z.shiftr (Z.land x 0x40) 5)) (Z.shiftr (Z.land x 0x80) 7)).

(** uint16_t, lines 33-46. *)
Definition reverse_bits16 (value : Z) : Z :=
  let a := value in
  let a := wrap 32 (Z.lor (Z.shiftr (Z.land a 0xFF00) 8) (Z.shiftl (Z.land a 0x00FF) 8)) in
  let a := wrap 32 (Z.lor (Z.shiftr (Z.land a 0xF0F0) 4) (Z.shiftl (Z.land a 0x0F0F) 4)) in
  let a := wrap 32 (Z.lor (Z.shiftr (Z.land a 0xCCCC) 2) (Z.shiftl (Z.land a 0x3333) 2)) in
  let a := wrap 32 (Z.lor (Z.shiftr (Z.land a 0xAAAA) 1) (Z.shiftl (Z.land a 0x5555) 1)) in
  wrap 16 a.

(** uint32_t, lines 48-61. *)
Definition reverse_bits32 (value : Z) : Z :=
  let v := value in
  let v := Z.lor (wrap 32 (Z.shiftl (Z.land v 0x55555555) 1)) (Z.land (Z.shiftr v 1) 0x55555555) in
  let v := Z.lor (wrap 32 (Z.shiftl (Z.land v 0x33333333) 2)) (Z.land (Z.shiftr v 2) 0x33333333) in
  let v := Z.lor (wrap 32 (Z.shiftl (Z.land v 0x0F0F0F0F) 4)) (Z.land (Z.shiftr v 4) 0x0F0F0F0F) in
  Z.lor (Z.lor (Z.lor
    (wrap 32 (Z.shiftl v 24)) (wrap 32 (Z.shiftl (Z.land v 0xFF00) 8)))
    (Z.land (Z.shiftr v 8) 0xFF00)) (Z.shiftr v 24).

(** uint64_t, lines 63-82. *)
Definition reverse_bits64 (value : Z) : Z :=
  let v := value in
  let v := Z.lor (Z.land (Z.shiftr v 1) 0x5555555555555555)
                 (wrap 64 (Z.shiftl (Z.land v 0x5555555555555555) 1)) in
  let v := Z.lor (Z.land (Z.shiftr v 2) 0x3333333333333333)
                 (wrap 64 (Z.shiftl (Z.land v 0x3333333333333333) 2)) in
  let v := Z.lor (Z.land (Z.shiftr v 4) 0x0f0f0f0f0f0f0f0f)
                 (wrap 64 (Z.shiftl (Z.land v 0x0f0f0f0f0f0f0f0f) 4)) in
  let v := Z.lor (Z.land (Z.shiftr v 8) 0x00ff00ff00ff00ff)
                 (wrap 64 (Z.shiftl (Z.land v 0x00ff00ff00ff00ff) 8)) in
  let v := Z.lor (Z.land (Z.shiftr v 16) 0x0000ffff0000ffff)
                 (wrap 64 (Z.shiftl (Z.land v 0x0000ffff0000ffff) 16)) in
  Z.lor (Z.shiftr v 32) (wrap 64 (Z.shiftl v 32)).

(** * daw_endian.h. *)

(** swap_bytes for a [T] of 1, 2, 4 and 8 bytes, lines 34-38, 40-50, 52-71,
    73-109. *)
Definition swap_bytes8 (T : ity) (value : Z) : Z := value.
Definition swap_bytes16 (T : ity) (value : Z) : Z :=
  let v := wrap 16 value in
  conv T (Z.lor (wrap 16 (Z.land (Z.shiftr v 8) 0x00FF))
                (wrap 16 (Z.land (Z.shiftl v 8) 0xFF00))).
Definition swap_bytes32 (T : ity) (value : Z) : Z :=
  let v := wrap 32 value in
  conv T (Z.lor (Z.lor (Z.lor
    (Z.land (Z.shiftr v 24) 0x000000FF)
    (Z.land (Z.shiftr v 8) 0x0000FF00))
    (Z.land (wrap 32 (Z.shiftl v 8)) 0x00FF0000))
    (Z.land (wrap 32 (Z.shiftl v 24)) 0xFF000000)).
Definition swap_bytes64 (T : ity) (value : Z) : Z :=
  let v := wrap 64 value in
  conv T (Z.lor (Z.lor (Z.lor (Z.lor (Z.lor (Z.lor (Z.lor
    (Z.land (Z.shiftr v 56) 0x00000000000000FF)
    (Z.land (Z.shiftr v 40) 0x000000000000FF00))
    (Z.land (Z.shiftr v 24) 0x0000000000FF0000))
    (Z.land (Z.shiftr v 8) 0x00000000FF000000))
    (Z.land (wrap 64 (Z.shiftl v 8)) 0x000000FF00000000))
    (Z.land (wrap 64 (Z.shiftl v 24)) 0x0000FF0000000000))
    (Z.land (wrap 64 (Z.shiftl v 40)) 0x00FF000000000000))
    (Z.land (wrap 64 (Z.shiftl v 56)) 0xFF00000000000000)).

(** Overload selection by daw::constant<sizeof( T )>; other sizes do not
    compile, the value is returned unchanged there. *)
Definition swap_bytes (T : ity) (value : Z) : Z :=
  if width T =? 8 then swap_bytes8 T value
  else if width T =? 16 then swap_bytes16 T value
  else if width T =? 32 then swap_bytes32 T value
  else if width T =? 64 then swap_bytes64 T value
  else value.

Inductive endian := little | big.
Definition endian_eqb (a b : endian) : bool :=
  match a, b with little, little | big, big => true | _, _ => false end.

(** to_little_endian 112-120, to_big_endian 122-130, network_to_host_endian
    132-140, to_native_endian 142-152; [native] is endian::native. *)
Definition to_little_endian (native : endian) (T : ity) (value : Z) : Z :=
  if endian_eqb native little then value else swap_bytes T value.
Definition to_big_endian (native : endian) (T : ity) (value : Z) : Z :=
  if endian_eqb native big then value else swap_bytes T value.
Definition network_to_host_endian (native : endian) (T : ity) (value : Z) : Z :=
  if endian_eqb native big then value else to_little_endian native T value.
Definition to_native_endian (native source : endian) (T : ity) (value : Z) : Z :=
  if endian_eqb source native then value
  else if endian_eqb native little then to_little_endian native T value
  else to_big_endian native T value.

(** * daw_bit.h, for an unsigned type of [w] bits; bit counts and positions are
    size_t values. *)

(** mask_msb, lines 28-34; mask_lsb, lines 42-48. *)
Definition mask_msb (w bit_count : Z) : Z :=
  if w <=? bit_count then 0 else wrap w (Z.shiftr (2 ^ w - 1) bit_count).
Definition mask_lsb (w bit_count : Z) : Z :=
  if w <=? bit_count then 0 else wrap w (Z.shiftl (2 ^ w - 1) bit_count).

(** get_left_mask, lines 22-26, get_right_mask, lines 36-40: no range check, a
    shift by the width of the promoted type is undefined. *)
Definition get_left_mask (w n : Z) : res Z :=
  if n <? Z.max w 32 then Ok (wrap w (Z.shiftr (2 ^ w - 1) n)) else UB.
Definition get_right_mask (w n : Z) : res Z :=
  if n <? Z.max w 32 then Ok (wrap w (Z.shiftl (2 ^ w - 1) n)) else UB.

(** make_mask, lines 50-58. *)
Definition make_mask (bit : Z) (bits : list Z) : Z :=
  fold_left Z.lor bits bit.

(** are_set, lines 60-74; all arguments of one unsigned type. *)
Definition are_set (value mask_bit : Z) (mask_bits : list Z) : bool :=
  negb (Z.land value (make_mask mask_bit mask_bits) =? 0).

(** [static_cast<Integer>( one << static_cast<Integer>( b ) )]. *)
Definition one_shl (w b : Z) : res Z :=
  if (0 <=? b) && (b <? Z.max w 32) then Ok (wrap w (Z.shiftl 1 b)) else UB.

(** The fold [( ( one << bs ) | ... | result )] of line 81. *)
Fixpoint bits_mask (w b : Z) (bs : list Z) : res Z :=
  match bs with
  | [] => one_shl w b
  | x :: t => m <- one_shl w x ;; r <- bits_mask w b t ;; Ok (Z.lor m r)
  end.

(** set_bits 76-83, unset_bits 85-92, get_bits 94-101. *)
Definition set_bits (w i b : Z) (bs : list Z) : res Z :=
  m <- bits_mask w b bs ;; Ok (wrap w (Z.lor i m)).
Definition unset_bits (w i b : Z) (bs : list Z) : res Z :=
  m <- bits_mask w b bs ;; Ok (wrap w (Z.land i (Z.lnot m))).
Definition get_bits (w i b : Z) (bs : list Z) : res Z :=
  m <- bits_mask w b bs ;; Ok (wrap w (Z.land i m)).

(** * daw_bitset.h: daw::bitset<BitCount> as its array of 32-bit limbs. *)

(** num_limbs and the value-initialised array, lines 25-26. *)
Definition bs_new (BitCount : Z) : list Z := repeat 0 (Z.to_nat ((BitCount - 1) / 32 + 1)).
(** get_limb 28-32, get_mask 34-36. *)
Definition bs_limb (index : Z) : nat := Z.to_nat (index / 32).
Definition bs_mask (index : Z) : Z := wrap 32 (Z.shiftl 1 (index mod 32)).

(** set( index ), lines 53-58. *)
Definition bs_set (m : list Z) (index : Z) : res (list Z) :=
  x <- rd m (bs_limb index) ;;
  wr m (bs_limb index) (Z.lor x (bs_mask index)).

(** unset( index ), lines 45-51. *)
Definition bs_unset (m : list Z) (index : Z) : res (list Z) :=
  x <- rd m (bs_limb index) ;;
  m <- wr m (bs_limb index) (Z.land x (wrap 32 (Z.lnot (wrap 32 (Z.shiftl 1 (index mod 4)))))) ;;
  x <- rd m (bs_limb index) ;;
  wr m (bs_limb index) (Z.land x (wrap 32 (Z.lnot (bs_mask index)))).

(** set( index, value ), lines 60-67. *)
Definition bs_assign (m : list Z) (index : Z) (value : bool) : res (list Z) :=
  if value then bs_set m index else bs_unset m index.

(** test( index ), lines 69-74. *)
Definition bs_test (m : list Z) (index : Z) : res bool :=
  x <- rd m (bs_limb index) ;;
  Ok (negb (Z.land x (bs_mask index) =? 0)).
