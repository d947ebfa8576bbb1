(** Model of the hash functions: include/daw/daw_fnv1a_hash.h,
    daw_generic_hash.h, daw_sip_hash.h and daw_metro_hash.h.  No proofs in this
    file.

    Memory is a list of bytes in [0, 256); reading past it is undefined.  The
    machine is little-endian, so to_little_endian (daw_endian.h) is the
    identity and the bytes of an object come lowest first.  [sgn] is whether
    plain char is signed. *)
From Verif Require Import Common Ints.
Open Scope Z_scope.

(** The type char. *)
Definition char_t (sgn : bool) : ity := if sgn then i8 else u8.

(** The value of the char stored as byte [b]. *)
Definition char_of (sgn : bool) (b : Z) : Z := conv (char_t sgn) b.

(** ** daw_fnv1a_hash.h.  fnv1a_uint_t has [w] bits: 64, or 32. *)

(** daw_fnv1a_hash.h:42-49 fnv_prime, fnv_offset. *)
Definition fnv_prime (w : Z) : Z := if w =? 64 then 1099511628211 else 16777619.
Definition fnv_offset (w : Z) : Z := if w =? 64 then 14695981039346656037 else 2166136261.

(** DAW_BIT_CAST to an array of sizeof( T ) unsigned chars (line 74). *)
Definition object_bytes (T : ity) (v : Z) : list Z :=
  map (fun n => wrap 8 (Z.shiftr (wrap (width T) v) (8 * Z.of_nat n)))
      (seq 0 (Z.to_nat (width T / 8))).

(** daw_fnv1a_hash.h:67-80 append_hash( current_hash, value ). *)
Definition fnv_mix (w : Z) (h : Z) (c : Z) : Z :=
  let h := Z.lxor h c in
  wrap w (h * fnv_prime w).
Definition fnv_append (w : Z) (T : ity) (h v : Z) : Z :=
  fold_left (fnv_mix w) (object_bytes T v) h.

(** daw_fnv1a_hash.h:82-91 operator( )( first, last ); the same loop for a string
    view (93-107) and an array (109-117).  [vs] are the values of the range. *)
Definition fnv_range (w : Z) (T : ity) (vs : list Z) : Z :=
  fold_left (fnv_append w T) vs (fnv_offset w).

(** daw_fnv1a_hash.h:119-124 and 153-157, an integer. *)
Definition fnv_integer (w : Z) (T : ity) (v : Z) : Z := fnv_append w T (fnv_offset w) v.

(** daw_fnv1a_hash.h:126-137 fnv1a_hash_t::operator( )( char const * ). *)
Fixpoint fnv_functor_loop (w : Z) (sgn : bool) (mem : list Z) (h : Z) : res Z :=
  match mem with
  | [] => UB
  | b :: mem =>
      let c := char_of sgn b in
      if c =? 0 then Ok h
      else fnv_functor_loop w sgn mem (fnv_mix w h (wrap w c))
  end.
Definition fnv_functor_cstr (w : Z) (sgn : bool) (mem : list Z) : res Z :=
  fnv_functor_loop w sgn mem (fnv_offset w).

(** daw_fnv1a_hash.h:139-150 fnv1a_hash_t::operator( )( T const * ): [bytes] are
    the bytes of the object. *)
Definition fnv_object (w : Z) (bytes : list Z) : Z :=
  fold_left (fun h c => fnv_mix w h (wrap w c)) bytes (fnv_offset w).

(** daw_fnv1a_hash.h:159-168 fnv1a_hash( char const * ). *)
Fixpoint fnv_cstr_loop (w : Z) (sgn : bool) (mem : list Z) (h : Z) : res Z :=
  match mem with
  | [] => UB
  | b :: mem =>
      let c := char_of sgn b in
      if c =? 0 then Ok h
      else fnv_cstr_loop w sgn mem (fnv_append w (char_t sgn) h c)
  end.
Definition fnv_cstr (w : Z) (sgn : bool) (mem : list Z) : res Z :=
  fnv_cstr_loop w sgn mem (fnv_offset w).

(** daw_fnv1a_hash.h:170-182 fnv1a_hash( ptr, len ), and with it the overload for
    a string view (184-190); the elements are of type [T], [mem] their values. *)
Fixpoint fnv_ptr_loop (w : Z) (T : ity) (mem : list Z) (len : nat) (h : Z) : res Z :=
  match len with
  | O => Ok h
  | S len =>
      match mem with
      | [] => UB
      | c :: mem => fnv_ptr_loop w T mem len (fnv_append w T h c)
      end
  end.
Definition fnv_ptr (w : Z) (T : ity) (mem : list Z) (len : nat) : res Z :=
  fnv_ptr_loop w T mem len (fnv_offset w).

(** ** daw_generic_hash.h *)

(** daw_generic_hash.h:93-108 and 140-155 generic_hash_t<4> and <8>:
    append_hash, hash values of [w] = 32 or 64 bits. *)
Definition gen_prime (w : Z) : Z := if w =? 64 then 1099511628211 else 16777619.
Definition gen_init (w : Z) : Z := if w =? 64 then 14695981039346656037 else 2166136261.
Definition gen_byte (w v : Z) (n : nat) : Z :=
  let s := 8 * Z.of_nat n in
  wrap w (Z.shiftr (Z.land (sz v) (sz (Z.shiftl 0xFF s))) s).
Definition gen_append (w : Z) (T : ity) (h v : Z) : Z :=
  fold_left (fun h n => wrap w (Z.lxor h (gen_byte w v n) * gen_prime w))
            (seq 0 (Z.to_nat (width T / 8))) h.

(** daw_generic_hash.h:110-119, 157-166 and 200-234: the hash of a range. *)
Definition gen_range (w : Z) (T : ity) (vs : list Z) : Z :=
  fold_left (gen_append w T) vs (gen_init w).
(** daw_generic_hash.h:130-134, 177-181, 194-198: the hash of an integer. *)
Definition gen_integer (w : Z) (T : ity) (v : Z) : Z := gen_append w T (gen_init w) v.

(** daw_generic_hash.h:183-191 generic_hash_t<8>::operator( )( T const * ): the
    results of append_hash are dropped.  It compiles for T = uint8_t only;
    [bytes] is the object. *)
Definition gen_object (bytes : list Z) : Z :=
  fold_left (fun h b => let _ := gen_append 64 u8 h b in h) bytes (gen_init 64).

(** daw_generic_hash.h:77-86 generic_hash_t<2>::append_hash, and generic_hash<2> of
    a range (200-210). *)
Definition gen2_append (h v : Z) : Z := h.
Definition gen2_range (vs : list Z) : Z := fold_left gen2_append vs 0.

(** ** daw_sip_hash.h *)

(** daw_sip_hash.h:28-32 rotate( value, bits ). *)
Definition sip_rotate (value bits : Z) : Z :=
  Z.lor (sz (Z.shiftl value bits)) (sz (Z.shiftr value (64 - bits))).

(** daw_sip_hash.h:34-42 half_round( a, b, c, d, s, t ): the new values of the
    four variables. *)
Definition half_round (a b c d s t : Z) : Z * Z * Z * Z :=
  let a := sz (a + b) in
  let c := sz (c + d) in
  let b := Z.lxor (sip_rotate b s) a in
  let d := Z.lxor (sip_rotate d t) c in
  let a := sip_rotate a 32 in
  (a, b, c, d).

(** daw_sip_hash.h:44-50 double_round. *)
Definition double_round (v : Z * Z * Z * Z) : Z * Z * Z * Z :=
  let '(v0, v1, v2, v3) := v in
  let '(v0, v1, v2, v3) := half_round v0 v1 v2 v3 13 16 in
  let '(v2, v1, v0, v3) := half_round v2 v1 v0 v3 17 21 in
  let '(v0, v1, v2, v3) := half_round v0 v1 v2 v3 13 16 in
  let '(v2, v1, v0, v3) := half_round v2 v1 v0 v3 17 21 in
  (v0, v1, v2, v3).

(** static_cast<uint64_t>( ptr[i] ) for a pointer to [T] (a char type) at
    position [pos] of [mem]. *)
Definition ld64 (T : ity) (mem : list Z) (pos i : nat) : res Z :=
  b <- rd mem (pos + i) ;; Ok (conv u64 (conv T b)).

(** daw_sip_hash.h:52-63 to_u64( ptr ). *)
Definition sip_to_u64 (T : ity) (mem : list Z) (pos : nat) : res Z :=
  b0 <- ld64 T mem pos 0 ;;
  b1 <- ld64 T mem pos 1 ;;
  b2 <- ld64 T mem pos 2 ;;
  b3 <- ld64 T mem pos 3 ;;
  b4 <- ld64 T mem pos 4 ;;
  b5 <- ld64 T mem pos 5 ;;
  b6 <- ld64 T mem pos 6 ;;
  b7 <- ld64 T mem pos 7 ;;
  Ok (Z.lor (Z.lor (Z.lor (Z.lor (Z.lor (Z.lor (Z.lor
       b0
       (sz (Z.shiftl b1 8)))
       (sz (Z.shiftl b2 16)))
       (sz (Z.shiftl b3 24)))
       (sz (Z.shiftl b4 32)))
       (sz (Z.shiftl b5 40)))
       (sz (Z.shiftl b6 48)))
       (sz (Z.shiftl b7 56))).

(** daw_sip_hash.h:95-102: the loop over whole words; [pos] and [size] are
    data_in.  [fuel] bounds the number of iterations. *)
Fixpoint sip_loop (T : ity) (mem : list Z) (fuel : nat) (v : Z * Z * Z * Z) (pos size : nat)
    : res (Z * Z * Z * Z * nat * nat) :=
  if (8 <=? size)%nat then
    match fuel with
    | O => OutOfFuel
    | S fuel =>
        mi <- sip_to_u64 T mem pos ;;
        let '(v0, v1, v2, v3) := v in
        let v3 := Z.lxor v3 mi in
        let '(v0, v1, v2, v3) := double_round (v0, v1, v2, v3) in
        let v0 := Z.lxor v0 mi in
        sip_loop T mem fuel (v0, v1, v2, v3) (pos + 8) (size - 8)
    end
  else Ok (v, pos, size).

(** daw_sip_hash.h:104-129: the switch that copies the last bytes to pt.
    [pt[i] = static_cast<uint8_t>( data_in[i] )]. *)
Definition sip_put (mem : list Z) (pos : nat) (pt : list Z) (i : nat) : res (list Z) :=
  b <- rd mem (pos + i) ;; wr pt i (wrap 8 b).
Definition sip_set_pt (mem : list Z) (pos : nat) (pt : list Z) : res (list Z) :=
  pt <- sip_put mem pos pt 0 ;;
  pt <- sip_put mem pos pt 1 ;;
  pt <- sip_put mem pos pt 2 ;;
  sip_put mem pos pt 3.
Definition sip_tail (mem : list Z) (pos size : nat) : res (list Z) :=
  let pt := repeat 0 8 in
  match size with
  | 7%nat =>
      pt <- sip_put mem pos pt 6 ;; pt <- sip_put mem pos pt 5 ;;
      pt <- sip_put mem pos pt 4 ;; sip_set_pt mem pos pt
  | 6%nat =>
      pt <- sip_put mem pos pt 5 ;; pt <- sip_put mem pos pt 4 ;; sip_set_pt mem pos pt
  | 5%nat => pt <- sip_put mem pos pt 4 ;; sip_set_pt mem pos pt
  | 4%nat => sip_set_pt mem pos pt
  | 3%nat =>
      pt <- sip_put mem pos pt 2 ;; pt <- sip_put mem pos pt 1 ;; sip_put mem pos pt 0
  | 2%nat => pt <- sip_put mem pos pt 1 ;; sip_put mem pos pt 0
  | 1%nat => sip_put mem pos pt 0
  | _ => Ok pt
  end.

(** daw_sip_hash.h:84-140 siphash24( first, sz, key ).  It compiles for
    Byte = char only (data_in is a span of char). *)
Definition siphash24 (sgn : bool) (mem : list Z) (size : nat) (key : list Z) : res Z :=
  let T := char_t sgn in
  k0 <- sip_to_u64 T key 0 ;;
  k1 <- sip_to_u64 T key 8 ;;
  let v := (Z.lxor k0 0x736f6d6570736575, Z.lxor k1 0x646f72616e646f6d,
            Z.lxor k0 0x6c7967656e657261, Z.lxor k1 0x7465646279746573) in
  ' (v, pos, rest) <- sip_loop T mem (S size) v 0 size ;;
  pt <- sip_tail mem pos rest ;;
  t <- sip_to_u64 u8 pt 0 ;;
  let b := Z.lor (sz (Z.shiftl (Z.of_nat size) 56)) t in
  let '(v0, v1, v2, v3) := v in
  let v3 := Z.lxor v3 b in
  let '(v0, v1, v2, v3) := double_round (v0, v1, v2, v3) in
  let v0 := Z.lxor v0 b in
  let v2 := Z.lxor v2 0xFF in
  let v := double_round (v0, v1, v2, v3) in
  let '(v0, v1, v2, v3) := double_round v in
  Ok (Z.lxor (Z.lxor v0 v1) (Z.lxor v2 v3)).

(** ** daw_metro_hash.h *)

(** daw_metro_hash.h:21-35 as_le_uint<Unsigned>( ptr ), [w] bits wide. *)
Fixpoint as_le_loop (w : Z) (mem : list Z) (pos n k : nat) (result : Z) : res Z :=
  match k with
  | O => Ok result
  | S k =>
      b <- rd mem (pos + n) ;;
      let tmp := wrap 8 b in
      as_le_loop w mem pos (S n) k (wrap w (Z.lor result (Z.shiftl tmp (8 * Z.of_nat n))))
  end.
Definition as_le_uint (w : Z) (mem : list Z) (pos : nat) : res Z :=
  as_le_loop w mem pos 0 (Z.to_nat (w / 8)) 0.

(** daw_metro_hash.h:37-47 rotr<BitCount>( value ) of a uint64_t. *)
Definition metro_rotr (bits value : Z) : Z :=
  Z.lor (Z.shiftr value bits) (sz (Z.shiftl value (64 - bits))).

Definition k0 : Z := 0xd6d018f5.
Definition k1 : Z := 0xa2aa033b.
Definition k2 : Z := 0x62992fc1.
Definition k3 : Z := 0x30bc5b29.

(** daw_metro_hash.h:64-74: the loop over 32-byte blocks.  The view is [pos],
    [size]. *)
Fixpoint hash64_blocks (mem : list Z) (fuel : nat) (v : Z * Z * Z * Z) (pos size : nat)
    : res (Z * Z * Z * Z * nat * nat) :=
  match fuel with
  | O => OutOfFuel
  | S fuel =>
      let '(v0, v1, v2, v3) := v in
      a <- as_le_uint 64 mem pos ;;
      let v0 := sz (v0 + sz (a * k0)) in
      let v0 := sz (metro_rotr 29 v0 + v2) in
      a <- as_le_uint 64 mem (pos + 8) ;;
      let v1 := sz (v1 + sz (a * k1)) in
      let v1 := sz (metro_rotr 29 v1 + v3) in
      a <- as_le_uint 64 mem (pos + 16) ;;
      let v2 := sz (v2 + sz (a * k2)) in
      let v2 := sz (metro_rotr 29 v2 + v0) in
      a <- as_le_uint 64 mem (pos + 24) ;;
      let v3 := sz (v3 + sz (a * k3)) in
      let v3 := sz (metro_rotr 29 v3 + v1) in
      let pos := (pos + 32)%nat in
      let size := (size - 32)%nat in
      if (32 <=? size)%nat then hash64_blocks mem fuel (v0, v1, v2, v3) pos size
      else Ok (v0, v1, v2, v3, pos, size)
  end.

(** daw_metro_hash.h:61-81. *)
Definition hash64_bulk (mem : list Z) (hash : Z) (pos size : nat) : res (Z * nat * nat) :=
  if (32 <=? size)%nat then
    ' (v0, v1, v2, v3, pos, size) <- hash64_blocks mem (S size) (hash, hash, hash, hash) pos size ;;
    let v2 := Z.lxor v2 (sz (metro_rotr 37 (sz (sz (sz (v0 + v3) * k0) + v1)) * k1)) in
    let v3 := Z.lxor v3 (sz (metro_rotr 37 (sz (sz (sz (v1 + v2) * k1) + v0)) * k0)) in
    let v0 := Z.lxor v0 (sz (metro_rotr 37 (sz (sz (sz (v0 + v2) * k0) + v3)) * k1)) in
    let v1 := Z.lxor v1 (sz (metro_rotr 37 (sz (sz (sz (v1 + v3) * k1) + v2)) * k0)) in
    Ok (sz (hash + Z.lxor v0 v1), pos, size)
  else Ok (hash, pos, size).

(** daw_metro_hash.h:83-94. *)
Definition hash64_16 (mem : list Z) (hash : Z) (pos size : nat) : res (Z * nat * nat) :=
  if (16 <=? size)%nat then
    a <- as_le_uint 64 mem pos ;;
    let v0 := sz (hash + sz (a * k2)) in
    let v0 := sz (metro_rotr 29 v0 * k3) in
    a <- as_le_uint 64 mem (pos + 8) ;;
    let v1 := sz (hash + sz (a * k2)) in
    let v1 := sz (metro_rotr 29 v1 * k3) in
    let v0 := Z.lxor v0 (sz (metro_rotr 21 (sz (v0 * k0)) + v1)) in
    let v1 := Z.lxor v1 (sz (metro_rotr 21 (sz (v1 * k3)) + v0)) in
    Ok (sz (hash + v1), (pos + 16)%nat, (size - 16)%nat)
  else Ok (hash, pos, size).

(** daw_metro_hash.h:96-116: 8, 4 and 2 bytes, which differ in the width read and
    the rotation. *)
Definition hash64_small (n : nat) (rot : Z) (mem : list Z) (hash : Z) (pos size : nat)
    : res (Z * nat * nat) :=
  if (n <=? size)%nat then
    a <- as_le_uint (8 * Z.of_nat n) mem pos ;;
    let hash := sz (hash + sz (a * k3)) in
    let hash := Z.lxor hash (sz (metro_rotr rot hash * k1)) in
    Ok (hash, (pos + n)%nat, (size - n)%nat)
  else Ok (hash, pos, size).

(** daw_metro_hash.h:118-122: the last byte, buff.front( ) converted from char. *)
Definition hash64_last (sgn : bool) (mem : list Z) (hash : Z) (pos size : nat) : res Z :=
  if negb (size =? 0)%nat then
    b <- rd mem pos ;;
    let hash := sz (hash + sz (conv u64 (char_of sgn b) * k3)) in
    Ok (Z.lxor hash (sz (metro_rotr 37 hash * k1)))
  else Ok hash.

(** daw_metro_hash.h:54-129 hash64( buff, seed ); the view is the whole of
    [mem]. *)
Definition hash64 (sgn : bool) (mem : list Z) (seed : Z) : res Z :=
  let hash := sz (sz (seed + k2) * k0) in
  ' (hash, pos, size) <- hash64_bulk mem hash 0 (length mem) ;;
  ' (hash, pos, size) <- hash64_16 mem hash pos size ;;
  ' (hash, pos, size) <- hash64_small 8 55 mem hash pos size ;;
  ' (hash, pos, size) <- hash64_small 4 26 mem hash pos size ;;
  ' (hash, pos, size) <- hash64_small 2 48 mem hash pos size ;;
  hash <- hash64_last sgn mem hash pos size ;;
  let hash := Z.lxor hash (metro_rotr 28 hash) in
  let hash := sz (hash * k0) in
  Ok (Z.lxor hash (metro_rotr 29 hash)).
