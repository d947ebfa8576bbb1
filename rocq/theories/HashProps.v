(** Properties C59, C60, C93-C95: the hash functions. *)
From Verif Require Import Common Ints SpecBits SpecHash Hash HashProofs HashWordProofs HashMetroProofs.
Open Scope Z_scope.

(** The reference definitions give the published test vectors. *)
Example hash_vectors :
  fnv1a_64 [] = 0xcbf29ce484222325 /\ fnv1a_64 [97] = 0xaf63dc4c8601ec8c /\
  fnv1a_32 [97] = 0xe40c292c /\
  siphash_2_4 (map Z.of_nat (seq 0 16)) (map Z.of_nat (seq 0 15)) = 0xa129ca6149be45e5.
Proof. vm_compute. auto. Qed.

(** * C59: FNV-1a.  Integers (of any type, signed ones in two's complement), ranges
    of integers, pointer and length, zero-terminated pointer, and objects all
    hash to the reference value of their bytes. *)
Theorem C59_integer w T v : fnv_width w -> std_width (width T) ->
  fnv_integer w T v = fnv_ref w (le_bytes (Z.to_nat (width T / 8)) v).
Proof. exact (fnv_integer_ok w T v). Qed.
Print Assumptions C59_integer.
Theorem C59_range w T l : fnv_width w -> std_width (width T) ->
  fnv_range w T l = fnv_ref w (concat (map (le_bytes (Z.to_nat (width T / 8))) l)).
Proof. exact (fnv_range_ok w T l). Qed.
Print Assumptions C59_range.
Theorem C59_pointer_length w T mem len : fnv_width w -> std_width (width T) ->
  fnv_ptr w T mem len =
  if (len <=? length mem)%nat
  then Ok (fnv_ref w (concat (map (le_bytes (Z.to_nat (width T / 8))) (firstn len mem))))
  else UB.
Proof. exact (fnv_ptr_all w T mem len). Qed.
Print Assumptions C59_pointer_length.
Theorem C59_cstr w sgn s rest : fnv_width w -> Forall is_byte s -> ~ In 0 s ->
  fnv_cstr w sgn (s ++ 0 :: rest) = Ok (fnv_ref w s).
Proof. exact (fnv_cstr_ok w sgn s rest). Qed.
Print Assumptions C59_cstr.
Theorem C59_object w bytes : fnv_width w -> Forall is_byte bytes ->
  fnv_object w bytes = fnv_ref w bytes.
Proof. exact (fnv_object_ok w bytes). Qed.
Print Assumptions C59_object.
(** The function object's zero-terminated overload is right when char is unsigned
    or all bytes are below 128.  Missing from C59: strings with other bytes when
    char is signed, where it is wrong (next theorem). *)
Theorem C59_functor_partial w sgn s rest : fnv_width w -> Forall is_byte s ->
  Forall (plain sgn) s -> ~ In 0 s ->
  fnv_functor_cstr w sgn (s ++ 0 :: rest) = Ok (fnv_ref w s).
Proof. exact (fnv_functor_ok w sgn s rest). Qed.
Print Assumptions C59_functor_partial.
(** With signed char every string with exactly one byte from 128 up gets a wrong
    hash, different from the one the other overloads give. *)
Theorem C59_functor_refuted w a b c rest : fnv_width w ->
  Forall is_byte (a ++ b :: c) -> ~ In 0 (a ++ b :: c) ->
  Forall (fun x => x < 128) a -> Forall (fun x => x < 128) c -> 128 <= b ->
  exists r, fnv_functor_cstr w true ((a ++ b :: c) ++ 0 :: rest) = Ok r /\ r <> fnv_ref w (a ++ b :: c).
Proof. exact (fnv_functor_wrong w a b c rest). Qed.
Print Assumptions C59_functor_refuted.
Example C59_nontrivial :
  fnv_cstr 64 true [104; 105; 233; 0; 7] = Ok (fnv1a_64 [104; 105; 233]) /\
  fnv_cstr 32 true [104; 105; 233; 0; 7] = Ok (fnv1a_32 [104; 105; 233]) /\
  fnv_integer 64 i32 (-2) = fnv1a_64 [254; 255; 255; 255] /\
  fnv_range 64 u16 [258; 772] = fnv1a_64 [2; 1; 4; 3] /\
  fnv_functor_cstr 64 true [104; 105; 0] = Ok (fnv1a_64 [104; 105]) /\
  (let r := fnv_functor_cstr 64 true [233; 0] in r <> Ok (fnv1a_64 [233]) /\ r <> UB).
Proof. vm_compute. repeat split; try reflexivity; discriminate. Qed.

(** * C60: siphash24. *)
(** Where char is unsigned: all messages and keys. *)
Theorem C60_unsigned_char m post key kpost :
  Forall is_byte m -> Forall is_byte key -> length key = 16%nat ->
  siphash24 false (m ++ post) (length m) (key ++ kpost) = Ok (siphash_2_4 key m).
Proof. exact (siphash24_unsigned m post key kpost). Qed.
Print Assumptions C60_unsigned_char.
(** Where char is signed: messages and keys whose whole 8-byte words have only
    bytes below 128 in their first seven places.  Missing from C60: the others,
    for which it is wrong (next theorem). *)
Theorem C60_partial sgn m post key kpost :
  Forall is_byte m -> Forall is_byte key -> length key = 16%nat ->
  word_plain sgn m -> word_plain sgn key ->
  siphash24 sgn (m ++ post) (length m) (key ++ kpost) = Ok (siphash_2_4 key m).
Proof. exact (siphash24_ok sgn m post key kpost). Qed.
Print Assumptions C60_partial.
Theorem C60_refuted :
  exists m key r, Forall is_byte m /\ Forall is_byte key /\ length key = 16%nat /\
    siphash24 true m (length m) key = Ok r /\ r <> siphash_2_4 key m.
Proof. exact siphash24_wrong. Qed.
Print Assumptions C60_refuted.
(** Two different messages with the same hash, for every key: with signed char a
    byte from 128 up floods the bytes above it. *)
Theorem C60_collision_refuted key : Forall is_byte key -> length key = 16%nat ->
  exists m m', m <> m' /\ Forall is_byte m /\ Forall is_byte m' /\ length m = length m' /\
    siphash24 true m (length m) key = siphash24 true m' (length m') key.
Proof. exact (siphash24_collision key). Qed.
Print Assumptions C60_collision_refuted.
Example C60_nontrivial :
  siphash24 true (map Z.of_nat (seq 0 15)) 15 (map Z.of_nat (seq 0 16)) = Ok 0xa129ca6149be45e5.
Proof. vm_compute. reflexivity. Qed.

(** * C93: generic_hash is FNV-1a as well, for integers and ranges of integers. *)
Theorem C93_integer w T v : fnv_width w -> std_width (width T) ->
  gen_integer w T v = fnv_ref w (le_bytes (Z.to_nat (width T / 8)) v).
Proof. exact (gen_integer_ok w T v). Qed.
Print Assumptions C93_integer.
Theorem C93_range w T l : fnv_width w -> std_width (width T) ->
  gen_range w T l = fnv_ref w (concat (map (le_bytes (Z.to_nat (width T / 8))) l)).
Proof. exact (gen_range_ok w T l). Qed.
Print Assumptions C93_range.
(** Missing from C93: the 8-byte hash through a pointer to an object and the
    2-byte hash.  They ignore their input. *)
Theorem C93_agree_partial w T l : fnv_width w -> std_width (width T) ->
  gen_range w T l = fnv_range w T l.
Proof. exact (gen_fnv_agree w T l). Qed.
Print Assumptions C93_agree_partial.
Theorem C93_object_refuted bytes : gen_object bytes = 14695981039346656037.
Proof. exact (gen_object_actual bytes). Qed.
Print Assumptions C93_object_refuted.
Theorem C93_two_bytes_refuted vs : gen2_range vs = 0.
Proof. exact (gen2_actual vs). Qed.
Print Assumptions C93_two_bytes_refuted.
Example C93_nontrivial :
  gen_integer 64 i32 (-2) = fnv1a_64 [254; 255; 255; 255] /\
  gen_range 32 u16 [258; 772] = fnv1a_32 [2; 1; 4; 3] /\
  gen_object [1; 2] <> fnv1a_64 [1; 2].
Proof. vm_compute. repeat split; try reflexivity; discriminate. Qed.

(** * C94: FNV-1a never gives two inputs that differ in one byte the same hash. *)
Theorem C94_one_byte w a c b b' : fnv_width w -> Forall is_byte (a ++ b :: c) -> is_byte b' -> b <> b' ->
  fnv_ref w (a ++ b :: c) <> fnv_ref w (a ++ b' :: c).
Proof. exact (fnv_one_byte w a c b b'). Qed.
Print Assumptions C94_one_byte.
(** For the C string overload. *)
Theorem C94_cstr w sgn a c b b' rest rest' : fnv_width w -> Forall is_byte (a ++ b :: c) -> is_byte b' ->
  ~ In 0 (a ++ b :: c) -> b' <> 0 -> b <> b' ->
  fnv_cstr w sgn ((a ++ b :: c) ++ 0 :: rest) <> fnv_cstr w sgn ((a ++ b' :: c) ++ 0 :: rest').
Proof. exact (fnv_cstr_one_byte w sgn a c b b' rest rest'). Qed.
Print Assumptions C94_cstr.
(** Distinct values of one-byte integers. *)
Theorem C94_small_integer w T v v' : fnv_width w -> width T = 8 -> fits T v -> fits T v' ->
  fnv_integer w T v = fnv_integer w T v' -> v = v'.
Proof. exact (fnv_integer_inj w T v v'). Qed.
Print Assumptions C94_small_integer.
Example C94_nontrivial : fnv_cstr 64 true [97; 98; 99; 0] <> fnv_cstr 64 true [97; 122; 99; 0] /\
  fnv_integer 64 i8 (-1) <> fnv_integer 64 i8 1.
Proof. vm_compute. split; discriminate. Qed.

(** * C95: hash64 is MetroHash64. *)
Theorem C95_unsigned_char m seed : Forall is_byte m ->
  hash64 false m seed = Ok (metro64 m seed).
Proof. exact (hash64_unsigned m seed). Qed.
Print Assumptions C95_unsigned_char.
(** Missing from C95: odd lengths with a last byte from 128 up when char is
    signed.  There it is wrong. *)
Theorem C95_partial sgn m seed : Forall is_byte m -> last_plain sgn m ->
  hash64 sgn m seed = Ok (metro64 m seed).
Proof. exact (hash64_ok sgn m seed). Qed.
Print Assumptions C95_partial.
Theorem C95_refuted : exists m seed r, Forall is_byte m /\
  hash64 true m seed = Ok r /\ r <> metro64 m seed.
Proof. exact hash64_wrong. Qed.
Print Assumptions C95_refuted.
Example C95_nontrivial :
  hash64 true (map (fun i => 48 + Z.of_nat (Nat.modulo i 10)) (seq 0 63)) 0 = Ok 0xad4b7006ae3d756b /\
  hash64 true (map (fun i => 48 + Z.of_nat (Nat.modulo i 10)) (seq 0 63)) 1 = Ok 0xdfb8b9f41c480d3b.
Proof. vm_compute. auto. Qed.
