(** Reference definitions of the hash functions the library provides, written
    from their published descriptions and independent of the model.  Bytes are
    integers in [0, 256), words integers in [0, 2^64). *)
From Verif Require Import Common.
Open Scope Z_scope.

Definition is_byte (b : Z) : Prop := 0 <= b < 256.

(** The number a little-endian byte sequence stands for, and the [n]
    little-endian bytes of a number (two's complement when negative). *)
Fixpoint le_number (l : list Z) : Z :=
  match l with
  | [] => 0
  | b :: l => b + 256 * le_number l
  end.
Fixpoint le_bytes (n : nat) (v : Z) : list Z :=
  match n with
  | O => []
  | S n => v mod 256 :: le_bytes n (v / 256)
  end.

(** FNV-1a (Fowler, Noll, Vo) with [w] bits: for each byte, exclusive or it into
    the hash, then multiply by the prime modulo 2^w. *)
Definition fnv1a_step (w prime h b : Z) : Z := (Z.lxor h b * prime) mod 2 ^ w.
Definition fnv1a (w prime offset : Z) (bytes : list Z) : Z :=
  fold_left (fnv1a_step w prime) bytes offset.
(** The published parameters. *)
Definition fnv1a_64 : list Z -> Z := fnv1a 64 (2 ^ 40 + 2 ^ 8 + 0xb3) 14695981039346656037.
Definition fnv1a_32 : list Z -> Z := fnv1a 32 (2 ^ 24 + 2 ^ 8 + 0x93) 2166136261.

(** The hash with [w] bits, 32 or 64. *)
Definition fnv_width (w : Z) : Prop := w = 32 \/ w = 64.
Definition fnv_ref (w : Z) : list Z -> Z := if w =? 64 then fnv1a_64 else fnv1a_32.

(** 64-bit words. *)
Definition add64 (a b : Z) : Z := (a + b) mod 2 ^ 64.
Definition mul64 (a b : Z) : Z := (a * b) mod 2 ^ 64.
Definition rotl64 (x r : Z) : Z := (x * 2 ^ r) mod 2 ^ 64 + x / 2 ^ (64 - r).
Definition rotr64 (x r : Z) : Z := x / 2 ^ r + (x mod 2 ^ r) * 2 ^ (64 - r).

(** SipHash (Aumasson, Bernstein), figure 2.1: SipRound on v0, v1, v2, v3. *)
Record sipstate := Sip { sv0 : Z; sv1 : Z; sv2 : Z; sv3 : Z }.
Definition sipround (s : sipstate) : sipstate :=
  let '(Sip v0 v1 v2 v3) := s in
  let v0 := add64 v0 v1 in
  let v1 := rotl64 v1 13 in
  let v1 := Z.lxor v1 v0 in
  let v0 := rotl64 v0 32 in
  let v2 := add64 v2 v3 in
  let v3 := rotl64 v3 16 in
  let v3 := Z.lxor v3 v2 in
  let v0 := add64 v0 v3 in
  let v3 := rotl64 v3 21 in
  let v3 := Z.lxor v3 v0 in
  let v2 := add64 v2 v1 in
  let v1 := rotl64 v1 17 in
  let v1 := Z.lxor v1 v2 in
  let v2 := rotl64 v2 32 in
  Sip v0 v1 v2 v3.

(** The message is padded with zeros and one byte holding its length mod 256, to
    a multiple of 8 bytes, and read as little-endian words. *)
Definition sip_pad (m : list Z) : list Z :=
  m ++ repeat 0 (7 - Nat.modulo (length m) 8) ++ [Z.of_nat (length m) mod 256].
Fixpoint words (l : list Z) : list Z :=
  match l with
  | a :: b :: c :: d :: e :: f :: g :: h :: l => le_number [a; b; c; d; e; f; g; h] :: words l
  | _ => []
  end.

(** One word: v3 ^= m, two rounds, v0 ^= m. *)
Definition sip_word (s : sipstate) (m : Z) : sipstate :=
  let s := Sip (sv0 s) (sv1 s) (sv2 s) (Z.lxor (sv3 s) m) in
  let s := sipround (sipround s) in
  Sip (Z.lxor (sv0 s) m) (sv1 s) (sv2 s) (sv3 s).

(** "somepseudorandomlygeneratedbytes" *)
Definition sip_init (k0 k1 : Z) : sipstate :=
  Sip (Z.lxor k0 0x736f6d6570736575) (Z.lxor k1 0x646f72616e646f6d)
      (Z.lxor k0 0x6c7967656e657261) (Z.lxor k1 0x7465646279746573).

(** v2 ^= 0xff, four rounds, and the exclusive or of the four words. *)
Definition sip_finish (s : sipstate) : Z :=
  let s := Sip (sv0 s) (sv1 s) (Z.lxor (sv2 s) 0xff) (sv3 s) in
  let s := sipround (sipround (sipround (sipround s))) in
  Z.lxor (Z.lxor (sv0 s) (sv1 s)) (Z.lxor (sv2 s) (sv3 s)).

(** SipHash-2-4 of [m] with the 16-byte [key]. *)
Definition siphash_2_4 (key m : list Z) : Z :=
  let k0 := le_number (firstn 8 key) in
  let k1 := le_number (firstn 8 (skipn 8 key)) in
  sip_finish (fold_left sip_word (words (sip_pad m)) (sip_init k0 k1)).

(** MetroHash64 (J. Andrew Rogers). *)
Definition mk0 : Z := 0xd6d018f5.
Definition mk1 : Z := 0xa2aa033b.
Definition mk2 : Z := 0x62992fc1.
Definition mk3 : Z := 0x30bc5b29.

(** The [n] bytes of [m] at offset [o] as a number. *)
Definition bytes_at (m : list Z) (o n : nat) : Z := le_number (firstn n (skipn o m)).

Definition metro_block (m : list Z) (v : Z * Z * Z * Z) (o : nat) : Z * Z * Z * Z :=
  let '(v0, v1, v2, v3) := v in
  let v0 := add64 (rotr64 (add64 v0 (mul64 (bytes_at m o 8) mk0)) 29) v2 in
  let v1 := add64 (rotr64 (add64 v1 (mul64 (bytes_at m (o + 8) 8) mk1)) 29) v3 in
  let v2 := add64 (rotr64 (add64 v2 (mul64 (bytes_at m (o + 16) 8) mk2)) 29) v0 in
  let v3 := add64 (rotr64 (add64 v3 (mul64 (bytes_at m (o + 24) 8) mk3)) 29) v1 in
  (v0, v1, v2, v3).

Definition metro_merge (h : Z) (v : Z * Z * Z * Z) : Z :=
  let '(v0, v1, v2, v3) := v in
  let v2 := Z.lxor v2 (mul64 (rotr64 (add64 (mul64 (add64 v0 v3) mk0) v1) 37) mk1) in
  let v3 := Z.lxor v3 (mul64 (rotr64 (add64 (mul64 (add64 v1 v2) mk1) v0) 37) mk0) in
  let v0 := Z.lxor v0 (mul64 (rotr64 (add64 (mul64 (add64 v0 v2) mk0) v3) 37) mk1) in
  let v1 := Z.lxor v1 (mul64 (rotr64 (add64 (mul64 (add64 v1 v3) mk1) v2) 37) mk0) in
  add64 h (Z.lxor v0 v1).

(** The whole 32-byte blocks start at the multiples of 32. *)
Definition metro_bulk (m : list Z) (h : Z) : Z :=
  let n := Nat.div (length m) 32 in
  if (n =? 0)%nat then h
  else metro_merge h (fold_left (metro_block m) (map (fun i => (32 * i)%nat) (seq 0 n)) (h, h, h, h)).

Definition metro_16 (m : list Z) (o : nat) (h : Z) : Z :=
  let v0 := mul64 (rotr64 (add64 h (mul64 (bytes_at m o 8) mk2)) 29) mk3 in
  let v1 := mul64 (rotr64 (add64 h (mul64 (bytes_at m (o + 8) 8) mk2)) 29) mk3 in
  let v0 := Z.lxor v0 (add64 (rotr64 (mul64 v0 mk0) 21) v1) in
  let v1 := Z.lxor v1 (add64 (rotr64 (mul64 v1 mk3) 21) v0) in
  add64 h v1.

Definition metro_small (m : list Z) (o n : nat) (r : Z) (h : Z) : Z :=
  let h := add64 h (mul64 (bytes_at m o n) mk3) in
  Z.lxor h (mul64 (rotr64 h r) mk1).

(** Steps for 16, 8, 4, 2 and 1 byte follow, each taken when that many bytes are
    left: the bits of the length.  A step of [n] bytes starts at the length
    rounded down to a multiple of [2 * n]. *)
Definition metro_step (m : list Z) (n : nat) (f : nat -> Z -> Z) (h : Z) : Z :=
  let o := (Nat.div (length m) (2 * n) * (2 * n))%nat in
  if (n <=? length m - o)%nat then f o h else h.

Definition metro64 (m : list Z) (seed : Z) : Z :=
  let h := mul64 (add64 seed mk2) mk0 in
  let h := metro_bulk m h in
  let h := metro_step m 16 (metro_16 m) h in
  let h := metro_step m 8 (fun o => metro_small m o 8 55) h in
  let h := metro_step m 4 (fun o => metro_small m o 4 26) h in
  let h := metro_step m 2 (fun o => metro_small m o 2 48) h in
  let h := metro_step m 1 (fun o => metro_small m o 1 37) h in
  let h := Z.lxor h (rotr64 h 28) in
  let h := mul64 h mk0 in
  Z.lxor h (rotr64 h 29).

(** When plain char is signed ([sgn] is true), some functions read bytes from 128
    up as negative numbers.  Bytes they read correctly: *)
Definition plain (sgn : bool) (b : Z) : Prop := sgn = true -> b < 128.
(** In every whole word, the first seven bytes are below 128 (signed char). *)
Definition word_plain (sgn : bool) (m : list Z) : Prop :=
  sgn = true -> forall i, (i < 8 * (length m / 8))%nat -> (Nat.modulo i 8 <> 7)%nat -> nth i m 0 < 128.
(** If the length is odd, the last byte is below 128 (signed char). *)
Definition last_plain (sgn : bool) (m : list Z) : Prop :=
  sgn = true -> Nat.odd (length m) = true -> last m 0 < 128.
