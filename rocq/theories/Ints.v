(** Fixed-width C++ integers, shared by the models below.  Values are
    mathematical integers; every operation that can leave the range of its type
    is wrapped explicitly.  No proofs in this file. *)
From Verif Require Import Common.
Open Scope Z_scope.

(** Conversion to an unsigned type of [w] bits. *)
Definition wrap (w z : Z) : Z := z mod 2 ^ w.

(** Conversion to a two's complement signed type of [w] bits. *)
Definition swrap (w z : Z) : Z :=
  let m := z mod 2 ^ w in if m <? 2 ^ (w - 1) then m else m - 2 ^ w.

(** An integer type: signedness and number of bits. *)
Record ity := { signed : bool; width : Z }.

Definition u8 := {| signed := false; width := 8 |}.
Definition u16 := {| signed := false; width := 16 |}.
Definition u32 := {| signed := false; width := 32 |}.
Definition u64 := {| signed := false; width := 64 |}.
Definition i8 := {| signed := true; width := 8 |}.
Definition i16 := {| signed := true; width := 16 |}.
Definition i32 := {| signed := true; width := 32 |}.
Definition i64 := {| signed := true; width := 64 |}.

(** std::numeric_limits<T>::lowest( ) and ::max( ). *)
Definition lowest (T : ity) : Z := if signed T then - 2 ^ (width T - 1) else 0.
Definition highest (T : ity) : Z := if signed T then 2 ^ (width T - 1) - 1 else 2 ^ width T - 1.

(** [z] is a value of type [T]. *)
Definition fits (T : ity) (z : Z) : Prop := lowest T <= z <= highest T.

(** static_cast<T>( z ). *)
Definition conv (T : ity) (z : Z) : Z :=
  if signed T then swrap (width T) z else wrap (width T) z.

(** std::make_unsigned_t<T>. *)
Definition unsigned_of (T : ity) : ity := {| signed := false; width := width T |}.

(** Integer promotion with a 32-bit int. *)
Definition promote (T : ity) : ity := if width T <? 32 then i32 else T.

(** The usual arithmetic conversions: the common type of a binary operator.
    Conversion rank is identified with width. *)
Definition usual (T U : ity) : ity :=
  let T' := promote T in
  let U' := promote U in
  if Bool.eqb (signed T') (signed U')
  then {| signed := signed T'; width := Z.max (width T') (width U') |}
  else
    let s := if signed T' then T' else U' in
    let u := if signed T' then U' else T' in
    if width s <=? width u then u else s.

(** 64-bit size_t arithmetic. *)
Definition sz (z : Z) : Z := z mod 2 ^ 64.
