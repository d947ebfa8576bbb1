(** Model of include/daw/daw_random.h.  No proofs in this file.

    The standard library's engines and distributions are outside the model: the
    values std::uniform_int_distribution returns are an arbitrary sequence
    [ds], one for each call, and theorems assume of them only what the standard
    promises (each lies in the requested closed interval). *)
From Verif Require Import Common Ints Hash.
Open Scope Z_scope.

(** daw_random.h:35-45 randint( a, b ): [d] is what the distribution returns. *)
Definition randint (a b d : Z) : res Z := if a <=? b then Ok d else Throw.

Section Elem.
Context {A : Type}.

(** daw_random.h:60-69 shuffle( first, last ): the loop from [i] down to 1.
    cswap of an element with itself leaves it unchanged. *)
Fixpoint shuffle_loop (i : nat) (ds : list nat) (l : list A) : res (list A) :=
  match i with
  | O => Ok l
  | S i' =>
      match ds with
      | [] => OutOfFuel
      | d :: ds =>
          j <- randint 0 (Z.of_nat i) (Z.of_nat d) ;;
          l <- swap_at l i (Z.to_nat j) ;;
          shuffle_loop i' ds l
      end
  end.
Definition shuffle (ds : list nat) (l : list A) : res (list A) :=
  shuffle_loop (length l - 1) ds l.
End Elem.

(** daw_random.h:71-82 random_fill( first, last, a, b ): the new values of [n]
    elements of the type [T]. *)
Fixpoint fill_loop (T : ity) (a b : Z) (n : nat) (ds : list Z) : res (list Z) :=
  match n with
  | O => Ok []
  | S n =>
      match ds with
      | [] => OutOfFuel
      | d :: ds =>
          x <- randint a b d ;;
          xs <- fill_loop T a b n ds ;;
          Ok (conv T x :: xs)
      end
  end.
Definition random_fill (T : ity) (a b : Z) (n : nat) (ds : list Z) : res (list Z) :=
  if a <=? b then fill_loop T a b n ds else Throw.

(** daw_random.h:93-108 make_random_data( count, a, b ): a vector of [IntType] =
    [T]. *)
Definition make_random_data (T : ity) (count : nat) (a b : Z) (ds : list Z) : res (list Z) :=
  if a <=? b then random_fill T a b count ds else Throw.

(** daw_random.h:194-202 RandomInteger::operator( )( MaxInclusive,
    MinInclusive ). *)
Definition random_integer (max min d : Z) : res Z := if min <? max then Ok d else Throw.

(** daw_random.h:131-139 rand_lcg<N>( x ) with N = 4 or 8 bytes in a size_t
    ([w] bits). *)
Definition lcg_mult (w : Z) : Z := if w =? 64 then 2862933555777941757 else 1664525.
Definition lcg_add (w : Z) : Z := if w =? 64 then 3037000493 else 1013904223.
Definition rand_lcg (w x : Z) : Z := wrap w (wrap w (x * lcg_mult w) + lcg_add w).

(** daw_random.h:142-165 static_random: m_state.  The constructor, and a call:
    the returned value and the new state. *)
Definition sr_make (w seed : Z) : Z := rand_lcg w seed.
Definition sr_call (w state : Z) : Z * Z :=
  let state := rand_lcg w state in
  (fnv_integer w {| signed := false; width := w |} state, state).

(** [n] calls in a row: the values returned and the last state. *)
Fixpoint sr_calls (w : Z) (n : nat) (state : Z) : list Z * Z :=
  match n with
  | O => ([], state)
  | S n =>
      let '(x, state) := sr_call w state in
      let '(xs, state) := sr_calls w n state in
      (x :: xs, state)
  end.
