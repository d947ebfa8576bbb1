(** Model of daw_any_if.h, daw_from_string.h, basic_nibble_queue (daw_bit_queues.h),
    skip_until (daw_bit_stream.h), daw_visit_as.h and the helpers of
    impl/daw_int_to_iterator.h.  No proofs in this file. *)
From Verif Require Import Common Ints BitsModel SpecBits BitQueue.
Open Scope Z_scope.

(** * any_if *)
(** An argument is a value convertible to bool, or a callable that returns a bool or throws. *)
Inductive test_arg :=
| AValue (b : bool)
| ACall (r : res bool).
(** do_test, daw_any_if.h lines 17-23. *)
Definition do_test (a : test_arg) : res bool := match a with AValue b => Ok b | ACall r => r end.
(** any_if, daw_any_if.h lines 14-25: the fold with [and]; also the number of the
    arguments that were tested. *)
Fixpoint any_if (l : list test_arg) : res bool * nat :=
  match l with
  | [] => (Ok true, 0%nat)
  | a :: l =>
      match do_test a with
      | Ok true => let (r, n) := any_if l in (r, S n)
      | Ok false => (Ok false, 1%nat)
      | e => (e, 1%nat)
      end
  end.

(** * from_string *)
(** std::from_chars for integers in base 10, as the C++ standard describes it: an
    optional minus sign for the signed types, then as many digits as there are.  Only the
    error code is looked at by the caller: [None] for both errors. *)
Fixpoint span_digits (l : list Z) : list Z :=
  match l with
  | c :: l => if (48 <=? c) && (c <=? 57) then c :: span_digits l else []
  | [] => []
  end.
Definition digits_value (ds : list Z) : Z := fold_left (fun a c => a * 10 + (c - 48)) ds 0.
Definition from_chars (T : ity) (s : list Z) : option Z :=
  let '(neg, s) := match s with c :: t => if (c =? 45) && signed T then (true, t) else (false, s) | [] => (false, s) end in
  match span_digits s with
  | [] => None
  | ds =>
      let v := if neg : bool then - digits_value ds else digits_value ds in
      if (lowest T <=? v) && (v <=? highest T) then Some v else None
  end.
(** from_string_t<I>, daw_from_string.h lines 25-42, for the integer types. *)
Definition from_string (T : ity) (s : list Z) : option Z :=
  match from_chars T s with Some v => Some v | None => None end.
(** from_string_t<String>, lines 52-60. *)
Definition from_string_text (s : list Z) : option (list Z) := Some s.

(** * basic_nibble_queue, daw_bit_queues.h lines 136-194 *)
Section Nibbles.
  Variables (qw vw : Z) (native source : endian).
  (** Constructors, lines 141-145; capacity, size, empty and full, lines 147-157, 173-175. *)
  Definition nq_empty : bq := bq_empty.
  Definition nq_of (v : Z) : bq := bq_of qw v.
  Definition nq_capacity : Z := qw / 4.
  Definition nq_size (q : bq) : Z := bq_size q / 4.
  Definition nq_is_empty (q : bq) : bool := 0 =? nq_size q.
  Definition nq_full (q : bq) : bool := nq_size q =? nq_capacity.
  (** push_back, lines 159-166; can_pop, lines 168-171; pop_front, lines 177-180 (the
      product num_nibbles * 4 in std::size_t); clear, pop_all, lines 182-188. *)
  Definition nq_push (q : bq) (v : Z) : res bq := bq_push_back qw vw native source q v 4.
  Definition nq_push_n (q : bq) (v n : Z) : res bq := bq_push_back qw vw native source q v (sz (n * 4)).
  Definition nq_can_pop (q : bq) (n : Z) : bool := sz (n * 4) <=? bq_size q.
  Definition nq_pop_front (q : bq) (n : Z) : res (Z * bq) := bq_pop_front qw vw q (sz (n * 4)).
  Definition nq_clear (q : bq) : bq := bq_clear q.
  Definition nq_pop_all (q : bq) : Z * bq := bq_pop_all vw q.

  (** A client's sequence of calls, with what the pops return. *)
  Inductive nibble_op :=
  | NPush (v : Z)             (* push_back( v ) *)
  | NPushN (v : Z) (n : nat)  (* push_back( v, n ) *)
  | NPop (n : nat)            (* pop_front( n ) *)
  | NClear.
  Fixpoint nq_run (q : bq) (ops : list nibble_op) : res (list Z * bq) :=
    match ops with
    | [] => Ok ([], q)
    | NPush v :: ops => q <- nq_push q v ;; nq_run q ops
    | NPushN v n :: ops => q <- nq_push_n q v (Z.of_nat n) ;; nq_run q ops
    | NPop n :: ops =>
        ' (v, q) <- nq_pop_front q (Z.of_nat n) ;;
        ' (vs, q) <- nq_run q ops ;; Ok (v :: vs, q)
    | NClear :: ops => nq_run (nq_clear q) ops
    end.
End Nibbles.

(** * skip_until( bs, v ), daw_bit_stream.h lines 136-144.  [valid] (lines 42-48) only asks
    for elements of the source that were not fetched yet. *)
Section Skip.
  Variables (w : Z) (native source : endian).
  Definition st_valid (s : bstream) : bool := match st_src s with [] => false | _ => true end.
  Fixpoint skip_until_loop (fuel : nat) (s : bstream) (cur v : Z) : res (Z * bstream) :=
    match fuel with
    | O => OutOfFuel
    | S fuel =>
        if st_valid s && negb (cur =? v) then
          ' (cur, s) <- st_pop_bits w native source s w ;;
          skip_until_loop fuel s cur v
        else Ok (cur, s)
    end.
  Definition skip_until (s : bstream) (v : Z) : res bstream :=
    ' (cur, s) <- st_pop_bits w native source s w ;;
    ' (cur, s) <- skip_until_loop (S (length (st_src s))) s cur v ;;
    if negb (cur =? v) then Throw else Ok s.
End Skip.

(** * visit_as, daw_visit_as.h lines 47-58 and 79-83 *)
(** The object representation of an unsigned integer of [n] bytes (little endian, the
    only order modelled), and back. *)
Fixpoint to_bytes (n : nat) (v : Z) : list Z :=
  match n with O => [] | S n => v mod 256 :: to_bytes n (v / 256) end.
Fixpoint of_bytes (l : list Z) : Z := match l with [] => 0 | b :: l => b + 256 * of_bytes l end.
(** The representation as an array of [m] unsigned integers of [k] bytes. *)
Fixpoint elements_of (k m : nat) (bytes : list Z) : list Z :=
  match m with O => [] | S m => of_bytes (firstn k bytes) :: elements_of k m (skipn k bytes) end.
Definition bytes_of (k : nat) (a : list Z) : list Z := flat_map (to_bytes k) a.
(** bit_cast between an unsigned integer of k * m bytes (OrigT) and
    std::array<unsigned integer of k bytes, m> (VisitedT). *)
Definition cast_to_array (k m : nat) (value : Z) : list Z := elements_of k m (to_bytes (k * m) value).
Definition cast_to_integer (k : nat) (a : list Z) : Z := of_bytes (bytes_of k a).
(** The visitor gets a reference to the array: its result, and the array it leaves; it may
    throw.  The outcome of the call, and the value afterwards. *)
Definition visit_as {R} (k m : nat) (value : Z) (visitor : list Z -> res (R * list Z)) : res R * Z :=
  let tmp := cast_to_array k m value in
  match visitor tmp with
  | Ok (r, tmp) => (Ok r, cast_to_integer k tmp)
  | UB => (UB, value)
  | Throw => (Throw, value)
  | OutOfFuel => (OutOfFuel, value)
  end.
Definition visit_as_const {R} (k m : nat) (value : Z) (visitor : list Z -> res R) : res R :=
  visitor (cast_to_array k m value).

(** * impl/daw_int_to_iterator.h *)
(** num_digits, lines 19-34: division truncates. *)
Fixpoint num_digits_loop (fuel : nat) (value result : Z) : res Z :=
  match fuel with
  | O => OutOfFuel
  | S fuel => if value =? 0 then Ok result else num_digits_loop fuel (Z.quot value 10) (result + 1)
  end.
Definition num_digits (T : ity) (value : Z) : res Z :=
  if value =? 0 then Ok 1 else num_digits_loop (S (Z.to_nat (width T))) value 0.
(** pow10, lines 36-54; n % 2 and n / 2 truncate; the conversion to Result wraps. *)
Definition pow10_vals : list Z :=
  [1; 100; 10000; 1000000; 100000000; 10000000000; 1000000000000; 100000000000000; 10000000000000000; 1000000000000000000].
Definition pow10 (R : ity) (n : Z) : res Z :=
  let i := Z.quot n 2 in
  if i <? 0 then UB
  else match nth_error pow10_vals (Z.to_nat i) with
       | None => UB
       | Some p => Ok (conv R (if Z.rem n 2 =? 0 then p else wrap 64 (p * 10)))
       end.
(** whole_log10, lines 166-177, for the integer types; the result in uint16_t. *)
Fixpoint whole_log10_loop (fuel : nat) (v result : Z) : res Z :=
  match fuel with
  | O => OutOfFuel
  | S fuel => if 10 <=? v then whole_log10_loop fuel (Z.quot v 10) (wrap 16 (result + 1)) else Ok result
  end.
Definition whole_log10 (T : ity) (v : Z) : res Z := whole_log10_loop (S (Z.to_nat (width T))) v 0.
