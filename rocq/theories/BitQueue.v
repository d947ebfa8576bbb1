(** Model of daw_bit_queues.h and daw_bit_stream.h.  No proofs in this file.
    The dbg_throw_* checks are active unless NODEBUGTHROW is defined; they are
    modelled as active, and a throw out of a noexcept function as [Throw]. *)
From Verif Require Import Common Ints BitsModel SpecBits.
Open Scope Z_scope.

(** basic_bit_queue, daw_bit_queues.h 32-37: queue_type of [qw] bits, value_type
    of [vw] bits, BitQueueLSB = [source]; [native] is endian::native. *)
Record bq := { bq_size : Z; bq_queue : Z }.

Section Queue.
  Variables (qw vw : Z) (native source : endian).
  Let V : ity := {| signed := false; width := vw |}.

  (** Default constructor, and the one from a queue_type value, lines 41-45. *)
  Definition bq_empty : bq := {| bq_size := 0; bq_queue := 0 |}.
  Definition bq_of (v : Z) : bq := {| bq_size := qw; bq_queue := v |}.

  (** push_back, lines 82-94. *)
  Definition bq_push_back (q : bq) (value bits : Z) : res bq :=
    if negb (bits <=? sz (qw - bq_size q)) then Throw
    else
      let value := Z.land value (mask_msb vw (sz (vw - bits))) in
      if Z.max qw 32 <=? bits then UB
      else
        let m := wrap qw (Z.shiftl (bq_queue q) bits) in
        let m := wrap qw (Z.lor m (to_native_endian native source V value)) in
        Ok {| bq_size := bq_size q + bits; bq_queue := m |}.

  (** pop_front, lines 96-105. *)
  Definition bq_pop_front (q : bq) (bits : Z) : res (Z * bq) :=
    if negb (bits <=? bq_size q) then Throw
    else
      let mask := mask_msb qw (sz (qw - bits)) in
      let result := wrap vw (Z.land (bq_queue q) mask) in
      if Z.max qw 32 <=? bits then UB
      else Ok (result, {| bq_size := bq_size q - bits; bq_queue := Z.shiftr (bq_queue q) bits |}).

  (** pop_back, lines 107-117.  [1 << bits] is computed in a 32-bit int. *)
  Definition bq_pop_back (q : bq) (bits : Z) : res (Z * bq) :=
    if negb (bits <=? bq_size q) then Throw
    else if 31 <=? bits then UB
    else
      let mask := wrap qw (2 ^ bits - 1) in
      let s := bq_size q - bits in
      if Z.max qw 32 <=? s then UB
      else
        let mask := wrap qw (Z.shiftl mask s) in
        let result := wrap vw (Z.land (bq_queue q) mask) in
        if Z.max vw 32 <=? s then UB
        else
          Ok (Z.shiftr result s,
              {| bq_size := bq_size q - bits;
                 bq_queue := Z.land (bq_queue q) (wrap qw (Z.lnot mask)) |}).

  (** clear 119-122, pop_all 124-128. *)
  Definition bq_clear (q : bq) : bq := bq_empty.
  Definition bq_pop_all (q : bq) : Z * bq := (wrap vw (bq_queue q), bq_clear q).

  (** A client calling a sequence of the queue's member functions, collecting
      what the pops return. *)
  Fixpoint bq_run (q : bq) (ops : list queue_op) : res (list Z * bq) :=
    match ops with
    | [] => Ok ([], q)
    | Push v n :: ops => q <- bq_push_back q v (Z.of_nat n) ;; bq_run q ops
    | PopNew n :: ops =>
        ' (v, q) <- bq_pop_front q (Z.of_nat n) ;;
        ' (vs, q) <- bq_run q ops ;; Ok (v :: vs, q)
    | PopOld n :: ops =>
        ' (v, q) <- bq_pop_back q (Z.of_nat n) ;;
        ' (vs, q) <- bq_run q ops ;; Ok (v :: vs, q)
    end.
End Queue.

(** bit_stream, daw_bit_stream.h 22-78: value_type of [w] bits; the source range
    [m_first, m_last) is the list of elements not yet fetched. *)
Record bstream := { st_src : list Z; st_left : bq }.

Section Stream.
  Variables (w : Z) (native source : endian).

  (** Constructor, lines 37-40. *)
  Definition st_make (l : list Z) : bstream := {| st_src := l; st_left := bq_empty |}.

  (** pop_bits, lines 50-73. *)
  Definition st_pop_bits (s : bstream) (num_bits : Z) : res (Z * bstream) :=
    if w <? num_bits then Throw
    else if num_bits =? 0 then Throw
    else
      ' (result, num_bits, lo, src) <-
        (if bq_size (st_left s) <? num_bits then
           ' (result, num_bits, lo) <-
             (if negb (bq_size (st_left s) =? 0) then
                let num_bits := num_bits - bq_size (st_left s) in
                let (r, lo) := bq_pop_all w (st_left s) in
                if Z.max w 32 <=? num_bits then UB
                else Ok (wrap w (Z.shiftl r num_bits), num_bits, lo)
              else Ok (0, num_bits, st_left s)) ;;
           match st_src s with
           | [] => Throw
           | x :: src =>
               lo <- bq_push_back w w native source lo x w ;;
               Ok (result, num_bits, lo, src)
           end
         else Ok (0, num_bits, st_left s, st_src s)) ;;
      ' (r, lo) <- bq_pop_back w w lo num_bits ;;
      Ok (wrap w (Z.lor result r), {| st_src := src; st_left := lo |}).

  (** A client reading groups of the given sizes in turn. *)
  Fixpoint st_run (s : bstream) (ns : list nat) : res (list Z * bstream) :=
    match ns with
    | [] => Ok ([], s)
    | n :: ns =>
        ' (v, s) <- st_pop_bits s (Z.of_nat n) ;;
        ' (vs, s) <- st_run s ns ;; Ok (v :: vs, s)
    end.

  (** skip_bits, lines 105-113. *)
  Fixpoint st_skip_loop (fuel : nat) (s : bstream) (bits_needed : Z) : res bstream :=
    match fuel with
    | O => OutOfFuel
    | S fuel =>
        if w <=? bits_needed then
          ' (_, s) <- st_pop_bits s w ;;
          st_skip_loop fuel s (bits_needed - w)
        else Ok s
    end.
  Definition st_skip_bits (s : bstream) (bits_needed : Z) : res bstream :=
    st_skip_loop (S (Z.to_nat bits_needed)) s bits_needed.
End Stream.
