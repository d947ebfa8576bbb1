(** Model of daw_static_bitset.h.  No proofs in this file.
    A static_bitset<BitWidth> is its array of 64-bit limbs, lowest limb first;
    [bw] is BitWidth.  bounded_array_t is a plain array (daw_bounded_array.h
    17-92): reading outside it is undefined.
    Not modelled: one_count/zero_count (they call count_ones on a daw::array, for
    which there is no overload), operations on operands of different widths (they
    access private members of another class), to_string(fmt_binary). *)
From Verif Require Import Common Ints BitsModel.
Open Scope Z_scope.

Section SB.
  Variable bw : Z.

  (** get_elements_needed, lines 76-86. *)
  Definition sb_limbs : nat :=
    if bw <=? 64 then 1%nat
    else Z.to_nat (bw / 64 + (if negb (bw mod 64 =? 0) then 1 else 0)).

  (** get_diff_mask, lines 88-101. *)
  Definition sb_diff_mask : Z :=
    let b := if 64 <? bw then bw mod 64 else if bw <? 64 then 64 - bw else bw in
    if b =? 0 then 2 ^ 64 - 1 else mask_msb 64 b.

  (** Default construction: all limbs zero, lines 115 and 188-190. *)
  Definition sb_zero : list Z := repeat 0 sb_limbs.

  (** Constructor from integers, lines 192-205: aggregate initialisation pads with
      zeros (more values than limbs do not compile). *)
  Definition sb_of (values : list Z) : res (list Z) :=
    let m := values ++ repeat 0 (sb_limbs - length values) in
    x <- rd m (length m - 1) ;;
    wr m (length m - 1) (Z.land x sb_diff_mask).

  (** Constructor from a string of binary digits, lines 207-235.  [str] holds
      character codes; pop_back takes the last character (the list is consumed
      from its reversed front).  The inner loop, lines 219-231; [n] counts the
      rounds left. *)
  Fixpoint sb_parse_limb (n : nat) (rev_str : list Z) (cur_val tmp : Z) : res (Z * list Z) :=
    match n with
    | O => Ok (tmp, rev_str)
    | S n =>
        match rev_str with
        | [] => Ok (tmp, [])
        | c :: rest =>
            tmp <- (if c =? 49 then Ok (Z.lor tmp cur_val)
                    else if c =? 48 then Ok tmp else Throw) ;;
            sb_parse_limb n rest (wrap 64 (cur_val * 2)) tmp
        end
    end.
  (** The outer loop, lines 215-234; [k] = m_element_capacity - cur_idx. *)
  Fixpoint sb_parse_limbs (k : nat) (rev_str : list Z) (cur_idx : nat) (m : list Z) : res (list Z) :=
    match k with
    | O => Ok m
    | S k =>
        match rev_str with
        | [] => Ok m
        | _ =>
            ' (tmp, rest) <- sb_parse_limb 64 rev_str 1 0 ;;
            m <- wr m cur_idx tmp ;;
            sb_parse_limbs k rest (S cur_idx) m
        end
    end.
  Definition sb_of_string (str : list Z) : res (list Z) :=
    if Z.of_nat (length str) <=? bw
    then sb_parse_limbs sb_limbs (rev str) 0 sb_zero
    else Throw.

  (** get_address, lines 122-130. *)
  Definition sb_index (index : Z) : nat := Z.to_nat (index / 64).
  Definition sb_bit (index : Z) : Z := index - index / 64 * 64.

  (** set_bit 132-134 and 244-249, clear_bit 136-138 and 251-256, get_bit 140-142
      and 258-263. *)
  Definition sb_set_bit (m : list Z) (index : Z) : res (list Z) :=
    x <- rd m (sb_index index) ;;
    wr m (sb_index index) (Z.lor x (wrap 64 (Z.shiftl (sb_bit index) 1))).
  Definition sb_clear_bit (m : list Z) (index : Z) : res (list Z) :=
    x <- rd m (sb_index index) ;;
    wr m (sb_index index) (Z.land x (wrap 64 (Z.lnot (wrap 64 (Z.shiftl (sb_bit index) 1))))).
  Definition sb_get_bit (m : list Z) (index : Z) : res bool :=
    x <- rd m (sb_index index) ;;
    Ok (negb (Z.land x (wrap 64 (Z.shiftl (sb_bit index) 1)) =? 0)).

  (** clear, lines 265-270. *)
  Definition sb_clear (m : list Z) : list Z := map (fun _ => 0) m.

  (** operator|= 346-354, operator&= 370-382, operator^ 392-408, for operands of
      the same width (then only the first loop runs), and operator~ 410-416. *)
  Fixpoint sb_zip (f : Z -> Z -> Z) (m rhs : list Z) : list Z :=
    match m, rhs with
    | x :: m, y :: rhs => f x y :: sb_zip f m rhs
    | _, _ => []
    end.
  Definition sb_or := sb_zip Z.lor.
  Definition sb_and := sb_zip Z.land.
  Definition sb_xor := sb_zip Z.lxor.
  Definition sb_not (m : list Z) : list Z := map (fun x => wrap 64 (Z.lnot x)) m.

  (** operator== 418-439, operator!= 441-462, same width. *)
  Fixpoint sb_eq (m rhs : list Z) : bool :=
    match m, rhs with
    | x :: m, y :: rhs => if negb (x =? y) then false else sb_eq m rhs
    | _, _ => true
    end.
  Fixpoint sb_ne (m rhs : list Z) : bool :=
    match m, rhs with
    | x :: m, y :: rhs => if negb (x =? y) then true else sb_ne m rhs
    | _, _ => false
    end.

  (** The loop of operator<<= for less than 64 bits, lines 470-477; a shift by
      64 - 0 is undefined. *)
  Fixpoint sb_shl_loop (bits carry : Z) (m : list Z) : res (list Z) :=
    match m with
    | [] => Ok []
    | x :: m =>
        if 64 <=? 64 - bits then UB
        else
          let next_carry := Z.shiftr (Z.land x (mask_lsb 64 bits)) (64 - bits) in
          let y := Z.lor (wrap 64 (Z.shiftl x bits)) carry in
          r <- sb_shl_loop bits next_carry m ;;
          Ok (y :: r)
    end.
  (** operator<<=, lines 464-493.  For exactly 64 bits the loop (481-484) ends by
      reading m_data[-1]; for more, the [while] (488-491) runs that case first. *)
  Definition sb_shl (m : list Z) (bits : Z) : res (list Z) :=
    if bw <=? bits then Ok (sb_clear m)
    else if bits <? 64 then sb_shl_loop bits 0 m
    else UB.

  (** The loop of operator>>=, lines 504-512: from the highest limb down, so the
      carry comes from the rest of the list. *)
  Fixpoint sb_shr_loop (bits : Z) (m : list Z) : list Z * Z :=
    match m with
    | [] => ([], 0)
    | x :: m =>
        let (r, carry) := sb_shr_loop bits m in
        (Z.lor (Z.shiftr x bits) carry :: r,
         wrap 64 (Z.shiftl (Z.land x (mask_msb 64 bits)) (64 - bits)))
    end.
  (** operator>>=, lines 495-527; the 64-bit case reads m_data[size()]. *)
  Definition sb_shr (m : list Z) (bits : Z) : res (list Z) :=
    if bw <=? bits then Ok (sb_clear m)
    else if bits =? 0 then Ok m
    else if bits <? 64 then Ok (fst (sb_shr_loop bits m))
    else UB.

  (** nibble_to_ascii 55-60, get_low_nibble 62-65, get_high_nibble 67-70. *)
  Definition nibble_to_ascii (v : Z) : Z := if 10 <=? v then 65 + (v - 10) else 48 + v.
  Definition low_nibble (v : Z) : Z := nibble_to_ascii (Z.land v 0x0F).
  Definition high_nibble (v : Z) : Z := nibble_to_ascii (Z.shiftr (Z.land v 0xF0) 4).
  (** to_string( fmt_hex_t ), lines 306-324.  [pos] decreases through size_t and
      may wrap after the last limb; positions are checked when written. *)
  Fixpoint sb_hex_bytes (n : nat) (value pos : Z) (out : list Z) : res (Z * list Z) :=
    match n with
    | O => Ok (pos, out)
    | S n =>
        let tmp := wrap 8 (Z.land value 0xFF) in
        out <- wr out (Z.to_nat pos) (low_nibble tmp) ;;
        out <- wr out (Z.to_nat (sz (pos - 1))) (high_nibble tmp) ;;
        sb_hex_bytes n (Z.shiftr value 8) (sz (pos - 2)) out
    end.
  Fixpoint sb_hex_loop (m : list Z) (pos : Z) (out : list Z) : res (list Z) :=
    match m with
    | [] => Ok out
    | x :: m =>
        if x =? 0 then sb_hex_loop m (sz (pos - 16)) out
        else
          ' (pos, out) <- sb_hex_bytes 8 x pos out ;;
          sb_hex_loop m pos out
    end.
  Definition sb_to_hex (m : list Z) : res (list Z) :=
    let n := Z.of_nat (length m) * 16 in
    sb_hex_loop m (sz (n - 1)) (repeat 48 (Z.to_nat n)).
End SB.
