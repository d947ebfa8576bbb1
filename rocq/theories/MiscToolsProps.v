(** MiscTools: theorems. *)
From Verif Require Import Common Ints BitsModel SpecBits SpecMath SpecParse BitQueue MiscTools SpecMiscTools MiscToolsProofs.
Open Scope Z_scope.

(** * C308 any_if *)

(** When all tests hold, the result is true and each was looked at once. *)
Theorem C308_all :
  forall l, Forall holds_true l -> any_if l = (Ok true, length l).
Proof. exact c308_all. Qed.

(** The first test that does not hold decides (false, or what it throws), and none after it is called. *)
Theorem C308_first_other :
  forall l1 a l2, Forall holds_true l1 -> ~ holds_true a -> any_if (l1 ++ a :: l2) = (do_test a, S (length l1)).
Proof. exact c308_first_other. Qed.

(** Despite its name, the function does not ask whether any test holds: with one true and one false test the result is false, and with none it is true. It is true exactly when all hold. *)
Theorem C308_any_refuted :
  (exists l, (exists a, In a l /\ holds_true a) /\ fst (any_if l) = Ok false) /\
  fst (any_if []) = Ok true /\
  forall l b, fst (any_if l) = Ok b -> (b = true <-> Forall holds_true l).
Proof. exact c308_any_refuted. Qed.

Example C308_nonvacuous : any_if [AValue true; ACall (Ok true); ACall (Ok false); ACall Throw] = (Ok false, 3%nat) /\ any_if [ACall (Ok true); ACall Throw; AValue false] = (Throw, 2%nat).
Proof. split; reflexivity. Qed.
Print Assumptions C308_all.
Print Assumptions C308_first_other.
Print Assumptions C308_any_refuted.

(** * C309 from_string *)

(** A value is returned exactly when the string starts with the text of a number that the type can hold; it is that number. *)
Theorem C309_value :
  forall T s v, from_string T s = Some v <-> starts_with_number T s v /\ fits T v.
Proof. exact c309_value. Qed.

(** The text of a number is read as that number when it fits, and is refused when it does not. *)
Theorem C309_whole :
  forall T t v, number_text t v -> (signed T = false -> ~ In 45 t) -> (from_string T t = Some v <-> fits T v).
Proof. exact c309_whole. Qed.

(** Empty strings, leading blanks or plus signs, a lone minus, and a minus for an unsigned type are refused. *)
Theorem C309_no_number :
  forall T s, (forall c s', s = c :: s' -> ~ digit c /\ c <> 45) \/ (exists s', s = 45 :: s' /\ (signed T = false \/ forall c s'', s' = c :: s'' -> ~ digit c)) ->
  from_string T s = None.
Proof. exact c309_no_number. Qed.

(** A string that is not the text of a number is accepted all the same when it only starts with one: the rest is ignored (the pointer that std::from_chars returns is not looked at). *)
Theorem C309_trailing_refuted :
  forall T t v rest, number_text t v -> (signed T = false -> ~ In 45 t) -> fits T v -> (forall c r, rest = c :: r -> ~ digit c) ->
  from_string T (t ++ rest) = Some v.
Proof. exact c309_trailing_refuted. Qed.

(** Strings are copied, whatever they contain. *)
Theorem C309_text :
  forall s, from_string_text s = Some s.
Proof. exact c309_text. Qed.

Example C309_nonvacuous : from_string i8 [45; 49; 50; 56] = Some (-128) /\ from_string i8 [49; 50; 56] = None /\ from_string u8 [49; 50; 120] = Some 12 /\
  from_string u8 [45; 49] = None /\ from_string u8 [43; 49] = None /\ from_string u8 [] = None.
Proof. repeat split; reflexivity. Qed.
Print Assumptions C309_value.
Print Assumptions C309_whole.
Print Assumptions C309_no_number.
Print Assumptions C309_trailing_refuted.
Print Assumptions C309_text.

(** * C310 basic_nibble_queue *)

(** Within its capacity, the queue is a stack of nibbles: pop_front takes the newest ones; size, empty, full and can_pop count them. *)
Theorem C310_stack :
  forall (qw vw : Z) (native source : endian), vw = 8 \/ vw = 16 -> vw <= qw <= 64 -> qw mod 4 = 0 -> 
  forall ops outs l, stack_history (Z.to_nat (nq_capacity qw)) vw [] ops outs l ->
  exists q, nq_run qw vw native source nq_empty ops = Ok (outs, q) /\
    nq_size q = Z.of_nat (length l) /\ (nq_is_empty q = true <-> l = []) /\ (nq_full qw q = true <-> length l = Z.to_nat (nq_capacity qw)) /\
    bq_queue q = hex_value l /\ (forall n, 0 <= n < 2 ^ 62 -> (nq_can_pop q n = true <-> n <= Z.of_nat (length l))).
Proof. exact c310_stack. Qed.

(** Pushing into a full queue, popping more than there is, or pushing more than there is room for throws (out of the noexcept pop_front: std::terminate). *)
Theorem C310_limits :
  forall (qw vw : Z) (native source : endian), vw = 8 \/ vw = 16 -> vw <= qw <= 64 -> qw mod 4 = 0 -> 
  forall ops outs l q v n, stack_history (Z.to_nat (nq_capacity qw)) vw [] ops outs l -> nq_run qw vw native source nq_empty ops = Ok (outs, q) -> Z.of_nat n < 2 ^ 62 ->
  (length l = Z.to_nat (nq_capacity qw) -> nq_push qw vw native source q v = Throw) /\
  ((length l < n)%nat -> nq_pop_front qw vw q (Z.of_nat n) = Throw) /\
  ((Z.to_nat (nq_capacity qw) < length l + n)%nat -> nq_push_n qw vw native source q v (Z.of_nat n) = Throw).
Proof. exact c310_limits. Qed.

(** It is not a queue: of two nibbles, the one pushed last comes out first, and no member takes the oldest. *)
Theorem C310_fifo_refuted :
  forall (qw vw : Z) (native source : endian), vw = 8 \/ vw = 16 -> vw <= qw <= 64 -> qw mod 4 = 0 -> 
  forall a b, 0 <= a < 16 -> 0 <= b < 16 -> 
  exists q, nq_run qw vw native source nq_empty [NPush a; NPush b; NPop 1; NPop 1] = Ok ([b; a], q).
Proof. exact c310_fifo_refuted. Qed.

Example C310_nonvacuous : match nq_run 16 8 little little nq_empty [NPush 0xA; NPushN 0x7B 2; NPop 2; NPush 0x1; NPop 1] with Ok (o, q) => o = [0x7B; 1] /\ nq_size q = 1 | _ => False end /\
  stack_history 4 8 [] [NPush 0xA; NPushN 0x7B 2; NPop 2] [0x7B] [0xA].
Proof.
  split; [vm_compute; split; reflexivity|].
  apply (sh_cons _ _ [] (NPush 0xA) [] [0xA] _ [0x7B]); [apply (stack_push _ _ [] 0xA); cbn; lia|].
  apply (sh_cons _ _ [0xA] (NPushN 0x7B 2) [] [0xA; 7; 0xB] _ [0x7B]); [apply (stack_push_n _ _ [0xA] 0x7B 2); cbn; lia|].
  apply (sh_cons _ _ [0xA; 7; 0xB] (NPop 2) [0x7B] [0xA] _ []); [apply (stack_pop _ _ [0xA] [7; 0xB]); cbn; lia|]. constructor.
Qed.
(** pop_all empties the queue and gives the newest nibbles that fit the value type. *)
Theorem C310_pop_all :
  forall (qw vw : Z) (native source : endian), vw = 8 \/ vw = 16 -> vw <= qw <= 64 -> qw mod 4 = 0 ->
  forall ops outs l, stack_history (Z.to_nat (nq_capacity qw)) vw [] ops outs l ->
  exists q, nq_run qw vw native source nq_empty ops = Ok (outs, q) /\ nq_pop_all vw q = (hex_value l mod 2 ^ vw, nq_empty) /\ nq_clear q = nq_empty.
Proof. exact c310_pop_all_l. Qed.
Theorem C310_of_value :
  forall (qw vw v : Z), 0 < qw <= 64 -> qw mod 4 = 0 -> nq_size (nq_of qw v) = nq_capacity qw /\ nq_full qw (nq_of qw v) = true /\
  (forall n, 0 <= n < 2 ^ 62 -> (nq_can_pop (nq_of qw v) n = true <-> n <= nq_capacity qw)) /\ nq_pop_all vw (nq_of qw v) = (v mod 2 ^ vw, nq_empty).
Proof. exact c310_of_value_l. Qed.
Print Assumptions C310_of_value.
Print Assumptions C310_pop_all.
Print Assumptions C310_stack.
Print Assumptions C310_limits.
Print Assumptions C310_fifo_refuted.

(** * C311 skip_until *)

(** Wherever the stream stands, the next groups of a whole value are skipped until one is equal to the value looked for, and reading continues directly after it. *)
Theorem C311_found :
  forall (w : Z) (native source : endian) src ns gs0 bits v, w = 8 \/ w = 16 -> Forall (fun x => 0 <= x < 2 ^ w) src ->
  Forall (fun n => (0 < n)%nat /\ Z.of_nat n <= w) ns -> groups ns (flat_map (low_bits (Z.to_nat w)) src) gs0 bits ->
  exists s, st_run w native source (st_make src) ns = Ok (map val gs0, s) /\ 
    forall gs g rest, none_equal w v gs -> Z.of_nat (length g) = w -> val g = v -> bits = concat gs ++ g ++ rest ->
    exists s', skip_until w native source s v = Ok s' /\
      forall ns' gs' rest', Forall (fun n => (0 < n)%nat /\ Z.of_nat n <= w) ns' -> groups ns' rest gs' rest' ->
        exists s'', st_run w native source s' ns' = Ok (map val gs', s'').
Proof. exact c311_found. Qed.

(** If no such group is equal to it (also at the end of the stream), an exception is thrown. *)
Theorem C311_not_found :
  forall (w : Z) (native source : endian) src ns gs0 bits v, w = 8 \/ w = 16 -> Forall (fun x => 0 <= x < 2 ^ w) src ->
  Forall (fun n => (0 < n)%nat /\ Z.of_nat n <= w) ns -> groups ns (flat_map (low_bits (Z.to_nat w)) src) gs0 bits ->
  exists s, st_run w native source (st_make src) ns = Ok (map val gs0, s) /\ 
    forall gs rest, none_equal w v gs -> Z.of_nat (length rest) < w -> bits = concat gs ++ rest -> skip_until w native source s v = Throw.
Proof. exact c311_not_found. Qed.

Example C311_nonvacuous : match skip_until 8 little little (st_make [1; 2; 3; 4]) 3 with Ok s => st_src s = [4] | _ => False end /\
  skip_until 8 little little (st_make [1; 2]) 3 = Throw /\ skip_until 8 little little (st_make []) 3 = Throw /\
  match st_run 8 little little (st_make [0x13; 0x52; 0x10]) [4%nat] with Ok (_, s) => match skip_until 8 little little s 0x21 with Ok s => bq_size (st_left s) = 4 /\ st_src s = [] | _ => False end | _ => False end.
Proof. repeat split; vm_compute; repeat split; reflexivity. Qed.
Print Assumptions C311_found.
Print Assumptions C311_not_found.

(** * C312 visit_as *)

(** The visitor sees the bytes of the value as the elements of the array, the lowest first. *)
Theorem C312_elements :
  forall k m value i, (i < m)%nat -> nth_error (cast_to_array k m value) i = Some (value / 256 ^ Z.of_nat (k * i) mod 256 ^ Z.of_nat k) /\ length (cast_to_array k m value) = m.
Proof. exact c312_elements. Qed.

(** When the visitor changes one element, exactly its bytes change in the value, and the result of the visitor is returned. *)
Theorem C312_write :
  forall (R : Type) k m value i x (r : R), 0 <= value < 256 ^ Z.of_nat (k * m) -> (i < m)%nat -> 0 <= x < 256 ^ Z.of_nat k ->
  visit_as k m value (fun a => Ok (r, upd a i x)) =
    (Ok r, value + (x - value / 256 ^ Z.of_nat (k * i) mod 256 ^ Z.of_nat k) * 256 ^ Z.of_nat (k * i)).
Proof. exact c312_write. Qed.

(** A visitor that changes nothing leaves the value; if it throws, the value is unchanged; otherwise the value afterwards has the bytes the visitor left. *)
Theorem C312_outcome :
  forall (R : Type) k m value (visitor : list Z -> res (R * list Z)), 0 <= value < 256 ^ Z.of_nat (k * m) ->
  (forall r, visitor (cast_to_array k m value) = Ok (r, cast_to_array k m value) -> visit_as k m value visitor = (Ok r, value)) /\
  (visitor (cast_to_array k m value) = Throw -> visit_as k m value visitor = (Throw, value)) /\
  (forall r a, visitor (cast_to_array k m value) = Ok (r, a) -> length a = m -> Forall (fun y => 0 <= y < 256 ^ Z.of_nat k) a ->
     exists value', visit_as k m value visitor = (Ok r, value') /\ 0 <= value' < 256 ^ Z.of_nat (k * m) /\ cast_to_array k m value' = a).
Proof. exact c312_outcome. Qed.

(** For a const value the result is that of the visitor on its bytes. *)
Theorem C312_const :
  forall (R : Type) k m value (visitor : list Z -> res R), visit_as_const k m value visitor = visitor (cast_to_array k m value).
Proof. exact c312_const. Qed.

Example C312_nonvacuous : visit_as 2 2 0x12345678 (fun a => Ok (nth 0 a 0, upd a 1 0xABCD)) = (Ok 0x5678, 0xABCD5678).
Proof. reflexivity. Qed.
Print Assumptions C312_elements.
Print Assumptions C312_write.
Print Assumptions C312_outcome.
Print Assumptions C312_const.

(** * C313 num_digits, whole_log10 and pow10 *)

(** The number of decimal digits is right for every value of every integer type, the lowest included; zero has one. *)
Theorem C313_num_digits :
  forall T v, 0 < width T -> fits T v -> exists d, num_digits T v = Ok d /\ decimal_digits (Z.abs v) d.
Proof. exact c313_num_digits. Qed.

(** The whole part of the logarithm is right for every positive value; for the others the result is 0. *)
Theorem C313_whole_log10 :
  forall T v, 0 < width T <= 64 -> fits T v ->
  (1 <= v -> exists e, whole_log10 T v = Ok e /\ 0 <= e /\ 10 ^ e <= v < 10 ^ (e + 1)) /\ (v < 1 -> whole_log10 T v = Ok 0).
Proof. exact c313_whole_log10. Qed.

(** Powers of ten that the type can hold are right up to 10^19; beyond, and for exponents below -1, the table is read out of bounds. *)
Theorem C313_pow10 :
  forall R n, 0 < width R -> (0 <= n <= 19 -> fits R (10 ^ n) -> pow10 R n = Ok (10 ^ n)) /\ (n >= 20 \/ n <= -2 -> pow10 R n = UB).
Proof. exact c313_pow10. Qed.

(** A power that the type cannot hold is cut silently, and the power with the exponent -1 is 10. *)
Theorem C313_pow10_refuted :
  pow10 i32 10 = Ok 1410065408 /\ pow10 i32 (-1) = Ok 10 /\ pow10 i64 19 = Ok (-8446744073709551616).
Proof. exact c313_pow10_refuted. Qed.

Example C313_nonvacuous : num_digits i8 (-128) = Ok 3 /\ num_digits u64 18446744073709551615 = Ok 20 /\ whole_log10 i32 1000 = Ok 3 /\ pow10 u64 19 = Ok 10000000000000000000.
Proof. repeat split; reflexivity. Qed.
Print Assumptions C313_num_digits.
Print Assumptions C313_whole_log10.
Print Assumptions C313_pow10.
Print Assumptions C313_pow10_refuted.
