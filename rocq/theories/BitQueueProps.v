(** Properties C41, C42, C64: bit streams and bit queues. *)
From Verif Require Import Common CommonProofs Ints BitsModel SpecBits BitQueue BitQueueProofs.
Open Scope Z_scope.

(** * C41: reading a stream in groups of any sizes yields the consecutive groups
    of the source's bits, and reading past the end throws.  Proved for 8 and 16
    bit elements. *)
Theorem C41_bit_stream_partial w native source src ns gs rest : w = 8 \/ w = 16 ->
  Forall (fun x => 0 <= x < 2 ^ w) src ->
  Forall (fun n => (0 < n)%nat /\ Z.of_nat n <= w) ns ->
  groups ns (flat_map (low_bits (Z.to_nat w)) src) gs rest ->
  exists s, st_run w native source (st_make src) ns = Ok (map val gs, s) /\
    (forall n, (length rest < n)%nat -> Z.of_nat n <= w ->
       st_pop_bits w native source s (Z.of_nat n) = Throw).
Proof. exact (st_run_new w native source src ns gs rest). Qed.
Print Assumptions C41_bit_stream_partial.

(** For 32 and 64 bit elements the first read already shifts by the full width. *)
Theorem C41_bit_stream_wide_refuted w : w = 32 \/ w = 64 ->
  st_run w little little (st_make [1; 2]) [4%nat] = UB.
Proof. exact (st_wide_bad w). Qed.
Print Assumptions C41_bit_stream_wide_refuted.

Example C41_nontrivial :
  groups [3; 8; 2]%nat (flat_map (low_bits 8) [0xA5; 0x3C])
    [[true; false; true]; [false; false; true; false; true; false; false; true]; [true; true]]
    [true; false; false] /\
  map val [[true; false; true]; [false; false; true; false; true; false; false; true]; [true; true]]
    = [5; 0x29; 3].
Proof.
  split; [|reflexivity].
  apply (groups_cons [true; false; true] [8; 2]%nat).
  apply (groups_cons [false; false; true; false; true; false; false; true] [2]%nat).
  apply (groups_cons [true; true] []%nat). constructor.
Qed.

(** * C42: a queue of 8 or 16 bits holding values of the same type behaves, under
    every history of in-bounds operations, as the bit string of the specification. *)
Theorem C42_history_partial w native source : w = 8 \/ w = 16 ->
  forall ops outs l, queue_history w w [] ops outs l ->
  exists q, bq_run w w native source bq_empty ops = Ok (outs, q) /\
    bq_size q = Z.of_nat (length l) /\ bq_queue q = val l.
Proof. exact (queue_history_same_new w native source). Qed.
Print Assumptions C42_history_partial.

(** With values narrower than the queue (as in daw::bit_queue), every history
    that never pops the oldest bits. *)
Theorem C42_history_narrow_partial qw vw native source : 0 < vw < qw -> qw <= 64 ->
  forall ops outs l, queue_history qw vw [] ops outs l ->
  (forall n, ~ In (PopOld n) ops) ->
  exists q, bq_run qw vw native source bq_empty ops = Ok (outs, q) /\
    bq_size q = Z.of_nat (length l) /\ bq_queue q = val l.
Proof. exact (queue_history_front_new qw vw native source). Qed.
Print Assumptions C42_history_narrow_partial.

(** Popping the oldest bits then still works while the content fits the value type. *)
Theorem C42_pop_back_partial qw vw q l1 l2 : 0 < vw <= qw -> qw <= 64 -> holds qw q (l1 ++ l2) ->
  (0 < length l1 < 31)%nat -> Z.of_nat (length l1 + length l2) <= vw ->
  exists q', bq_pop_back qw vw q (Z.of_nat (length l1)) = Ok (val l1, q') /\ holds qw q' l2.
Proof. exact (pop_back_fits qw vw q l1 l2). Qed.
Print Assumptions C42_pop_back_partial.

(** Operations out of bounds are refused. *)
Theorem C42_bounds qw vw native source q l : 0 < vw <= qw -> qw <= 64 -> holds qw q l ->
  (forall v n, Z.of_nat n > qw - Z.of_nat (length l) ->
     bq_push_back qw vw native source q v (Z.of_nat n) = Throw) /\
  (forall n, (n > length l)%nat -> bq_pop_front qw vw q (Z.of_nat n) = Throw) /\
  (forall n, (n > length l)%nat -> bq_pop_back qw vw q (Z.of_nat n) = Throw).
Proof. exact (queue_bounds_throw qw vw native source q l). Qed.
Print Assumptions C42_bounds.

(** daw::bit_queue (16-bit queue, 8-bit values): pop_back returns wrong bits. *)
Theorem C42_pop_back_refuted :
  exists ops outs l, queue_history 16 8 [] ops outs l /\
    exists got q, bq_run 16 8 little little bq_empty ops = Ok (got, q) /\ got <> outs.
Proof. exact queue_pop_old_bad. Qed.
Print Assumptions C42_pop_back_refuted.

(** 32 and 64 bit queues: pushing a whole value is undefined. *)
Theorem C42_wide_refuted w : w = 32 \/ w = 64 ->
  exists ops outs l, queue_history w w [] ops outs l /\
    bq_run w w little little bq_empty ops = UB.
Proof. exact (queue_wide_bad w). Qed.
Print Assumptions C42_wide_refuted.

Example C42_nontrivial : exists outs l,
  queue_history 16 16 [] [Push 0x5 3; Push 0x1F 4; PopOld 2; PopNew 3] outs l /\ outs = [2; 7].
Proof.
  exists [2; 7], [true; true]. split; [|reflexivity].
  apply (history_cons 16 16 [] _ [] [true; false; true]).
  { apply (step_push 16 16 [] 5 3); simpl; lia. }
  apply (history_cons 16 16 _ _ [] [true; false; true; true; true; true; true]).
  { apply (step_push 16 16 [true; false; true] 0x1F 4); simpl; lia. }
  apply (history_cons 16 16 _ _ [2] [true; true; true; true; true]).
  { apply (step_old 16 16 [true; false] [true; true; true; true; true]). simpl; lia. }
  apply (history_cons 16 16 _ _ [7] [true; true] [] []); [|constructor].
  apply (step_new 16 16 [true; true] [true; true; true]). simpl; lia.
Qed.
Example C42_holds_nontrivial :
  holds 16 {| bq_size := 3; bq_queue := 5 |} ([true; false] ++ [true]).
Proof. unfold holds. simpl. lia. Qed.

(** * C64: skip_bits. *)
Theorem C64_skip_bits_refuted :
  exists src n s v s', st_skip_bits 8 little little (st_make src) n = Ok s /\
    n = 4 /\ st_pop_bits 8 little little s 4 = Ok (v, s') /\
    v <> val (firstn 4 (skipn 4 (flat_map (low_bits 8) src))).
Proof. exact skip_bits_bad. Qed.
Print Assumptions C64_skip_bits_refuted.

(** Exactly [n] rounded down to whole elements is skipped; later reads return the
    bits that follow. *)
Theorem C64_skip_bits_partial w native source src skipped rest n : w = 8 \/ w = 16 ->
  Forall (fun x => 0 <= x < 2 ^ w) src -> 0 <= n ->
  flat_map (low_bits (Z.to_nat w)) src = skipped ++ rest ->
  Z.of_nat (length skipped) = n / w * w ->
  exists s, st_skip_bits w native source (st_make src) n = Ok s /\
    forall ns gs rest', Forall (fun n => (0 < n)%nat /\ Z.of_nat n <= w) ns ->
      groups ns rest gs rest' ->
      exists s', st_run w native source s ns = Ok (map val gs, s').
Proof. exact (skip_bits_ok w native source src skipped rest n). Qed.
Print Assumptions C64_skip_bits_partial.

Example C64_nontrivial :
  flat_map (low_bits 8) [0xA5; 0x3C] = low_bits 8 0xA5 ++ low_bits 8 0x3C /\
  Z.of_nat (length (low_bits 8 0xA5)) = 11 / 8 * 8.
Proof. split; reflexivity. Qed.
