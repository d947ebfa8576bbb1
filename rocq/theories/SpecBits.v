(** Specifications for the integer and bit utilities, independent of the model. *)
From Verif Require Import Common Ints.
Open Scope Z_scope.

(** The widths of the standard integer types. *)
Definition std_width (w : Z) : Prop := w = 8 \/ w = 16 \/ w = 32 \/ w = 64.

(** Bit [i] of [r] is bit [w-1-i] of [v], for every bit of a [w]-bit word; [r]
    has no other bits. *)
Definition mirrored (w v r : Z) : Prop :=
  0 <= r < 2 ^ w /\
  forall i, 0 <= i < w -> Z.testbit r i = Z.testbit v (w - 1 - i).

(** Byte [k] of [z] (k = 0 is the least significant). *)
Definition byte (z : Z) (k : Z) : Z := (z / 2 ^ (8 * k)) mod 256.

(** The [w/8] bytes of [r] are those of [v] in opposite order. *)
Definition bytes_reversed (w v r : Z) : Prop :=
  forall k, 0 <= k < w / 8 -> byte r k = byte v (w / 8 - 1 - k).

(** The 32-bit limbs of a bitset of [n] bits. *)
Definition bs_wf (n : Z) (m : list Z) : Prop :=
  2 < n /\ length m = Z.to_nat ((n - 1) / 32 + 1) /\ Forall (fun x => 0 <= x < 2 ^ 32) m.

(** A bit string, most significant bit first, and the number it denotes. *)
Fixpoint val (l : list bool) : Z :=
  match l with
  | [] => 0
  | b :: t => (if b then 2 ^ Z.of_nat (length t) else 0) + val t
  end.
(** The low [n] bits of [z] as a bit string. *)
Fixpoint low_bits (n : nat) (z : Z) : list bool :=
  match n with
  | O => []
  | S n => Z.testbit z (Z.of_nat n) :: low_bits n z
  end.

(** A bit queue of capacity [cap] whose pushed values have [vw] bits, as a bit
    string with the oldest bits first.  Each operation succeeds only when its
    arguments are within bounds. *)
Inductive queue_op :=
| Push (value : Z) (n : nat)   (* append the low n bits of value *)
| PopNew (n : nat)             (* remove and return the n newest bits *)
| PopOld (n : nat).            (* remove and return the n oldest bits *)

Inductive queue_step (cap vw : Z) : list bool -> queue_op -> list Z -> list bool -> Prop :=
| step_push l v n : 0 <= v < 2 ^ vw -> Z.of_nat n <= vw -> Z.of_nat (length l + n) <= cap ->
    queue_step cap vw l (Push v n) [] (l ++ low_bits n v)
| step_new l1 l2 : Z.of_nat (length l2) <= vw ->
    queue_step cap vw (l1 ++ l2) (PopNew (length l2)) [val l2] l1
| step_old l1 l2 : Z.of_nat (length l1) <= vw ->
    queue_step cap vw (l1 ++ l2) (PopOld (length l1)) [val l1] l2.

Inductive queue_history (cap vw : Z) : list bool -> list queue_op -> list Z -> list bool -> Prop :=
| history_nil l : queue_history cap vw l [] [] l
| history_cons l op out l' ops outs l'' :
    queue_step cap vw l op out l' -> queue_history cap vw l' ops outs l'' ->
    queue_history cap vw l (op :: ops) (out ++ outs) l''.

(** The bit string [bits] cut into consecutive groups of the given sizes; the
    remainder is returned too. *)
Inductive groups : list nat -> list bool -> list (list bool) -> list bool -> Prop :=
| groups_nil bits : groups [] bits [] bits
| groups_cons g ns bits gs rest : groups ns bits gs rest ->
    groups (length g :: ns) (g ++ bits) (g :: gs) rest.

(** The number stored in an array of 64-bit limbs, lowest limb first. *)
Fixpoint num (m : list Z) : Z :=
  match m with
  | [] => 0
  | x :: m => x + 2 ^ 64 * num m
  end.
(** The limbs of a bitset of [bw] bits: as many as needed, each of 64 bits. *)
Definition sb_wf (bw : Z) (m : list Z) : Prop :=
  0 < bw /\ Z.of_nat (length m) = (bw + 63) / 64 /\ Forall (fun x => 0 <= x < 2 ^ 64) m.

(** A string of character codes '0' (48) and '1' (49), and its bits. *)
Definition binary_string (str : list Z) : Prop := forall c, In c str -> c = 48 \/ c = 49.
Definition string_bits (str : list Z) : list bool := map (fun c => c =? 49) str.

(** The upper case hexadecimal digit characters. *)
Definition hex_digits : list Z :=
  [48; 49; 50; 51; 52; 53; 54; 55; 56; 57; 65; 66; 67; 68; 69; 70].

(** Bit [j] is selected when it lies in the limb of bit [i] and its place there is
    one of the bits set in the number 2*(i mod 64).  (What the code uses where
    "j = i" is meant.) *)
Definition touched (i j : Z) : bool :=
  (j / 64 =? i / 64) && Z.testbit (2 * (i mod 64)) (j mod 64).
