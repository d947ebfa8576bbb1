(** Vocabulary of the statements about the character, number and string helpers.
    Independent of the model. *)
From Coq Require Import Ascii String.
From Verif Require Import Common Ints SpecBits TextUtil.
Open Scope Z_scope.

(** The character codes of a literal. *)
Definition codes (s : string) : list Z :=
  map (fun c => Z.of_N (N_of_ascii c)) (list_ascii_of_string s).
Definition digit_chars := codes "0123456789".
Definition lower_chars := codes "abcdefghijklmnopqrstuvwxyz".
Definition upper_chars := codes "ABCDEFGHIJKLMNOPQRSTUVWXYZ".
Definition printable_chars :=
  codes " !""#$%&'()*+,-./0123456789:;<=>?@ABCDEFGHIJKLMNOPQRSTUVWXYZ[\]^_`abcdefghijklmnopqrstuvwxyz{|}~".
Definition hex_chars := codes "0123456789ABCDEF".
Definition hex_lc_chars := codes "0123456789abcdef".

(** [r] is [c] with the letters of [from] exchanged for those of [to]. *)
Definition letter_mapped (from to : list Z) (c r : Z) : Prop :=
  (forall k, nth_error from k = Some c -> nth_error to k = Some r) /\
  (~ In c from -> r = c).

(** An integer type of one of the usual widths. *)
Definition std_int (T : ity) : Prop := std_width (width T).

(** [t] is the text of [v] in base 16 with digits [digits], most significant
    digit first. *)
Definition base16 (digits : list Z) (t : list Z) (v : Z) : Prop :=
  exists ds,
    Forall2 (fun d c => 0 <= d < 16 /\ nth_error digits (Z.to_nat d) = Some c) ds t /\
    fold_left (fun a d => 16 * a + d) ds 0 = v.

(** The output has space for [n] more characters. *)
Definition room (o : out_it) (n : nat) : Prop :=
  match o with
  | Buf b p => (p + n <= List.length b)%nat
  | Back _ => True
  end.
(** [o'] is [o] after the text [t] has been written there and nothing else. *)
Definition emitted (o : out_it) (t : list Z) (o' : out_it) : Prop :=
  match o with
  | Buf b p => exists pre old post,
      b = (pre ++ old ++ post)%list /\ List.length pre = p /\ List.length old = List.length t /\
      o' = Buf (pre ++ t ++ post) (p + List.length t)
  | Back s => o' = Back (s ++ t)%list
  end.

(** The number of one bits among the low [n] bits. *)
Definition ones (n : nat) (v : Z) : Z :=
  Z.of_nat (List.length (filter (fun b => b) (low_bits n v))).

(** The number whose base-256 digits are [m], most significant first. *)
Definition big_endian (m : list Z) : Z := fold_left (fun a b => 256 * a + b) m 0.

Close Scope Z_scope.

(** The answers an "equal to the previous argument" functor should give on a
    sequence of argument values. *)
Fixpoint same_as_previous {A} (eqb : A -> A -> bool) (last : option A) (vs : list A)
    : list bool :=
  match vs with
  | [] => []
  | v :: vs =>
      match last with None => false | Some w => eqb w v end ::
      same_as_previous eqb (Some v) vs
  end.

(** The values passed to the functor, when every object passed is alive. *)
Fixpoint arguments {A} (m : list (option A)) (os : list (@el_op A)) : list A :=
  match os with
  | [] => []
  | Store a x :: os => arguments (upd m a (Some x)) os
  | Gone a :: os => arguments (upd m a None) os
  | Call a :: os =>
      match nth_error m a with
      | Some (Some x) => x :: arguments m os
      | _ => arguments m os
      end
  end.

(** Every object passed is alive, and the object passed last is neither changed
    nor destroyed before the next call. *)
Fixpoint keeps_last {A} (m : list (option A)) (last : option nat) (os : list (@el_op A)) : Prop :=
  match os with
  | [] => True
  | Store a x :: os => a < List.length m /\ last <> Some a /\ keeps_last (upd m a (Some x)) last os
  | Gone a :: os => a < List.length m /\ last <> Some a /\ keeps_last (upd m a None) last os
  | Call a :: os => (exists x, nth_error m a = Some (Some x)) /\ keeps_last m (Some a) os
  end.
