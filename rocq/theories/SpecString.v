(** Specification vocabulary for the string view properties (C23-C35 and later):
    what a view shows, and "first/last position with a property". *)
From Verif Require Import Common Ints StringView.
Open Scope Z_scope.

(** A view that refers to existing memory: null and empty, or a range inside an
    array (which is smaller than 2^63 characters). *)
Definition valid (v : view) : Prop :=
  match vmem v with
  | None => voff v = 0 /\ vlast v = 0
  | Some l => 0 <= voff v /\ voff v + vsize v <= Z.of_nat (length l) /\
              Z.of_nat (length l) < 2 ^ 63 /\ 0 <= vlast v < 2 ^ 64
  end.

(** The characters a view shows. *)
Definition chars (v : view) : list Z :=
  match vmem v with
  | None => []
  | Some l => firstn (Z.to_nat (vsize v)) (skipn (Z.to_nat (voff v)) l)
  end.

(** [needle] occurs in [hay] at index [i]. *)
Definition occurs (hay needle : list Z) (i : nat) : Prop :=
  exists a b, hay = a ++ needle ++ b /\ length a = i.

(** The character at index [i] exists and satisfies [P]. *)
Definition char_is (s : list Z) (P : Z -> Prop) (i : nat) : Prop :=
  exists c, nth_error s i = Some c /\ P c.

(** [r] is the smallest (largest) index with property [Q], npos if there is none. *)
Definition first_where (Q : nat -> Prop) (r : Z) : Prop :=
  (r = npos /\ forall i, ~ Q i) \/
  (exists i, r = Z.of_nat i /\ Q i /\ forall j, (j < i)%nat -> ~ Q j).
Definition last_where (Q : nat -> Prop) (r : Z) : Prop :=
  (r = npos /\ forall i, ~ Q i) \/
  (exists i, r = Z.of_nat i /\ Q i /\ forall j, (i < j)%nat -> ~ Q j).

(** All characters are values of one 8-bit type: 0..255 or -128..127 (any range of
    256 values starting at [lo]). *)
Definition bytes (lo : Z) (s : list Z) : Prop := Forall (fun c => lo <= c < lo + 256) s.

(** The character after the last one is NUL. *)
Definition terminated (v : view) : Prop :=
  exists l, vmem v = Some l /\ nth_error l (Z.to_nat (voff v + vsize v)) = Some 0.

(** Lexicographic order of character lists. *)
Inductive lex_lt : list Z -> list Z -> Prop :=
| lex_nil c s : lex_lt [] (c :: s)
| lex_head c d s t : c < d -> lex_lt (c :: s) (d :: t)
| lex_tail c s t : lex_lt s t -> lex_lt (c :: s) (c :: t).

(** The white space characters: space, \t, \n, \v, \f, \r. *)
Definition white (c : Z) : Prop := c = 32 \/ 9 <= c <= 13.

(** [s'] is [s] without its maximal leading (trailing) run of characters in [P]. *)
Definition drops_front (P : Z -> Prop) (s s' : list Z) : Prop :=
  exists a, s = a ++ s' /\ Forall P a /\ match s' with [] => True | c :: _ => ~ P c end.
Definition drops_back (P : Z -> Prop) (s s' : list Z) : Prop :=
  exists a, s = s' ++ a /\ Forall P a /\ forall t c, s' = t ++ [c] -> ~ P c.

(** Splitting [hay] at the first (last) index with property [Q], where [len]
    characters of the delimiter go to neither side; without such an index the piece
    is everything and nothing remains. *)
Definition cut_first (Q : nat -> Prop) (len : nat) (hay piece rest : list Z) : Prop :=
  (exists d, hay = piece ++ d ++ rest /\ length d = len /\ Q (length piece) /\
     forall j, (j < length piece)%nat -> ~ Q j) \/
  ((forall i, ~ Q i) /\ piece = hay /\ rest = []).
Definition cut_last (Q : nat -> Prop) (len : nat) (hay piece rest : list Z) : Prop :=
  (exists d, hay = rest ++ d ++ piece /\ length d = len /\ Q (length rest) /\
     forall j, (length rest < j)%nat -> ~ Q j) \/
  ((forall i, ~ Q i) /\ piece = hay /\ rest = []).

(** A view whose zero-terminated mark can be trusted. *)
Definition sound (v : view) : Prop := valid v /\ (vzt v = true -> terminated v).

(** What a try_pop leaves: without a match an empty view and the source unchanged,
    otherwise the split at the first (last) match. *)
Definition try_front (Q : nat -> Prop) (len : nat) (v : view) (r : res (view * view)) : Prop :=
  ((forall i, ~ Q i) -> r = Ok (v_null, v)) /\
  (forall i, Q i -> exists p v', r = Ok (p, v') /\ valid p /\ valid v' /\ cut_first Q len (chars v) (chars p) (chars v')).
Definition try_back (Q : nat -> Prop) (len : nat) (v : view) (r : res (view * view)) : Prop :=
  ((forall i, ~ Q i) -> r = Ok (v_null, v)) /\
  (forall i, Q i -> exists p v', r = Ok (p, v') /\ valid p /\ valid v' /\ cut_last Q len (chars v) (chars p) (chars v')).
