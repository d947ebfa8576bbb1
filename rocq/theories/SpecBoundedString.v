(** Specification vocabulary for the bounded string (C226 and later): what its
    member functions should do, on plain character lists. *)
From Verif Require Import Common Ints StringView SpecString SeqContainers StringView1 BoundedString.
Open Scope Z_scope.

(** What a caller can observe of a string of capacity [cap] that holds [l]. *)
Definition bs_shows (cap : nat) (v : bstr) (l : list Z) : Prop :=
  bs_read v = Ok l /\
  bs_rread v = Ok (rev l) /\
  bs_to_string v = Ok l /\
  bs_size v = Z.of_nat (length l) /\
  bs_capacity v = Z.of_nat cap /\
  (bs_is_empty v = true <-> l = []) /\
  (bs_full v = true <-> length l = cap) /\
  (forall c t, l = c :: t -> bs_front v = Ok c) /\
  (forall c t, l = t ++ [c] -> bs_back v = Ok c) /\
  (forall i c, nth_error l i = Some c -> bs_index v (Z.of_nat i) = Ok c /\ bs_at v (Z.of_nat i) = Ok c) /\
  (forall i, Z.of_nat (length l) <= i -> bs_at v i = Throw) /\
  (exists rest, bs_mem v = l ++ rest).

(** c_str( ) is a C string: a NUL follows the characters. *)
Definition bs_cterm (v : bstr) (l : list Z) : Prop := exists rest, bs_mem v = l ++ 0 :: rest.

(** The representation of a string of capacity [cap] that holds [l]: the characters
    are at the front of the array of [cap] + 1 characters.  ([l] can be one character
    longer than [cap], see C229.) *)
Definition bs_rep (cap : nat) (v : bstr) (l : list Z) : Prop :=
  bfirst v = 0 /\ bindex v = Z.of_nat (length l) /\ Z.of_nat (S cap) < 2 ^ 63 /\
  exists rest, bstack v = l ++ rest /\ (length l + length rest)%nat = S cap.
(** A string that holds [l] and respects its capacity. *)
Definition bs_holds (cap : nat) (v : bstr) (l : list Z) : Prop :=
  bs_rep cap v l /\ (length l <= cap)%nat.
(** The call returns such a string; and one whose c_str( ) is a C string. *)
Definition bs_gives (cap : nat) (r : res bstr) (l : list Z) : Prop :=
  exists v, r = Ok v /\ bs_holds cap v l.
Definition bs_makes (cap : nat) (r : res bstr) (l : list Z) : Prop :=
  exists v, r = Ok v /\ bs_holds cap v l /\ bs_cterm v l.

(** Adding [xs], if there is room; otherwise an exception and no change. *)
Definition add_chars (cap : nat) (l xs : list Z) : bs_out * list Z :=
  if (length l + length xs <=? cap)%nat then (Returned [], l ++ xs) else (Threw, l).

(** One member function. *)
Definition text_step (cap : nat) (l : list Z) (o : bs_op) : bs_out * list Z :=
  match o with
  | BPush c | BAppendChar c => add_chars cap l [c]
  | BAppend xs => add_chars cap l xs
  | BAppendSub t pos count =>
      if pos <=? Z.of_nat (length t) then add_chars cap l (firstn (Z.to_nat count) (skipn (Z.to_nat pos) t))
      else (Threw, l)
  | BRemoveSuffix n =>
      if n <=? Z.of_nat (length l) then (Returned [], firstn (length l - Z.to_nat n) l) else (Threw, l)
  | BClear => (Returned [], [])
  | BPop => match rev l with [] => (Threw, l) | c :: r => (Returned [c], rev r) end
  | BErase p => (Returned [], firstn p l ++ skipn (S p) l)
  | BEraseRange f e => (Returned [], firstn f l ++ skipn e l)
  | BEraseIndex index count =>
      (Returned [], firstn (Z.to_nat index) l ++
                    (if count =? npos then [] else skipn (Z.to_nat index + Z.to_nat count) l))
  end.

Fixpoint text_run (cap : nat) (l : list Z) (os : list bs_op) : list bs_out * list Z :=
  match os with
  | [] => ([], l)
  | o :: os => let '(x, l1) := text_step cap l o in let '(xs, l2) := text_run cap l1 os in (x :: xs, l2)
  end.

(** The calls a caller may make on a string that holds [l]: the positions exist; in
    debug builds ([dbg]) a range erased must not be everything; counts are not so
    large that size( ) - n wraps around to a valid size. *)
Definition range_ok (dbg : bool) (l : list Z) (f e : nat) : Prop :=
  (f <= e <= length l)%nat /\ (dbg = true -> (e - f < length l)%nat).
Definition allowed (dbg : bool) (cap : nat) (l : list Z) (o : bs_op) : Prop :=
  match o with
  | BPush _ | BAppendChar _ | BClear => True
  | BAppend xs => Z.of_nat (length xs) < 2 ^ 63
  | BAppendSub t pos count => Z.of_nat (length t) < 2 ^ 63 /\ 0 <= pos < 2 ^ 64 /\ 0 <= count < 2 ^ 64
  | BRemoveSuffix n => 0 <= n < 2 ^ 64 - Z.of_nat (S cap)
  | BPop => l <> []
  | BErase p => (p < length l)%nat
  | BEraseRange f e => range_ok dbg l f e
  | BEraseIndex index count =>
      0 <= index /\ 0 <= count /\
      range_ok dbg l (Z.to_nat index)
        (if count =? npos then length l else Z.to_nat index + Z.to_nat count)
  end.

Inductive all_allowed (dbg : bool) (cap : nat) : list Z -> list bs_op -> Prop :=
| allowed_nil l : all_allowed dbg cap l []
| allowed_cons l o os :
    allowed dbg cap l o -> all_allowed dbg cap (snd (text_step cap l o)) os -> all_allowed dbg cap l (o :: os).

(** Calls that erase from the middle. *)
Definition erases (o : bs_op) : bool :=
  match o with BErase _ | BEraseRange _ _ | BEraseIndex _ _ => true | _ => false end.
