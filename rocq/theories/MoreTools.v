(** Model of brace_splitter_t (format.h), daw_tracked_allocator.h, daw_uninitialized_storage.h
    and the limits of 128 bit integers (impl/daw_gcc_clang_int128.h).  No proofs in this file. *)
From Verif Require Import Common Ints.
Open Scope Z_scope.

(** * brace_splitter_t, format.h lines 26-98 *)
Record brace := mk_brace { b_size : Z; b_escape : bool; b_in : bool }.
(** Lines 58-60. *)
Definition brace0 : brace := mk_brace 0 false false.
Definition unset_escape (b : brace) : brace := mk_brace (b_size b) false (b_in b).
Definition set_in (b : brace) : brace := mk_brace (b_size b) (b_escape b) true.
(** switch_state( in_escape ), lines 43-49: sets what is set, and unsets what is not. *)
Definition switch_escape (b : brace) : brace :=
  if b_escape b then mk_brace (b_size b) true (b_in b) else mk_brace (b_size b) false (b_in b).
(** Lines 51-55; the size is a std::size_t. *)
Definition count_if (b : brace) : brace :=
  if b_in b then mk_brace ((b_size b + 1) mod 2 ^ 64) (b_escape b) (b_in b) else b.
(** operator( ), lines 62-93: characters are numbers, 123 and 125 are the braces, 92 is the
    backslash.  For all others the function ends without a return statement. *)
Definition brace_call (b : brace) (c : Z) : res (bool * brace) :=
  let b := if negb (b_escape b) && negb (b_in b) then mk_brace 0 (b_escape b) (b_in b) else b in
  if c =? 123 then
    if b_escape b then Ok (true, unset_escape (count_if b))
    else if b_in b then Throw
    else Ok (true, set_in b)
  else if c =? 125 then
    if b_escape b then Ok (true, unset_escape (count_if b))
    else if negb (b_in b) then Throw
    else Ok (false, mk_brace (b_size b) false false)
  else if c =? 92 then Ok (true, count_if (switch_escape b))
  else UB.
(** The results of the calls for the characters of a text, and the splitter afterwards. *)
Fixpoint brace_run (b : brace) (text : list Z) : res (list bool * brace) :=
  match text with
  | [] => Ok ([], b)
  | c :: text => '(r, b) <- brace_call b c ;; '(rs, b) <- brace_run b text ;; Ok (r :: rs, b)
  end.

(** * tracked_allocator, daw_tracked_allocator.h *)
(** A safe_pointer (daw_safe_pointer.h lines 43-45): the block and the position are
    m_pointer, m_range is the block. *)
Record tptr := TPtr { t_block : nat; t_index : Z; t_destroyed : bool }.
(** The blocks of memory, with [true] while allocated and their elements ([None] when there
    is no object), and the pointers of the client. *)
Record theap := mk_theap { t_blocks : list (bool * list (option Z)); t_ptrs : list tptr }.
Definition theap0 : theap := mk_theap [] [].
Inductive top :=
| TAlloc (n : nat)                 (* allocate, lines 57-60 *)
| TCopy (i : nat)                  (* a copy of a pointer *)
| TInc (i : nat) | TDec (i : nat)  (* ++ and --, daw_safe_pointer.h lines 179-203 *)
| TConstruct (i : nat) (v : Z)     (* lines 70-76 *)
| TDestroy (i : nat)               (* lines 78-82 *)
| TRead (i : nat)                  (* ->, daw_safe_pointer.h lines 174-177 *)
| TDealloc (i n : nat).            (* lines 62-68 *)
(** DAW_SAFE_POINTER_ENSURE: an assertion, which stops the program ([Throw]). *)
Definition stop_unless (b : bool) : res unit := if b then Ok tt else Throw.
(** The memory behind a pointer: undefined when the block is gone. *)
Definition block_of (s : theap) (p : tptr) : res (list (option Z)) :=
  match nth_error (t_blocks s) (t_block p) with Some (true, l) => Ok l | _ => UB end.
Definition set_cell (s : theap) (p : tptr) (l : list (option Z)) (v : option Z) : res theap :=
  if (0 <=? t_index p) && (t_index p <? Z.of_nat (length l)) then
    Ok (mk_theap (upd (t_blocks s) (t_block p) (true, upd l (Z.to_nat (t_index p)) v)) (t_ptrs s))
  else UB.
Definition get_cell (p : tptr) (l : list (option Z)) : res Z :=
  if (0 <=? t_index p) && (t_index p <? Z.of_nat (length l)) then
    match nth (Z.to_nat (t_index p)) l None with Some v => Ok v | None => UB end
  else UB.
(** The size of m_range, which the pointer knows, also when the block is gone. *)
Definition range_size (s : theap) (p : tptr) : Z :=
  match nth_error (t_blocks s) (t_block p) with Some (_, l) => Z.of_nat (length l) | None => 0 end.
(** One operation: the value that was read, if any, and the heap. *)
Definition tstep (s : theap) (o : top) : res (option Z * theap) :=
  match o with
  | TAlloc n =>
      Ok (None, mk_theap (t_blocks s ++ [(true, repeat None n)]) (t_ptrs s ++ [TPtr (length (t_blocks s)) 0 false]))
  | TCopy i => p <- rd (t_ptrs s) i ;; Ok (None, mk_theap (t_blocks s) (t_ptrs s ++ [p]))
  | TInc i =>
      p <- rd (t_ptrs s) i ;;
      _ <- stop_unless (negb (t_destroyed p)) ;;
      _ <- stop_unless (t_index p <? range_size s p) ;;
      _ <- block_of s p ;;
      Ok (None, mk_theap (t_blocks s) (upd (t_ptrs s) i (TPtr (t_block p) (t_index p + 1) false)))
  | TDec i =>
      p <- rd (t_ptrs s) i ;;
      _ <- stop_unless (negb (t_destroyed p)) ;;
      _ <- stop_unless (0 <? t_index p) ;;
      _ <- block_of s p ;;
      Ok (None, mk_theap (t_blocks s) (upd (t_ptrs s) i (TPtr (t_block p) (t_index p - 1) false)))
  | TConstruct i v =>
      p <- rd (t_ptrs s) i ;;
      _ <- stop_unless (negb (t_destroyed p)) ;;
      l <- block_of s p ;;
      s <- set_cell s p l (Some v) ;; Ok (None, s)
  | TDestroy i =>
      p <- rd (t_ptrs s) i ;;
      _ <- stop_unless (negb (t_destroyed p)) ;;
      l <- block_of s p ;;
      _ <- get_cell p l ;;
      s <- set_cell s p l None ;; Ok (None, s)
  | TRead i =>
      p <- rd (t_ptrs s) i ;;
      _ <- stop_unless (negb (t_destroyed p)) ;;
      l <- block_of s p ;;
      v <- get_cell p l ;; Ok (Some v, s)
  | TDealloc i n =>
      p <- rd (t_ptrs s) i ;;
      _ <- stop_unless (negb (t_destroyed p)) ;;
      _ <- stop_unless (t_index p =? 0) ;;
      let ps := upd (t_ptrs s) i (TPtr (t_block p) (t_index p) true) in
      l <- block_of s p ;;
      if Nat.eqb n (length l) then Ok (None, mk_theap (upd (t_blocks s) (t_block p) (false, l)) ps) else UB
  end.
Fixpoint trun (s : theap) (ops : list top) : res (list (option Z) * theap) :=
  match ops with
  | [] => Ok ([], s)
  | o :: ops => '(v, s) <- tstep s o ;; '(vs, s) <- trun s ops ;; Ok (v :: vs, s)
  end.

(** * uninitialized_storage, daw_uninitialized_storage.h *)
Section Storage.
  (** Is T trivially copyable? *)
  Variable trivial : bool.
  (** The storage objects with the object that lives in each, if any, and the number of
      objects whose storage was used again without destroying them. *)
  Record ust := mk_ust { u_slots : list (option Z); u_lost : nat }.
  Inductive uop :=
  | UNew                          (* line 36: no object *)
  | UCopy (i : nat)               (* copy and move construction, line 22-25: of the bytes *)
  | UConstruct (i : nat) (v : Z)  (* lines 38-47 *)
  | UDestruct (i : nat)           (* lines 89-91 *)
  | URead (i : nat)               (* ptr, ref, cref, *, ->, lines 49-87 *)
  | UWrite (i : nat) (v : Z).     (* assignment through ref *)
  Definition slot (s : ust) (i : nat) : res (option Z) := rd (u_slots s) i.
  Definition living (s : ust) (i : nat) : res Z :=
    o <- slot s i ;; match o with Some v => Ok v | None => UB end.
  Definition ustep (s : ust) (o : uop) : res (option Z * ust) :=
    match o with
    | UNew => Ok (None, mk_ust (u_slots s ++ [None]) (u_lost s))
    (** The copy holds an object only when T is trivially copyable. *)
    | UCopy i => o <- slot s i ;; Ok (None, mk_ust (u_slots s ++ [if trivial then o else None]) (u_lost s))
    | UConstruct i v =>
        o <- slot s i ;;
        Ok (None, mk_ust (upd (u_slots s) i (Some v)) (match o with None => u_lost s | Some _ => S (u_lost s) end))
    | UDestruct i => _ <- living s i ;; Ok (None, mk_ust (upd (u_slots s) i None) (u_lost s))
    | URead i => v <- living s i ;; Ok (Some v, s)
    | UWrite i v => _ <- living s i ;; Ok (None, mk_ust (upd (u_slots s) i (Some v)) (u_lost s))
    end.
  Fixpoint urun (s : ust) (ops : list uop) : res (list (option Z) * ust) :=
    match ops with
    | [] => Ok ([], s)
    | o :: ops => '(v, s) <- ustep s o ;; '(vs, s) <- urun s ops ;; Ok (v :: vs, s)
    end.
End Storage.

(** * numeric_limits of the 128 bit types, impl/daw_gcc_clang_int128.h *)
(** Lines 58-66, 68-72: values of __uint128_t, then converted. *)
Definition as_int128 (v : Z) : Z := let u := v mod 2 ^ 128 in if u <? 2 ^ 127 then u else u - 2 ^ 128.
Definition int128_min : Z := as_int128 (Z.shiftl 0x8000000000000000 64 mod 2 ^ 128).
Definition int128_lowest : Z := as_int128 (Z.shiftl 0x8000000000000000 64 mod 2 ^ 128).
Definition int128_max : Z := as_int128 (Z.lor (Z.shiftl 0x7FFFFFFFFFFFFFFF 64 mod 2 ^ 128) 0xFFFFFFFFFFFFFFFF).
(** Lines 45-47. *)
Definition int128_digits : Z := 16 * 8 - 1.
Definition int128_digits10 : Z := Z.quot (int128_digits * 3) 10.
(** Lines 128-140 and 115-117. *)
Definition uint128_min : Z := 0.
Definition uint128_max : Z := Z.lor (Z.shiftl 0xFFFFFFFFFFFFFFFF 64 mod 2 ^ 128) 0xFFFFFFFFFFFFFFFF.
Definition uint128_digits : Z := 16 * 8 - 0.
Definition uint128_digits10 : Z := Z.quot (uint128_digits * 3) 10.
