(** Model of daw::vector and daw::split_buffer (include/daw/vector.h, to which the line
    numbers refer, and include/daw/split_buffer.h).  No proofs in this file.

    Memory is a list of slots; a slot is raw storage, an object with a value, or a
    moved-from object.  Reading raw or moved-from slots, destroying raw ones,
    constructing outside the buffer and freeing or overwriting live objects (a leak)
    are UB; types that are [trivial] (their objects need no construction or destruction)
    allow assignment to raw slots and construction over live ones.  m_begin is nullptr
    exactly if the capacity is 0.  Constructors and the allocator do not throw.
    Allocators are equal.  [ms] is max_size( ); a value passed by reference is either
    outside of the vector or one of its elements. *)
From Verif Require Import Common Ints Math.
Open Scope Z_scope.

Inductive slot (A : Type) := Raw | Obj (a : A) | Moved.
Arguments Raw {A}. Arguments Obj {A} a. Arguments Moved {A}.
Definition mem (A : Type) := list (slot A).
Inductive ref (A : Type) := Val (a : A) | Elem (i : nat).
Arguments Val {A} a. Arguments Elem {A} i.

(** 132-136: m_begin .. endcap( ) are the slots, m_end is the index [len]. *)
Record vec (A : Type) := Vec { buf : mem A; len : nat }.
Arguments Vec {A} _ _. Arguments buf {A} _. Arguments len {A} _.
Definition capacity {A} (v : vec A) : nat := length (buf v).
(** split_buffer.h 59-62: first_ is index 0, end_cap( ) the number of slots. *)
Record sbuffer (A : Type) := SBuf { sbuf : mem A; sbegin : nat; send : nat }.
Arguments SBuf {A} _ _ _. Arguments sbuf {A} _. Arguments sbegin {A} _. Arguments send {A} _.

Section Vector.
Context {A : Type}.
Variable trivial : bool.
Variable ms : Z.
Variable dflt : A.    (* value_type{ } *)

(** ** Slots *)
Definition construct (m : mem A) (i : nat) (a : A) : res (mem A) :=
  s <- rd m i ;;
  match s with
  | Raw => Ok (upd m i (Obj a))
  | _ => if trivial then Ok (upd m i (Obj a)) else UB
  end.
Definition read (m : mem A) (i : nat) : res A :=
  s <- rd m i ;; match s with Obj a => Ok a | _ => UB end.
Definition assign_slot (m : mem A) (i : nat) (a : A) : res (mem A) :=
  s <- rd m i ;;
  match s with
  | Raw => if trivial then Ok (upd m i (Obj a)) else UB
  | _ => Ok (upd m i (Obj a))
  end.
Definition destroy (m : mem A) (i : nat) : res (mem A) :=
  s <- rd m i ;; match s with Raw => if trivial then Ok m else UB | _ => Ok (upd m i Raw) end.
(** std::move( *i ), then the use of the value. *)
Definition move_out (m : mem A) (i : nat) : res (A * mem A) :=
  a <- read m i ;; Ok (a, upd m i Moved).
Definition read_ref (m : mem A) (x : ref A) : res A :=
  match x with Val a => Ok a | Elem i => read m i end.

(** [n] copies of x constructed from [pos] on, x read from [src] (which may be the
    memory written to). *)
Fixpoint construct_n (m : mem A) (pos n : nat) (x : ref A) (src : option (mem A)) : res (mem A) :=
  match n with
  | O => Ok m
  | S n =>
      a <- read_ref (match src with Some s => s | None => m end) x ;;
      m <- construct m pos a ;;
      construct_n m (S pos) n x src
  end.
Fixpoint construct_list (m : mem A) (pos : nat) (l : list A) : res (mem A) :=
  match l with [] => Ok m | a :: l => m <- construct m pos a ;; construct_list m (S pos) l end.
Fixpoint assign_list (m : mem A) (pos : nat) (l : list A) : res (mem A) :=
  match l with [] => Ok m | a :: l => m <- assign_slot m pos a ;; assign_list m (S pos) l end.
Fixpoint fill_n (m : mem A) (pos n : nat) (x : ref A) : res (mem A) :=
  match n with
  | O => Ok m
  | S n => a <- read_ref m x ;; m <- assign_slot m pos a ;; fill_n m (S pos) n x
  end.
(** 1193-1201: base_destruct_at_end; [n] objects below [last].  If new_last is above
    m_end the loop runs away from it: UB. *)
Fixpoint destroy_down (m : mem A) (last n : nat) {struct n} : res (mem A) :=
  match n with
  | O => Ok m
  | S n =>
      match last with
      | O => UB
      | S last => m <- destroy m last ;; destroy_down m last n
      end
  end.
Definition destruct_at_end (v : vec A) (new_last : nat) : res (vec A) :=
  if (len v <? new_last)%nat then UB
  else m <- destroy_down (buf v) (len v) (len v - new_last) ;; Ok (Vec m new_last).
(** deallocate: no object may be left. *)
Definition is_raw (s : slot A) : bool := match s with Raw => true | _ => false end.
Definition deallocate (m : mem A) : res unit := if trivial || forallb is_raw m then Ok tt else UB.

(** std::move( first, last, dest ), dest before first: [n] objects from [src]. *)
Fixpoint move_forward (m : mem A) (src dst n : nat) : res (mem A) :=
  match n with
  | O => Ok m
  | S n =>
      ' am <- move_out m src ;;
      m <- assign_slot (snd am) dst (fst am) ;;
      move_forward m (S src) (S dst) n
  end.
(** std::move_backward( src, src + n, dst + n ). *)
Fixpoint move_backward (m : mem A) (src dst n : nat) : res (mem A) :=
  match n with
  | O => Ok m
  | S n =>
      ' am <- move_out m (src + n) ;;
      m <- assign_slot (snd am) (dst + n) (fst am) ;;
      move_backward m src dst n
  end.
(** Constructs [n] objects at [dst] by moving those from [src] on, same memory. *)
Fixpoint construct_moved (m : mem A) (src dst n : nat) : res (mem A) :=
  match n with
  | O => Ok m
  | S n =>
      ' am <- move_out m src ;;
      m <- construct (snd am) dst (fst am) ;;
      construct_moved m (S src) (S dst) n
  end.

(** ** Growth *)
(** 959-969: recommend. *)
Definition recommend (cap : nat) (new_size : Z) : res Z :=
  if ms <? new_size then Throw
  else if ms / 2 <=? Z.of_nat cap then Ok ms
  else Ok (Z.max (sz (2 * Z.of_nat cap)) new_size).
(** split_buffer.h 81-89. *)
Definition split_buffer (cap : Z) (start : nat) : sbuffer A := SBuf (repeat Raw (Z.to_nat cap)) start start.

(** 38-58: construct_backward: the objects [0, n) of [old] to the slots below begin2. *)
Fixpoint construct_backward (old new : mem A) (n begin2 : nat) {struct n} : res (mem A * mem A * nat) :=
  match n with
  | O => Ok (old, new, begin2)
  | S n =>
      match begin2 with
      | O => UB
      | S b =>
          ' ao <- move_out old n ;;
          new <- construct new b (fst ao) ;;
          construct_backward (snd ao) new n b
      end
  end.
(** 60-79: construct_forward: the objects [i, i + n) of [old] to the slots from end2. *)
Fixpoint construct_forward (old new : mem A) (i n end2 : nat) : res (mem A * mem A * nat) :=
  match n with
  | O => Ok (old, new, end2)
  | S n =>
      ' ao <- move_out old i ;;
      new <- construct new end2 (fst ao) ;;
      construct_forward (snd ao) new (S i) n (S end2)
  end.
(** split_buffer.h 113-118: the destructor, with the old buffer of the vector. *)
Definition release (old : mem A) (n : nat) : res unit :=
  m <- destroy_down old n n ;; deallocate m.
(** 1053-1061: swap_out_circular_buffer.  If the new first element is not at the start
    of the allocation, the later deallocation is UB. *)
Definition swap_out (v : vec A) (b : sbuffer A) : res (vec A) :=
  ' onb <- construct_backward (buf v) (sbuf b) (len v) (sbegin b) ;;
  let '(old, new, begin) := onb in
  if (begin =? 0)%nat then
    _ <- release old (len v) ;; Ok (Vec new (send b))
  else UB.
(** 1063-1076: the same around position p; also returns the position. *)
Definition swap_out_at (v : vec A) (b : sbuffer A) (p : nat) : res (vec A * nat) :=
  ' onb <- construct_backward (buf v) (sbuf b) p (sbegin b) ;;
  let '(old, new, begin) := onb in
  ' one <- construct_forward old new p (len v - p) (send b) ;;
  let '(old, new, e) := one in
  if (begin =? 0)%nat then
    _ <- release old (len v) ;; Ok (Vec new e, sbegin b)
  else UB.

(** ** Members *)
(** 469-478 *)
Definition reserve (v : vec A) (n : Z) : res (vec A) :=
  if Z.of_nat (capacity v) <? n then
    if ms <? n then Throw
    else swap_out v (split_buffer n (len v))
  else Ok v.
(** 480-493 *)
Definition shrink_to_fit (v : vec A) : res (vec A) :=
  if (len v <? capacity v)%nat then swap_out v (split_buffer (Z.of_nat (len v)) (len v)) else Ok v.
(** 1039-1041 *)
Definition clear (v : vec A) : res (vec A) := destruct_at_end v 0.
(** 249-254: the destructor. *)
Definition destruct (v : vec A) : res unit :=
  if (capacity v =? 0)%nat then Ok tt else v <- clear v ;; deallocate (buf v).

(** 562-584: push_back and emplace_back with the slow paths of 1120-1145; an rvalue is a
    value here. *)
Definition push_back (v : vec A) (x : ref A) : res (vec A) :=
  if (len v <? capacity v)%nat then
    a <- read_ref (buf v) x ;;
    m <- construct (buf v) (len v) a ;;
    Ok (Vec m (S (len v)))
  else
    cap <- recommend (capacity v) (sz (Z.of_nat (len v) + 1)) ;;
    let b := split_buffer cap (len v) in
    a <- read_ref (buf v) x ;;
    m <- construct (sbuf b) (send b) a ;;
    swap_out v (SBuf m (sbegin b) (S (send b))).
(** 586-588 *)
Definition pop_back (v : vec A) : res (vec A) :=
  match len v with O => UB | S n => destruct_at_end v n end.
(** 590-613: the value and the vector without it, for types with a nothrow move. *)
Definition pop_back_value (v : vec A) : res (A * vec A) :=
  match len v with
  | O => UB
  | S n => ' am <- move_out (buf v) n ;; v <- pop_back (Vec (snd am) (len v)) ;; Ok (fst am, v)
  end.

(** 1078-1091: move_range. *)
Definition move_range (v : vec A) (from_s from_e to : nat) : res (vec A) :=
  if (len v <? to)%nat then UB
  else
    let n := (len v - to)%nat in
    let i := (from_s + n)%nat in
    m <- construct_moved (buf v) i (len v) (from_e - i) ;;
    m <- move_backward m from_s (len v - n) n ;;
    Ok (Vec m (len v + (from_e - i))).
(** 615-638: insert( position, const & ); the element referred to moves along.  The new
    buffer always has room, so v.push_back only constructs. *)
Definition shift_ref (x : ref A) (p e by_ : nat) : ref A :=
  match x with
  | Val a => Val a
  | Elem i => if (p <=? i)%nat && (i <? e)%nat then Elem (i + by_) else Elem i
  end.
Definition insert (v : vec A) (p : nat) (x : ref A) : res (vec A * nat) :=
  if (len v <? p)%nat then UB
  else if (len v <? capacity v)%nat then
    if (p =? len v)%nat then
      a <- read_ref (buf v) x ;; m <- construct (buf v) (len v) a ;; Ok (Vec m (S (len v)), p)
    else
      v <- move_range v p (len v) (p + 1) ;;
      a <- read_ref (buf v) (shift_ref x p (len v) 1) ;;
      m <- assign_slot (buf v) p a ;;
      Ok (Vec m (len v), p)
  else
    cap <- recommend (capacity v) (sz (Z.of_nat (len v) + 1)) ;;
    let b := split_buffer cap p in
    a <- read_ref (buf v) x ;;
    m <- construct (sbuf b) (send b) a ;;
    swap_out_at v (SBuf m (sbegin b) (S (send b))) p.
(** 660-681 emplace and 640-658 insert( position, && ): the value is taken before
    anything moves (emplace) or is not an element of the vector (insert).
    Simplified: emplace names a class temp_value (668) that no header defines, so it
    does not compile when it is used; the model takes it to be an object that holds
    the value, as its use says. *)
Definition emplace (v : vec A) (p : nat) (x : ref A) : res (vec A * nat) :=
  if (len v <? p)%nat then UB
  else if (len v <? capacity v)%nat then
    if (p =? len v)%nat then
      a <- read_ref (buf v) x ;; m <- construct (buf v) (len v) a ;; Ok (Vec m (S (len v)), p)
    else
      a <- read_ref (buf v) x ;;
      v <- move_range v p (len v) (p + 1) ;;
      m <- assign_slot (buf v) p a ;;
      Ok (Vec m (len v), p)
  else
    cap <- recommend (capacity v) (sz (Z.of_nat (len v) + 1)) ;;
    let b := split_buffer cap p in
    a <- read_ref (buf v) x ;;
    m <- construct (sbuf b) (send b) a ;;
    swap_out_at v (SBuf m (sbegin b) (S (send b))) p.

(** 971-1004, 1147-1175: construct_at_end of [n] default values or copies of x. *)
Definition construct_at_end (v : vec A) (n : nat) (x : ref A) : res (vec A) :=
  m <- construct_n (buf v) (len v) n x None ;; Ok (Vec m (len v + n)).
Definition construct_at_end_list (v : vec A) (l : list A) : res (vec A) :=
  m <- construct_list (buf v) (len v) l ;; Ok (Vec m (len v + length l)).

(** 683-712: insert( position, n, x ). *)
Definition insert_n (v : vec A) (p : nat) (n : Z) (x : ref A) : res (vec A * nat) :=
  if (len v <? p)%nat then UB
  else if 0 <? n then
    if n <=? Z.of_nat (capacity v - len v) then
      let old_n := Z.to_nat n in
      let old_last := len v in
      let cx := (old_n - (len v - p))%nat in
      v <- (if (len v - p <? old_n)%nat then construct_at_end v cx x else Ok v) ;;
      let n := (old_n - cx)%nat in
      if (0 <? n)%nat then
        v <- move_range v p old_last (p + old_n) ;;
        m <- fill_n (buf v) p n (shift_ref x p (len v) old_n) ;;
        Ok (Vec m (len v), p)
      else Ok (v, p)
    else
      cap <- recommend (capacity v) (sz (Z.of_nat (len v) + n)) ;;
      let b := split_buffer cap p in
      m <- construct_n (sbuf b) (send b) (Z.to_nat n) x (Some (buf v)) ;;
      swap_out_at v (SBuf m (sbegin b) (send b + Z.to_nat n)) p
  else Ok (v, p).

(** 750-785: insert( position, first, last ) of forward iterators. *)
Definition insert_range (v : vec A) (p : nat) (l : list A) : res (vec A * nat) :=
  if (len v <? p)%nat then UB
  else if (0 <? length l)%nat then
    if (length l <=? capacity v - len v)%nat then
      let old_n := length l in
      let old_last := len v in
      let dx := (len v - p)%nat in
      v <- (if (dx <? old_n)%nat then construct_at_end_list v (skipn dx l) else Ok v) ;;
      let n := Nat.min old_n dx in
      if (0 <? n)%nat then
        v <- move_range v p old_last (p + old_n) ;;
        m <- assign_list (buf v) p (firstn n l) ;;
        Ok (Vec m (len v), p)
      else Ok (v, p)
    else
      cap <- recommend (capacity v) (sz (Z.of_nat (len v) + Z.of_nat (length l))) ;;
      let b := split_buffer cap p in
      m <- construct_list (sbuf b) (send b) l ;;
      swap_out_at v (SBuf m (sbegin b) (send b + length l)) p
  else Ok (v, p).

(** ** split_buffer as a container *)
Definition sb_size (b : sbuffer A) : nat := send b - sbegin b.
Definition sb_capacity (b : sbuffer A) : nat := length (sbuf b).
(** The lines here are those of split_buffer.h.  The elements are moved to a new buffer of [c] slots at [start], the old one is
    released: 226-235, 243-250, 265-274, 289-297. *)
Definition sb_realloc (b : sbuffer A) (c : Z) (start : nat) : res (sbuffer A) :=
  let t := split_buffer c start in
  ' one <- construct_forward (sbuf b) (sbuf t) (sbegin b) (sb_size b) (send t) ;;
  let '(old, new, e) := one in
  m <- destroy_down old (send b) (sb_size b) ;;
  _ <- deallocate m ;;
  Ok (SBuf new start e).
(** 226-236: reserve; 238-255: shrink_to_fit. *)
Definition sb_reserve (b : sbuffer A) (n : Z) : res (sbuffer A) :=
  if n <? Z.of_nat (sb_capacity b) then sb_realloc b n 0 else Ok b.
Definition sb_shrink_to_fit (b : sbuffer A) : res (sbuffer A) :=
  if (sb_size b <? sb_capacity b)%nat then sb_realloc b (Z.of_nat (sb_size b)) 0 else Ok b.
(** 257-279 and 304-327: push_front; max is read as std::max.  std::move_backward assigns
    to the slots behind end_, which are raw. *)
Definition sb_push_front (b : sbuffer A) (x : A) : res (sbuffer A) :=
  b <- (if (sbegin b =? 0)%nat then
          if (send b <? sb_capacity b)%nat then
            let d := ((sb_capacity b - send b + 1) / 2)%nat in
            m <- move_backward (sbuf b) (sbegin b) (sbegin b + d) (sb_size b) ;;
            Ok (SBuf m (sbegin b + d) (send b + d))
          else
            let c := Z.max (sz (2 * Z.of_nat (sb_capacity b))) 1 in
            sb_realloc b c (Z.to_nat ((c + 3) / 4))
        else Ok b) ;;
  match sbegin b with
  | O => UB
  | S i => m <- construct (sbuf b) i x ;; Ok (SBuf m i (send b))
  end.
(** 281-302, 329-351 and 353-376: push_back, emplace_back. *)
Definition sb_push_back (b : sbuffer A) (x : A) : res (sbuffer A) :=
  b <- (if (send b =? sb_capacity b)%nat then
          if (0 <? sbegin b)%nat then
            let d := ((sbegin b + 1) / 2)%nat in
            m <- move_forward (sbuf b) (sbegin b) (sbegin b - d) (sb_size b) ;;
            Ok (SBuf m (sbegin b - d) (send b - d))
          else
            let c := Z.max (sz (2 * Z.of_nat (sb_capacity b))) 1 in
            sb_realloc b c (Z.to_nat (c / 4))
        else Ok b) ;;
  m <- construct (sbuf b) (send b) x ;;
  Ok (SBuf m (sbegin b) (S (send b))).
(** 378-383, 440-467 *)
Definition sb_pop_front (b : sbuffer A) : res (sbuffer A) :=
  if (sbegin b <? send b)%nat then m <- destroy (sbuf b) (sbegin b) ;; Ok (SBuf m (S (sbegin b)) (send b)) else UB.
Definition sb_pop_back (b : sbuffer A) : res (sbuffer A) :=
  if (sbegin b <? send b)%nat then m <- destroy (sbuf b) (send b - 1) ;; Ok (SBuf m (sbegin b) (send b - 1)) else UB.
(** 412-429: construct_at_end of input iterators. *)
Fixpoint sb_construct_input (b : sbuffer A) (l : list A) : res (sbuffer A) :=
  match l with
  | [] => Ok b
  | a :: l =>
      b <- (if (send b =? sb_capacity b)%nat then sb_realloc b (Z.max (sz (2 * Z.of_nat (sb_capacity b))) 8) 0 else Ok b) ;;
      m <- construct (sbuf b) (send b) a ;;
      sb_construct_input (SBuf m (sbegin b) (S (send b))) l
  end.

(** ** More members *)
(** std::rotate( p, mid, m_end ) of the objects. *)
Fixpoint read_all (m : mem A) (pos n : nat) : res (list A) :=
  match n with
  | O => Ok []
  | S n => a <- read m pos ;; l <- read_all m (S pos) n ;; Ok (a :: l)
  end.
Definition rotate (v : vec A) (p mid : nat) : res (vec A * nat) :=
  l1 <- read_all (buf v) p (mid - p) ;;
  l2 <- read_all (buf v) mid (len v - mid) ;;
  m <- assign_list (buf v) p (l2 ++ l1) ;;
  Ok (Vec m (len v), (p + (len v - mid))%nat).
(** 714-748: insert( position, first, last ) of input iterators.  The elements that do
    not fit are first collected in a split_buffer; that its objects are moved out and
    destroyed at the end is left out. *)
Definition insert_input (v : vec A) (p : nat) (l : list A) : res (vec A * nat) :=
  if (len v <? p)%nat then UB
  else
    let old_last := len v in
    let room := (capacity v - len v)%nat in
    v <- construct_at_end_list v (firstn room l) ;;
    let rest := skipn room l in
    b <- sb_construct_input (SBuf [] 0 0) rest ;;
    v <- (match rest with
          | [] => Ok v
          | _ => n <- recommend (capacity v) (sz (Z.of_nat (len v) + Z.of_nat (sb_size b))) ;; reserve v n
          end) ;;
    ' vp <- rotate v p old_last ;;
    collected <- read_all (sbuf b) (sbegin b) (sb_size b) ;;
    ' vp <- insert_range (fst vp) (snd vp) collected ;;
    Ok (fst vp, p).

(** 792-798 and 800-807: erase. *)
Definition erase (v : vec A) (p : nat) : res (vec A * nat) :=
  if (len v <=? p)%nat then UB
  else
    m <- move_forward (buf v) (p + 1) p (len v - (p + 1)) ;;
    v <- destruct_at_end (Vec m (len v)) (p + (len v - (p + 1))) ;;
    Ok (v, p).
Definition erase_range (v : vec A) (p q : nat) : res (vec A * nat) :=
  if (q <? p)%nat || (len v <? q)%nat then UB
  else if (p =? q)%nat then Ok (v, p)
  else
    m <- move_forward (buf v) q p (len v - q) ;;
    v <- destruct_at_end (Vec m (len v)) (p + (len v - q)) ;;
    Ok (v, p).
(** 1294-1308: erase and erase_if; std::remove_if leaves the survivors in front and
    moved-from objects behind. *)
Definition erase_if (v : vec A) (pred : A -> bool) : res (vec A * Z) :=
  l <- read_all (buf v) 0 (len v) ;;
  let keep := filter (fun a => negb (pred a)) l in
  let m := map Obj keep ++ repeat Moved (length l - length keep) ++ skipn (len v) (buf v) in
  ' vp <- erase_range (Vec m (len v)) (length keep) (len v) ;;
  Ok (fst vp, sz (Z.of_nat (len v) - Z.of_nat (len (fst vp)))).

(** 1010-1020 and 1027-1037: append of [n] default values or copies of x. *)
Definition append (v : vec A) (n : Z) (x : ref A) : res (vec A) :=
  if n <=? Z.of_nat (capacity v - len v) then construct_at_end v (Z.to_nat n) x
  else
    cap <- recommend (capacity v) (sz (Z.of_nat (len v) + n)) ;;
    let b := split_buffer cap (len v) in
    m <- construct_n (sbuf b) (send b) (Z.to_nat n) x (Some (buf v)) ;;
    swap_out v (SBuf m (sbegin b) (send b + Z.to_nat n)).
(** 809-816 and 818-825: resize. *)
Definition resize_ref (v : vec A) (n : Z) (x : ref A) : res (vec A) :=
  if Z.of_nat (len v) <? n then append v (n - Z.of_nat (len v)) x
  else if n <? Z.of_nat (len v) then destruct_at_end v (Z.to_nat n)
  else Ok v.
Definition resize (v : vec A) (n : Z) : res (vec A) := resize_ref v n (Val dflt).

(** 943-949 vallocate, 951-957 vdeallocate. *)
Definition vallocate (n : Z) : res (vec A) := if ms <? n then Throw else Ok (Vec (repeat Raw (Z.to_nat n)) 0).
Definition vdeallocate (v : vec A) : res unit :=
  if (capacity v =? 0)%nat then Ok tt else v <- clear v ;; deallocate (buf v).
(** 350-375: assign( first, last ) of forward iterators. *)
Definition assign (v : vec A) (l : list A) : res (vec A) :=
  if (length l <=? capacity v)%nat then
    m <- assign_list (buf v) 0 (firstn (len v) l) ;;
    let v' := Vec m (len v) in
    if (len v <? length l)%nat then construct_at_end_list v' (skipn (len v) l)
    else destruct_at_end v' (length l)
  else
    _ <- vdeallocate v ;;
    (* recommend is called after the vector was emptied: capacity( ) is 0 *)
    n <- recommend 0 (Z.of_nat (length l)) ;;
    v <- vallocate n ;;
    construct_at_end_list v l.
(** 377-390: assign( n, u ).  After vdeallocate a reference to an element dangles. *)
Definition assign_n (v : vec A) (n : Z) (u : ref A) : res (vec A) :=
  if n <=? Z.of_nat (capacity v) then
    m <- fill_n (buf v) 0 (Nat.min (Z.to_nat n) (len v)) u ;;
    let v' := Vec m (len v) in
    if (len v <? Z.to_nat n)%nat then construct_at_end v' (Z.to_nat n - len v) u
    else destruct_at_end v' (Z.to_nat n)
  else
    _ <- vdeallocate v ;;
    n' <- recommend 0 n ;;
    v <- vallocate n' ;;
    match u with
    | Val _ => construct_at_end v (Z.to_nat n) u
    | Elem _ => UB
    end.

(** 139-177, 222-247, 286-294: the constructors from sizes, forward ranges and
    initializer_lists. *)
Definition empty_vec : vec A := Vec [] 0.
Definition make_n (n : Z) (x : A) : res (vec A) :=
  if 0 <? n then v <- vallocate n ;; construct_at_end v (Z.to_nat n) (Val x) else Ok empty_vec.
Definition make_range (l : list A) : res (vec A) :=
  if (0 <? length l)%nat then v <- vallocate (Z.of_nat (length l)) ;; construct_at_end_list v l else Ok empty_vec.
(** 196-220 and 338-348: from input iterators. *)
Fixpoint emplace_all (v : vec A) (l : list A) : res (vec A) :=
  match l with [] => Ok v | a :: l => v <- push_back v (Val a) ;; emplace_all v l end.
Definition make_input (l : list A) : res (vec A) := emplace_all empty_vec l.
Definition assign_input (v : vec A) (l : list A) : res (vec A) := v <- clear v ;; emplace_all v l.
(** 256-276 *)
Definition copy (x : vec A) : res (vec A) := l <- read_all (buf x) 0 (len x) ;; make_range l.
(** 278-284, 296-321, 327-336 and 1104-1114: assignments and moves (of different
    vectors). *)
Definition copy_assign (v x : vec A) : res (vec A) := l <- read_all (buf x) 0 (len x) ;; assign v l.
Definition move_construct (x : vec A) : vec A * vec A := (x, empty_vec).
Definition move_assign (v x : vec A) : res (vec A * vec A) := _ <- vdeallocate v ;; Ok (x, empty_vec).
(** 926-933 *)
Definition swap (x y : vec A) : vec A * vec A := (y, x).

(** Access: 448-467 and 495-544. *)
Definition index (v : vec A) (n : nat) : res A := read (buf v) n.
Definition at_ (v : vec A) (n : Z) : res A := if Z.of_nat (len v) <=? n then Throw else read (buf v) (Z.to_nat n).
Definition front (v : vec A) : res A := read (buf v) 0.
Definition back (v : vec A) : res A := match len v with O => UB | S n => read (buf v) n end.
Definition size (v : vec A) : Z := Z.of_nat (len v).
Definition is_empty (v : vec A) : bool := (len v =? 0)%nat.
(** 1244-1275: comparisons; [eqb], [ltb] of the elements. *)
Fixpoint list_eq (eqb : A -> A -> bool) (l1 l2 : list A) : bool :=
  match l1, l2 with
  | [], [] => true
  | x :: l1, y :: l2 => eqb x y && list_eq eqb l1 l2
  | _, _ => false
  end.
Definition equal (eqb : A -> A -> bool) (x y : vec A) : res bool :=
  if (len x =? len y)%nat then
    l1 <- read_all (buf x) 0 (len x) ;; l2 <- read_all (buf y) 0 (len y) ;; Ok (list_eq eqb l1 l2)
  else Ok false.
Fixpoint lex (ltb : A -> A -> bool) (l1 l2 : list A) : bool :=
  match l1, l2 with
  | _, [] => false
  | [], _ :: _ => true
  | x :: l1, y :: l2 => if ltb x y then true else if ltb y x then false else lex ltb l1 l2
  end.
Definition less (ltb : A -> A -> bool) (x y : vec A) : res bool :=
  l1 <- read_all (buf x) 0 (len x) ;; l2 <- read_all (buf y) 0 (len y) ;; Ok (lex ltb l1 l2).

(** ** resize_and_overwrite (827-877) and append_and_overwrite (879-924), for trivial
    types.  A failed assert is UB.  [operation] gets the storage (the slots from the given position on) and the
    number of elements and returns the new storage and its result. *)
Definition resize_and_overwrite (v : vec A) (n : Z) (operation : mem A -> Z -> mem A * Z) : res (vec A * Z) :=
  v <- (if Z.of_nat (capacity v) <? n then reserve v n else Ok v) ;;
  let (m, result) := operation (buf v) n in
  let new_size := Z.max 0 result in
  if n <? new_size then UB
  else
    v <- (if new_size <? n then destruct_at_end (Vec m (len v)) (Z.to_nat new_size) else Ok (Vec m (len v))) ;;
    Ok (Vec (buf v) (Z.to_nat new_size), result).
Definition append_and_overwrite (v : vec A) (n : Z) (operation : mem A -> Z -> mem A * Z) : res (vec A * Z) :=
  let wanted := sz (Z.of_nat (len v) + n) in
  v <- (if Z.of_nat (capacity v) <? wanted then reserve v wanted else Ok v) ;;
  let (m, result) := operation (skipn (len v) (buf v)) n in
  let append_count := Z.max 0 result in
  if n <? append_count then UB
  else Ok (Vec (firstn (len v) (buf v) ++ m) (len v + Z.to_nat append_count), result).
(** 1310-1331: block_append_from, with resize_and_overwrite inlined; cur_size is increased
    before the loop that copies ([copy_block], 1322-1326).  1333-1341 block_create_from
    starts with an empty vector. *)
Fixpoint copy_block (fuel : nat) (cur_size sz_ : Z) (m : mem A) (pos : nat) (l : list A) : res (mem A * list A) :=
  match fuel with
  | O => OutOfFuel
  | S fuel =>
      if (cur_size <? sz_) then
        match l with
        | [] => Ok (m, [])
        | a :: l => m <- assign_slot m pos a ;; copy_block fuel cur_size sz_ m (S pos) l
        end
      else Ok (m, l)
  end.
Fixpoint block_append_from (fuel : nat) (v : vec A) (cur_size : Z) (l : list A) (block_size : Z) : res (vec A) :=
  match fuel with
  | O => OutOfFuel
  | S fuel =>
      match l with
      | [] => Ok v
      | _ =>
          let n := sz (cur_size + block_size) in
          v <- (if Z.of_nat (capacity v) <? n then reserve v n else Ok v) ;;
          let pos := Z.to_nat cur_size in
          let cur_size := n in
          ' ml <- copy_block fuel cur_size n (buf v) pos l ;;
          block_append_from fuel (Vec (fst ml) (Z.to_nat cur_size)) cur_size (snd ml) block_size
      end
  end.

End Vector.

(** include/daw/vector_algorithm.h 25-55: iota_op, an operation for
    resize_and_overwrite.  T is an integer type; value and last are compared as T and as
    the promoted T.  The fuel is more than there is storage, beyond which the
    construction is UB. *)
Fixpoint iota_loop (T : ity) (trivial : bool) (fuel : nat) (m : mem Z) (pos : nat) (value step last : Z) : res (mem Z) :=
  if value <? last then
    match fuel with
    | O => OutOfFuel
    | S fuel =>
        m <- construct trivial m pos value ;;
        value <- assign_op T (value + step) ;;
        iota_loop T trivial fuel m (S pos) value step last
    end
  else Ok m.
Definition iota_op (T : ity) (trivial : bool) (first step : Z) (m : mem Z) (n : Z) : res (mem Z * Z) :=
  d <- calc (promote T) (conv T n * step) ;;
  last <- calc (promote T) (first + d) ;;
  m <- iota_loop T trivial (S (length m)) m 0 first step last ;;
  Ok (m, n).
