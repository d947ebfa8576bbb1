(** Model of the views over existing memory: daw_span.h, daw_contiguous_view.h,
    daw_iter_view.h, daw_view.h, daw_span_writer.h, and of daw_keep_n.h.  No proofs in
    this file.

    [mem] is the array the pointers or iterators point into; a pointer is its offset,
    and pointer arithmetic that leaves the array is UB ([move]), as is reading outside
    it ([at_pos]).  A null pointer is offset 0 of an array without elements.  A view
    is copied by value.  size_t has 64 bits.  [dbg] says whether assert is compiled in;
    a failed one is [Throw], as is a failed daw_ensure.  Lifetimes are not modelled. *)
From Verif Require Import Common Ints Math Pipelines AlgSearch AlgCompare Iterators.
Open Scope Z_scope.

(** *p = x. *)
Definition set_pos {A} (l : list A) (p : Z) (x : A) : res (list A) :=
  if p <? 0 then UB else wr l (Z.to_nat p) x.
(** A loop with ++ from [first] to [last], and one from std::reverse_iterator{ last }
    to std::reverse_iterator{ first }. *)
Definition ptr_range {A} (mem : list A) (first last : Z) : range A :=
  forward Z first (fun p => p =? last) (at_pos mem) (fun p => move (zlen mem) p 1).
Definition rev_range {A} (mem : list A) (first last : Z) : range A :=
  forward Z last (fun p => p =? first)
    (fun p => q <- move (zlen mem) p (-1) ;; at_pos mem q) (fun p => move (zlen mem) p (-1)).
(** The elements of [first, last), as an algorithm of the standard library reads them. *)
Fixpoint read_from {A} (fuel : nat) (mem : list A) (first last : Z) : res (list A) :=
  if first =? last then Ok []
  else match fuel with
       | O => UB
       | S fuel => x <- at_pos mem first ;; xs <- read_from fuel mem (first + 1) last ;; Ok (x :: xs)
       end.
Definition read_range {A} (mem : list A) (first last : Z) : res (list A) :=
  read_from (length mem) mem first last.
(** std::equal with one end, after the sizes were compared. *)
Fixpoint same {A} (eqb : A -> A -> bool) (l1 l2 : list A) : bool :=
  match l1, l2 with
  | [], [] => true
  | x :: l1, y :: l2 => if eqb x y then same eqb l1 l2 else false
  | _, _ => false
  end.

(** * daw_span.h.  38-215 is span<T const>, 217-485 span<T>; where the two agree only
    the lines of the first are given. *)
Record span := Span { sp_first : Z; sp_size : Z }.
(** 59-61 from a pointer and a size, 63-67 from two pointers. *)
Definition sp_make (first count : Z) : span := Span first count.
Definition sp_between (first last : Z) : res span :=
  d <- calc i64 (last - first) ;; Ok (Span first (if 0 <? d then conv u64 d else 0)).
(** 93-99 end; a loop begin to end, rbegin (101-103) to rend (109-111). *)
Definition sp_end {A} (mem : list A) (s : span) : res Z := move (zlen mem) (sp_first s) (sp_size s).
Definition sp_range {A} (mem : list A) (s : span) : res (range A) :=
  e <- sp_end mem s ;; Ok (ptr_range mem (sp_first s) e).
Definition sp_rrange {A} (mem : list A) (s : span) : res (range A) :=
  e <- sp_end mem s ;; Ok (rev_range mem (sp_first s) e).
(** 105-107 crbegin to crend: 113-115 makes crend of span<T const> from cend; 352-354
    makes that of span<T> from cbegin. *)
Definition sp_crrange {A} (const : bool) (mem : list A) (s : span) : res (range A) :=
  e <- sp_end mem s ;; Ok (rev_range mem (if const then e else sp_first s) e).
(** 117-119 operator[] and writing through the reference of 356-358. *)
Definition sp_get {A} (mem : list A) (s : span) (pos : Z) : res A :=
  p <- move (zlen mem) (sp_first s) pos ;; at_pos mem p.
Definition sp_set {A} (mem : list A) (s : span) (pos : Z) (x : A) : res (list A) :=
  p <- move (zlen mem) (sp_first s) pos ;; set_pos mem p x.
(** 121-126 at. *)
Definition sp_at {A} (mem : list A) (s : span) (pos : Z) : res A :=
  if pos <? sp_size s then sp_get mem s pos else Throw.
(** 128-134 front and back; std::next converts m_size - 1 to ptrdiff_t. *)
Definition sp_front {A} (mem : list A) (s : span) : res A := at_pos mem (sp_first s).
Definition sp_back {A} (mem : list A) (s : span) : res A :=
  p <- move (zlen mem) (sp_first s) (conv i64 (sz (sp_size s - 1))) ;; at_pos mem p.
(** 148-150 empty. *)
Definition sp_empty (s : span) : bool := sp_size s =? 0.
(** 152-159 remove_prefix, 161-167 remove_suffix: no check. *)
Definition sp_remove_prefix {A} (mem : list A) (s : span) (n : Z) : res span :=
  p <- move (zlen mem) (sp_first s) n ;; Ok (Span p (sz (sp_size s - n))).
Definition sp_remove_suffix (s : span) (n : Z) : span := Span (sp_first s) (sz (sp_size s - n)).
(** 205-213 subspan (const T) and 466-474 (T). *)
Definition sp_subspan {A} (mem : list A) (s : span) (pos count : Z) : res span :=
  if pos <=? sp_size s then
    p <- move (zlen mem) (sp_first s) pos ;; Ok (Span p (Z.min count (sz (sp_size s - pos))))
  else Throw.
(** 169-174 and 182-187: one element; the result is what was read and the new span. *)
Definition sp_pop_front {A} (mem : list A) (s : span) : res (A * span) :=
  x <- sp_front mem s ;; s <- sp_remove_prefix mem s 1 ;; Ok (x, s).
Definition sp_pop_back {A} (mem : list A) (s : span) : res (A * span) :=
  x <- sp_back mem s ;; Ok (x, sp_remove_suffix s 1).
(** 176-180 and 189-193: n elements. *)
Definition sp_pop_front_n {A} (mem : list A) (s : span) (n : Z) : res (span * span) :=
  r <- sp_subspan mem s 0 n ;; s <- sp_remove_prefix mem s n ;; Ok (r, s).
Definition sp_pop_back_n {A} (mem : list A) (s : span) (n : Z) : res (span * span) :=
  r <- sp_subspan mem s (sz (sp_size s - n)) n ;; Ok (r, sp_remove_suffix s n).
(** 456-464 pop (span<T>; the one of span<T const> assigns to a const). *)
Definition sp_pop {A} (mem : list A) (s : span) : res (option A * span) :=
  if sp_empty s then Ok (None, s)
  else x <- sp_back mem s ;; Ok (Some x, sp_remove_suffix s 1).

(** * daw_contiguous_view.h.  45-430 is contiguous_view<T>, 432-807 contiguous_view<T
    const>; the lines given are those of the second.  The iterators (wrap_iter) are
    pointers. *)
Record cview := CView { cv_first : Z; cv_last : Z }.
(** 459-465. *)
Definition cv_between (first last : Z) : cview := CView first last.
Definition cv_make {A} (mem : list A) (first n : Z) : res cview :=
  e <- move (zlen mem) first n ;; Ok (CView first e).
(** 577-583 size and empty. *)
Definition cv_size (v : cview) : Z := conv u64 (cv_last v - cv_first v).
Definition cv_empty (v : cview) : bool := cv_first v =? cv_last v.
(** 487-491 subspan; the one of contiguous_view<T> (90-95) does not compile. *)
Definition cv_subspan {A} (mem : list A) (v : cview) (offset count : Z) : res cview :=
  let size := cv_size v in
  let n := Z.min count (sz (size - Z.min size offset)) in
  p <- move (zlen mem) (cv_first v) offset ;; q <- move (zlen mem) (cv_first v) n ;; Ok (CView p q).
(** 585-594 operator[] (const T); 189-198 (T), whose assertion lets the end through. *)
Definition cv_get {A} (const dbg : bool) (mem : list A) (v : cview) (i : Z) : res A :=
  _ <- check dbg (if const then i <? cv_size v else i <=? cv_size v) ;;
  p <- move (zlen mem) (cv_first v) i ;; at_pos mem p.
Definition cv_set {A} (dbg : bool) (mem : list A) (v : cview) (i : Z) (x : A) : res (list A) :=
  _ <- check dbg (i <=? cv_size v) ;; p <- move (zlen mem) (cv_first v) i ;; set_pos mem p x.
(** 602-614 at. *)
Definition cv_at {A} (mem : list A) (v : cview) (i : Z) : res A :=
  if cv_size v <=? i then Throw else p <- move (zlen mem) (cv_first v) i ;; at_pos mem p.
(** 200-218 front and back (contiguous_view<T> only). *)
Definition cv_front {A} (dbg : bool) (mem : list A) (v : cview) : res A :=
  _ <- check dbg (negb (cv_empty v)) ;; at_pos mem (cv_first v).
Definition cv_back {A} (dbg : bool) (mem : list A) (v : cview) : res A :=
  _ <- check dbg (negb (cv_empty v)) ;; p <- move (zlen mem) (cv_last v) (-1) ;; at_pos mem p.
(** 616-619 and 627-629 remove_prefix, 631-634 and 642-644 remove_suffix. *)
Definition cv_remove_prefix {A} (mem : list A) (v : cview) (count : Z) : res cview :=
  p <- move (zlen mem) (cv_first v) (Z.min count (cv_size v)) ;; Ok (CView p (cv_last v)).
Definition cv_remove_suffix {A} (mem : list A) (v : cview) (count : Z) : res cview :=
  p <- move (zlen mem) (cv_last v) (- Z.min count (cv_size v)) ;; Ok (CView (cv_first v) p).
(** 621-625 and 636-640, with dont_clip_to_bounds. *)
Definition cv_remove_prefix_dc {A} (dbg : bool) (mem : list A) (v : cview) (count : Z) : res cview :=
  _ <- check dbg (count <=? cv_size v) ;;
  p <- move (zlen mem) (cv_first v) count ;; Ok (CView p (cv_last v)).
Definition cv_remove_suffix_dc {A} (dbg : bool) (mem : list A) (v : cview) (count : Z) : res cview :=
  _ <- check dbg (count <=? cv_size v) ;;
  p <- move (zlen mem) (cv_last v) (- count) ;; Ok (CView (cv_first v) p).
(** 646-654 pop_front and pop_back. *)
Definition cv_pop_front {A} (dbg : bool) (mem : list A) (v : cview) : res (A * cview) :=
  _ <- check dbg (negb (cv_empty v)) ;;
  x <- at_pos mem (cv_first v) ;; p <- move (zlen mem) (cv_first v) 1 ;; Ok (x, CView p (cv_last v)).
Definition cv_pop_back {A} (dbg : bool) (mem : list A) (v : cview) : res (A * cview) :=
  _ <- check dbg (negb (cv_empty v)) ;;
  p <- move (zlen mem) (cv_last v) (-1) ;; x <- at_pos mem p ;; Ok (x, CView (cv_first v) p).
(** 494-511 add_prefix and add_suffix. *)
Definition cv_add_prefix {A} (mem : list A) (v : cview) (n : Z) : res cview :=
  p <- move (zlen mem) (cv_first v) (- n) ;; Ok (CView p (cv_last v)).
Definition cv_add_suffix {A} (mem : list A) (v : cview) (n : Z) : res cview :=
  p <- move (zlen mem) (cv_last v) n ;; Ok (CView (cv_first v) p).
(** while( pos != last and p( *pos ) ) { ++pos; }: the loop of 657-691, also that of
    daw_iter_view.h 229-268. *)
Fixpoint scan {A} (fuel : nat) (mem : list A) (p : A -> bool) (pos last : Z) : res Z :=
  if pos =? last then Ok pos
  else x <- at_pos mem pos ;;
       if p x then
         match fuel with
         | O => OutOfFuel
         | S fuel => q <- move (zlen mem) pos 1 ;; scan fuel mem p q last
         end
       else Ok pos.
Section Needle.
  Context {A : Type} (eqb : A -> A -> bool).
  (** *pos != needle and *pos == needle. *)
  Definition differs (needle x : A) : bool := negb (eqb x needle).
  Definition equals (needle x : A) : bool := eqb x needle.
  (** 694-711 find and find_first_not_of. *)
  Definition cv_find (mem : list A) (v : cview) (needle : A) : res Z :=
    scan (length mem) mem (differs needle) (cv_first v) (cv_last v).
  Definition cv_find_not (mem : list A) (v : cview) (needle : A) : res Z :=
    scan (length mem) mem (equals needle) (cv_first v) (cv_last v).
  (** 720-726 and 735-740 remove_prefix_until and remove_prefix_while. *)
  Definition cv_until (dbg : bool) (mem : list A) (v : cview) (needle : A) : res cview :=
    pos <- cv_find mem v needle ;; cv_remove_prefix_dc dbg mem v (conv u64 (pos - cv_first v)).
  Definition cv_while (dbg : bool) (mem : list A) (v : cview) (needle : A) : res cview :=
    pos <- cv_find_not mem v needle ;; cv_remove_prefix_dc dbg mem v (conv u64 (pos - cv_first v)).
  (** 713-718 and 728-733, with discard. *)
  Definition cv_until_discard (mem : list A) (v : cview) (needle : A) : res cview :=
    pos <- cv_find mem v needle ;; cv_remove_prefix mem v (conv u64 (pos - cv_first v + 1)).
  Definition cv_while_discard (mem : list A) (v : cview) (needle : A) : res cview :=
    pos <- cv_find_not mem v needle ;; cv_remove_prefix mem v (conv u64 (pos - cv_first v + 1)).
  (** 742-773 pop_front_until and pop_front_while: the result and the new view. *)
  Definition cv_pop_until (dbg : bool) (mem : list A) (v : cview) (needle : A) : res (cview * cview) :=
    w <- cv_until dbg mem v needle ;; Ok (CView (cv_first v) (cv_first w), w).
  Definition cv_pop_until_discard (dbg : bool) (mem : list A) (v : cview) (needle : A) : res (cview * cview) :=
    w <- cv_until dbg mem v needle ;;
    let r := CView (cv_first v) (cv_first w) in
    w <- cv_remove_prefix mem w 1 ;; Ok (r, w).
  Definition cv_pop_while (dbg : bool) (mem : list A) (v : cview) (needle : A) : res (cview * cview) :=
    w <- cv_while dbg mem v needle ;; Ok (CView (cv_first v) (cv_first w), w).
  Definition cv_pop_while_discard (dbg : bool) (mem : list A) (v : cview) (needle : A) : res (cview * cview) :=
    w <- cv_while dbg mem v needle ;;
    let r := CView (cv_first v) (cv_first w) in
    w <- cv_remove_prefix mem w 1 ;; Ok (r, w).
  (** 774-784 == and !=. *)
  Definition cv_eq (mem : list A) (x y : cview) : res bool :=
    if cv_size x =? cv_size y then
      l1 <- read_range mem (cv_first x) (cv_last x) ;; l2 <- read_range mem (cv_first y) (cv_last y) ;;
      Ok (same eqb l1 l2)
    else Ok false.
End Needle.
(** 786-805 <; the others are y < x and their negations. *)
Definition cv_lt {A} (ltb : A -> A -> bool) (mem : list A) (x y : cview) : res bool :=
  l1 <- read_range mem (cv_first x) (cv_last x) ;; l2 <- read_range mem (cv_first y) (cv_last y) ;;
  Ok (lexicographical_compare ltb l1 l2).

(** * daw_iter_view.h, with first and last iterators of one type. *)
Record iview := IView { iv_first : Z; iv_last : Z; iv_size : Z }.
(** 89-91 from two iterators (the size by 59-84), 93-96 from an iterator and a size. *)
Definition iv_between (first last : Z) : iview := IView first last (conv u64 (last - first)).
Definition iv_make {A} (mem : list A) (first n : Z) : res iview :=
  e <- move (zlen mem) first (conv i64 n) ;; Ok (IView first e n).
(** 108-113 subspan. *)
Definition iv_subspan {A} (mem : list A) (v : iview) (offset count : Z) : res iview :=
  let n := Z.min count (sz (iv_size v - Z.min (iv_size v) offset)) in
  p <- move (zlen mem) (iv_first v) (conv i64 offset) ;; q <- move (zlen mem) (iv_first v) (conv i64 n) ;;
  Ok (iv_between p q).
(** 120-129 add_prefix. *)
Definition iv_add_prefix {A} (mem : list A) (v : iview) (n : Z) : res iview :=
  p <- move (zlen mem) (iv_first v) (- conv i64 n) ;; Ok (IView p (iv_last v) (sz (iv_size v + n))).
(** 179-181 empty, 183-191 front, 193-201 operator[]. *)
Definition iv_empty (v : iview) : bool := iv_size v =? 0.
Definition iv_front {A} (dbg : bool) (mem : list A) (v : iview) : res A :=
  _ <- check dbg (negb (iv_empty v)) ;; at_pos mem (iv_first v).
Definition iv_get {A} (dbg : bool) (mem : list A) (v : iview) (i : Z) : res A :=
  _ <- check dbg (i <? iv_size v) ;; p <- move (zlen mem) (iv_first v) (conv i64 i) ;; at_pos mem p.
Definition iv_set {A} (dbg : bool) (mem : list A) (v : iview) (i : Z) (x : A) : res (list A) :=
  _ <- check dbg (i <? iv_size v) ;; p <- move (zlen mem) (iv_first v) (conv i64 i) ;; set_pos mem p x.
(** 203-207 remove_prefix( count ), 209-213 with dont_clip_to_bounds, 215-218 remove_prefix( ). *)
Definition iv_remove_prefix {A} (mem : list A) (v : iview) (count : Z) : res iview :=
  let c := Z.min count (iv_size v) in
  p <- move (zlen mem) (iv_first v) (conv i64 c) ;; Ok (IView p (iv_last v) (sz (iv_size v - c))).
Definition iv_remove_prefix_dc {A} (dbg : bool) (mem : list A) (v : iview) (count : Z) : res iview :=
  _ <- check dbg (count <? iv_size v) ;;
  p <- move (zlen mem) (iv_first v) (conv i64 count) ;; Ok (IView p (iv_last v) (sz (iv_size v - count))).
Definition iv_remove_one {A} (dbg : bool) (mem : list A) (v : iview) : res iview :=
  _ <- check dbg (negb (iv_empty v)) ;; iv_remove_prefix mem v 1.
(** 220-226 pop_front: the element is read after the step. *)
Definition iv_pop_front {A} (dbg : bool) (mem : list A) (v : iview) : res (A * iview) :=
  _ <- check dbg (negb (iv_empty v)) ;;
  p <- move (zlen mem) (iv_first v) 1 ;; x <- at_pos mem (iv_first v) ;;
  Ok (x, IView p (iv_last v) (sz (iv_size v - 1))).
Section IterNeedle.
  Context {A : Type} (eqb : A -> A -> bool).
  (** 272-289 find and find_first_not_of; count_from_start is the distance walked. *)
  Definition iv_find (mem : list A) (v : iview) (needle : A) : res Z :=
    scan (length mem) mem (differs eqb needle) (iv_first v) (iv_last v).
  Definition iv_find_not (mem : list A) (v : iview) (needle : A) : res Z :=
    scan (length mem) mem (equals eqb needle) (iv_first v) (iv_last v).
  (** 303-308 and 322-327 remove_prefix_until and remove_prefix_while. *)
  Definition iv_skip_to (v : iview) (pos : Z) : iview :=
    IView pos (iv_last v) (sz (iv_size v - conv u64 (pos - iv_first v))).
  Definition iv_until (mem : list A) (v : iview) (needle : A) : res iview :=
    pos <- iv_find mem v needle ;; Ok (iv_skip_to v pos).
  Definition iv_while (mem : list A) (v : iview) (needle : A) : res iview :=
    pos <- iv_find_not mem v needle ;; Ok (iv_skip_to v pos).
  (** 291-301 and 310-320, with discard. *)
  Definition iv_drop_one (mem : list A) (v : iview) : res iview :=
    if iv_empty v then Ok v
    else p <- move (zlen mem) (iv_first v) 1 ;; Ok (IView p (iv_last v) (sz (iv_size v - 1))).
  Definition iv_until_discard (mem : list A) (v : iview) (needle : A) : res iview :=
    w <- iv_until mem v needle ;; iv_drop_one mem w.
  Definition iv_while_discard (mem : list A) (v : iview) (needle : A) : res iview :=
    w <- iv_while mem v needle ;; iv_drop_one mem w.
  (** 329-359 pop_front_until and pop_front_while. *)
  Definition iv_pop_until (mem : list A) (v : iview) (needle : A) : res (iview * iview) :=
    w <- iv_until mem v needle ;; Ok (iv_between (iv_first v) (iv_first w), w).
  Definition iv_pop_until_discard (dbg : bool) (mem : list A) (v : iview) (needle : A) : res (iview * iview) :=
    w <- iv_until mem v needle ;;
    let r := iv_between (iv_first v) (iv_first w) in
    w <- iv_remove_one dbg mem w ;; Ok (r, w).
  Definition iv_pop_while (mem : list A) (v : iview) (needle : A) : res (iview * iview) :=
    w <- iv_while mem v needle ;; Ok (iv_between (iv_first v) (iv_first w), w).
  Definition iv_pop_while_discard (dbg : bool) (mem : list A) (v : iview) (needle : A) : res (iview * iview) :=
    w <- iv_while mem v needle ;;
    let r := iv_between (iv_first v) (iv_first w) in
    w <- iv_remove_one dbg mem w ;; Ok (r, w).
  (** 374-378 ==: std::equal with both ends compares the lengths again. *)
  Definition iv_eq (mem : list A) (x y : iview) : res bool :=
    if iv_size x =? iv_size y then
      l1 <- read_range mem (iv_first x) (iv_last x) ;; l2 <- read_range mem (iv_first y) (iv_last y) ;;
      Ok (same eqb l1 l2)
    else Ok false.
End IterNeedle.
(** 385-389 <. *)
Definition iv_lt {A} (ltb : A -> A -> bool) (mem : list A) (x y : iview) : res bool :=
  l1 <- read_range mem (iv_first x) (iv_last x) ;; l2 <- read_range mem (iv_first y) (iv_last y) ;;
  Ok (lexicographical_compare ltb l1 l2).

(** * daw_view.h; m_size is a ptrdiff_t. *)
Record view := View { vw_first : Z; vw_last : Z; vw_size : Z }.
(** 64-67 the constructor. *)
Definition vw_make (first last : Z) : res view :=
  d <- calc i64 (last - first) ;; Ok (View first last d).
(** 69-78 empty and size. *)
Definition vw_empty (v : view) : bool := vw_size v <=? 0.
Definition vw_count (v : view) : Z := if vw_empty v then 0 else conv u64 (vw_size v).
(** 142-156 front and back, 158-165 operator[], 167-175 at. *)
Definition vw_front {A} (mem : list A) (v : view) : res A := at_pos mem (vw_first v).
Definition vw_back {A} (mem : list A) (v : view) : res A :=
  p <- move (zlen mem) (vw_last v) (-1) ;; at_pos mem p.
Definition vw_get {A} (mem : list A) (v : view) (i : Z) : res A :=
  p <- move (zlen mem) (vw_first v) (conv i64 i) ;; at_pos mem p.
Definition vw_set {A} (mem : list A) (v : view) (i : Z) (x : A) : res (list A) :=
  p <- move (zlen mem) (vw_first v) (conv i64 i) ;; set_pos mem p x.
Definition vw_at {A} (mem : list A) (v : view) (i : Z) : res A :=
  if i <? vw_count v then vw_get mem v i else Throw.
(** 177-184 remove_prefix, 186-193 remove_suffix: no check. *)
Definition vw_remove_prefix {A} (mem : list A) (v : view) (n : Z) : res view :=
  d <- calc i64 (vw_size v - conv i64 n) ;;
  p <- move (zlen mem) (vw_first v) (conv i64 n) ;; Ok (View p (vw_last v) d).
Definition vw_remove_suffix {A} (mem : list A) (v : view) (n : Z) : res view :=
  d <- calc i64 (vw_size v - conv i64 n) ;; m <- calc i64 (- conv i64 n) ;;
  p <- move (zlen mem) (vw_last v) m ;; Ok (View (vw_first v) p d).
(** 195-203 and 211-218: n elements, clamped. *)
Definition vw_pop_front_n {A} (mem : list A) (v : view) (n : Z) : res (view * view) :=
  let n := if vw_count v <? n then vw_count v else n in
  p <- move (zlen mem) (vw_first v) (conv i64 n) ;; r <- vw_make (vw_first v) p ;;
  v <- vw_remove_prefix mem v n ;; Ok (r, v).
Definition vw_pop_back_n {A} (mem : list A) (v : view) (n : Z) : res (view * view) :=
  let n := if vw_count v <? n then vw_count v else n in
  p <- move (zlen mem) (vw_last v) (- conv i64 n) ;; r <- vw_make p (vw_last v) ;;
  v <- vw_remove_suffix mem v n ;; Ok (r, v).
(** 205-209 and 220-224: one element. *)
Definition vw_pop_front {A} (mem : list A) (v : view) : res (A * view) :=
  x <- at_pos mem (vw_first v) ;; v <- vw_remove_prefix mem v 1 ;; Ok (x, v).
Definition vw_pop_back {A} (mem : list A) (v : view) : res (A * view) :=
  x <- vw_back mem v ;; v <- vw_remove_suffix mem v 1 ;; Ok (x, v).
(** 226-233 pop: the front element. *)
Definition vw_pop {A} (mem : list A) (v : view) : res (option A * view) :=
  if vw_empty v then Ok (None, v)
  else x <- vw_front mem v ;; v <- vw_remove_prefix mem v 1 ;; Ok (Some x, v).

(** * daw_span_writer.h.  The values are already converted to T. *)
(** for( n = 0; n < sz; ++n ) { out[n] = in[n]; }. *)
Fixpoint store_all {A} (mem : list A) (p : Z) (xs : list A) : res (list A) :=
  match xs with
  | [] => Ok mem
  | x :: xs => mem <- set_pos mem p x ;; store_all mem (p + 1) xs
  end.
(** 29-65 write_to_span of values and of a range; std::span::subspan needs n <= size,
    which was checked. *)
Definition write_to_span {A} (mem : list A) (out : span) (xs : list A) : res (list A * span) :=
  if zlen xs <=? sp_size out then
    mem <- store_all mem (sp_first out) xs ;;
    Ok (mem, Span (sp_first out + zlen xs) (sp_size out - zlen xs))
  else Throw.
(** 73-86 write_to_span_ntz; [str] has N >= 1 elements, [nul] says which are '\0'. *)
Definition write_to_span_ntz {A} (nul : A -> bool) (mem : list A) (out : span) (str : list A) : res (list A * span) :=
  z <- at_pos str (zlen str - 1) ;;
  if nul z then write_to_span mem out (firstn (length str - 1) str) else Throw.
(** span_writer: 112-117 the constructor with a count, 143-145 size. *)
Definition sw_make {A} (mem : list A) (first size count : Z) : res span :=
  if count <=? size then Ok (Span first count) else Throw.
(** 147-155 operator[]. *)
Definition sw_get {A} (mem : list A) (w : span) (n : Z) : res A :=
  if n <? sp_size w then p <- move (zlen mem) (sp_first w) n ;; at_pos mem p else Throw.
(** 163-168 remove_prefix, 100-103 the unchecked one. *)
Definition sw_remove_prefix_unsafe {A} (mem : list A) (w : span) (n : Z) : res span :=
  p <- move (zlen mem) (sp_first w) (conv i64 n) ;; Ok (Span p (sz (sp_size w - n))).
Definition sw_remove_prefix {A} (mem : list A) (w : span) (n : Z) : res span :=
  if n <=? sp_size w then sw_remove_prefix_unsafe mem w n else Throw.
(** 170-198 write of values and of a range. *)
Definition sw_write {A} (mem : list A) (w : span) (xs : list A) : res (list A * span) :=
  if zlen xs <=? sp_size w then
    mem <- store_all mem (sp_first w) xs ;;
    w <- sw_remove_prefix_unsafe mem w (zlen xs) ;; Ok (mem, w)
  else Throw.
(** 200-214 write_ntz. *)
Definition sw_write_ntz {A} (nul : A -> bool) (mem : list A) (w : span) (str : list A) : res (list A * span) :=
  z <- at_pos str (zlen str - 1) ;;
  if nul z then sw_write mem w (firstn (length str - 1) str) else Throw.

(** * daw_keep_n.h.  The state is m_values. *)
Section KeepN.
  Context {A : Type} (ascending : bool) (func : A -> A -> bool).
  (** 35-51 keep_n_pred. *)
  Definition keep_pred (x y : A) : bool := if ascending then func x y else negb (func x y).
  (** 76-81 the constructor. *)
  Definition keep_make (max : nat) (dflt : A) : list A := repeat dflt max.
  (** 86-88: for( m = MaxItems - 1; m > n; --m ) { m_values[m] = m_values[m - 1]; }. *)
  Fixpoint keep_shift (k : nat) (vals : list A) (m : nat) : res (list A) :=
    match k with
    | O => Ok vals
    | S k => x <- rd vals (m - 1) ;; vals <- wr vals m x ;; keep_shift k vals (m - 1)
    end.
  (** 83-93 insert (95-105 from an rvalue).  [k] is MaxItems - n. *)
  Fixpoint keep_from (k : nat) (vals : list A) (n : nat) (v : A) : res (list A) :=
    match k with
    | O => Ok vals
    | S k =>
        x <- rd vals n ;;
        if keep_pred v x then
          vals <- keep_shift (length vals - 1 - n) vals (length vals - 1) ;; wr vals n v
        else keep_from k vals (S n) v
    end.
  Definition keep_insert (vals : list A) (v : A) : res (list A) := keep_from (length vals) vals 0 v.
  Fixpoint keep_all (vals : list A) (vs : list A) : res (list A) :=
    match vs with
    | [] => Ok vals
    | v :: vs => vals <- keep_insert vals v ;; keep_all vals vs
    end.
End KeepN.
