(** Vocabulary for the statements about views (ViewsProps.v). *)
From Verif Require Import Common Ints Pipelines SpecPipes Iterators Views.
Open Scope Z_scope.

(** [first, last) is the part of [mem] that holds [xs]. *)
Definition covers {A} (mem : list A) (first last : Z) (xs : list A) : Prop :=
  exists pre post, mem = pre ++ xs ++ post /\ first = zlen pre /\ last = zlen pre + zlen xs.
Definition sp_covers {A} (mem : list A) (s : span) (xs : list A) : Prop :=
  covers mem (sp_first s) (sp_first s + sp_size s) xs.
Definition cv_covers {A} (mem : list A) (v : cview) (xs : list A) : Prop :=
  covers mem (cv_first v) (cv_last v) xs.
Definition iv_covers {A} (mem : list A) (v : iview) (xs : list A) : Prop :=
  covers mem (iv_first v) (iv_last v) xs /\ iv_size v = zlen xs.
Definition vw_covers {A} (mem : list A) (v : view) (xs : list A) : Prop :=
  covers mem (vw_first v) (vw_last v) xs /\ vw_size v = zlen xs.
(** No array is larger than PTRDIFF_MAX. *)
Definition fits_memory {A} (mem : list A) : Prop := zlen mem < 2 ^ 63.
(** The first [n] elements, all but the first [n], the last [n], all but the last [n]. *)
Definition front_n {A} (n : Z) (xs : list A) : list A := firstn (Z.to_nat n) xs.
Definition skip_n {A} (n : Z) (xs : list A) : list A := skipn (Z.to_nat n) xs.
Definition back_n {A} (n : Z) (xs : list A) : list A := skipn (length xs - Z.to_nat n) xs.
Definition drop_n {A} (n : Z) (xs : list A) : list A := firstn (length xs - Z.to_nat n) xs.

(** What can be done with a view. *)
Inductive vop (A : Type) : Type :=
| DropFront (n : Z)                       (* remove_prefix( n ) *)
| DropBack (n : Z)                        (* remove_suffix( n ) *)
| DropFrontExact (n : Z)                  (* remove_prefix( n, dont_clip_to_bounds ) *)
| DropBackExact (n : Z)                   (* remove_suffix( n, dont_clip_to_bounds ) *)
| PopFront | PopBack                      (* pop_front( ), pop_back( ) *)
| PopFrontN (n : Z) | PopBackN (n : Z)    (* pop_front( n ), pop_back( n ) *)
| TryPopFront | TryPopBack                (* view::pop( x ), span::pop( x ) *)
| Sub (pos count : Z)                     (* v = v.subspan( pos, count ) *)
| SkipUntil (x : A) (discard : bool)      (* remove_prefix_until *)
| SkipWhile (x : A) (discard : bool)      (* remove_prefix_while *)
| PopUntil (x : A) (discard : bool)       (* pop_front_until *)
| PopWhile (x : A) (discard : bool)       (* pop_front_while *)
| Store (i : Z) (x : A).                  (* v[i] = x *)
Arguments DropFront {A}. Arguments DropBack {A}. Arguments DropFrontExact {A}. Arguments DropBackExact {A}.
Arguments PopFront {A}. Arguments PopBack {A}. Arguments PopFrontN {A}. Arguments PopBackN {A}.
Arguments TryPopFront {A}. Arguments TryPopBack {A}. Arguments Sub {A}. Arguments SkipUntil {A}.
Arguments SkipWhile {A}. Arguments PopUntil {A}. Arguments PopWhile {A}. Arguments Store {A}.

Section Effect.
  Context {A : Type} (eqb : A -> A -> bool).
  Definition not_eq (x y : A) : bool := negb (eqb y x).
  Definition is_eq (x y : A) : bool := eqb y x.
  Definition without_first (discard : bool) (xs : list A) : list A := if discard then tl xs else xs.
  (** The elements left in the view and those handed out. *)
  Definition effect (o : vop A) (xs : list A) : list A * list A :=
    match o with
    | DropFront n | DropFrontExact n => (skip_n n xs, [])
    | DropBack n | DropBackExact n => (drop_n n xs, [])
    | PopFront | TryPopFront => (tl xs, front_n 1 xs)
    | PopBack | TryPopBack => (removelast xs, back_n 1 xs)
    | PopFrontN n => (skip_n n xs, front_n n xs)
    | PopBackN n => (drop_n n xs, back_n n xs)
    | Sub pos count => (front_n count (skip_n pos xs), [])
    | SkipUntil x d => (without_first d (drop_while (not_eq x) xs), [])
    | SkipWhile x d => (without_first d (drop_while (is_eq x) xs), [])
    | PopUntil x d => (without_first d (drop_while (not_eq x) xs), take_while (not_eq x) xs)
    | PopWhile x d => (without_first d (drop_while (is_eq x) xs), take_while (is_eq x) xs)
    | Store i x => (upd xs (Z.to_nat i) x, [])
    end.
  (** A history in which each operation is [allowed]; what it leaves and hands out. *)
  Fixpoint effects (allowed : vop A -> list A -> bool) (os : list (vop A)) (xs : list A) : option (list A * list (list A)) :=
    match os with
    | [] => Some (xs, [])
    | o :: os =>
        if allowed o xs then
          let (ys, out) := effect o xs in
          match effects allowed os ys with
          | Some (zs, outs) => Some (zs, out :: outs)
          | None => None
          end
        else None
    end.
End Effect.
Definition size_t_value (n : Z) : bool := (0 <=? n) && (n <? 2 ^ 64).
Definition up_to (n : Z) {A} (xs : list A) : bool := (0 <=? n) && (n <=? zlen xs).
Definition index (n : Z) {A} (xs : list A) : bool := (0 <=? n) && (n <? zlen xs).
Definition some_left {A} (xs : list A) : bool := negb (zlen xs =? 0).
(** What each class has, and where it may be called. *)
Definition span_allows {A} (o : vop A) (xs : list A) : bool :=
  match o with
  | DropFront n | DropBack n | PopFrontN n | PopBackN n => up_to n xs
  | PopFront | PopBack => some_left xs
  | TryPopBack => true
  | Sub pos count => up_to pos xs && size_t_value count
  | Store i _ => index i xs
  | _ => false
  end.
Definition cview_allows {A} (o : vop A) (xs : list A) : bool :=
  match o with
  | DropFront n | DropBack n => size_t_value n
  | DropFrontExact n | DropBackExact n => up_to n xs
  | PopFront | PopBack => some_left xs
  | SkipUntil _ _ | SkipWhile _ _ | PopUntil _ _ | PopWhile _ _ => true
  | Store i _ => index i xs
  | _ => false
  end.
(** With assertions some calls abort that should not: dont_clip_to_bounds with all
    elements, and pop_front_until or pop_front_while with discard that reach the end. *)
Definition iview_allows {A} (eqb : A -> A -> bool) (dbg : bool) (o : vop A) (xs : list A) : bool :=
  match o with
  | DropFront n => size_t_value n
  | DropFrontExact n => if dbg then index n xs else up_to n xs
  | PopFront => some_left xs
  | SkipUntil _ _ | SkipWhile _ _ => true
  | PopUntil x d => negb (d && dbg) || existsb (is_eq eqb x) xs
  | PopWhile x d => negb (d && dbg) || existsb (not_eq eqb x) xs
  | Store i _ => index i xs
  | _ => false
  end.
Definition view_allows {A} (o : vop A) (xs : list A) : bool :=
  match o with
  | DropFront n | DropBack n => up_to n xs
  | PopFront | PopBack => some_left xs
  | PopFrontN n | PopBackN n => size_t_value n
  | TryPopFront => true
  | Store i _ => index i xs
  | _ => false
  end.

(** Running such a history: the memory, the view and what was handed out, read at once.
    An operation the class does not have is UB. *)
Fixpoint run_ops {A V} (step : list A -> V -> vop A -> res (list A * V * list A)) (os : list (vop A)) (mem : list A) (v : V)
  : res (list A * V * list (list A)) :=
  match os with
  | [] => Ok (mem, v, [])
  | o :: os =>
      ' (mem, v, out) <- step mem v o ;; ' (mem, v, outs) <- run_ops step os mem v ;; Ok (mem, v, out :: outs)
  end.
Definition given {A} (r : option A) : list A := match r with Some x => [x] | None => [] end.
Definition sp_step {A} (mem : list A) (s : span) (o : vop A) : res (list A * span * list A) :=
  match o with
  | DropFront n => s <- sp_remove_prefix mem s n ;; Ok (mem, s, [])
  | DropBack n => Ok (mem, sp_remove_suffix s n, [])
  | PopFront => ' (x, s) <- sp_pop_front mem s ;; Ok (mem, s, [x])
  | PopBack => ' (x, s) <- sp_pop_back mem s ;; Ok (mem, s, [x])
  | PopFrontN n => ' (r, s) <- sp_pop_front_n mem s n ;;
                   xs <- read_range mem (sp_first r) (sp_first r + sp_size r) ;; Ok (mem, s, xs)
  | PopBackN n => ' (r, s) <- sp_pop_back_n mem s n ;;
                  xs <- read_range mem (sp_first r) (sp_first r + sp_size r) ;; Ok (mem, s, xs)
  | TryPopBack => ' (x, s) <- sp_pop mem s ;; Ok (mem, s, given x)
  | Sub pos count => s <- sp_subspan mem s pos count ;; Ok (mem, s, [])
  | Store i x => mem <- sp_set mem s i x ;; Ok (mem, s, [])
  | _ => UB
  end.
Definition cv_step {A} (eqb : A -> A -> bool) (dbg : bool) (mem : list A) (v : cview) (o : vop A) : res (list A * cview * list A) :=
  match o with
  | DropFront n => v <- cv_remove_prefix mem v n ;; Ok (mem, v, [])
  | DropBack n => v <- cv_remove_suffix mem v n ;; Ok (mem, v, [])
  | DropFrontExact n => v <- cv_remove_prefix_dc dbg mem v n ;; Ok (mem, v, [])
  | DropBackExact n => v <- cv_remove_suffix_dc dbg mem v n ;; Ok (mem, v, [])
  | PopFront => ' (x, v) <- cv_pop_front dbg mem v ;; Ok (mem, v, [x])
  | PopBack => ' (x, v) <- cv_pop_back dbg mem v ;; Ok (mem, v, [x])
  | SkipUntil x d =>
      v <- (if d then cv_until_discard eqb mem v x else cv_until eqb dbg mem v x) ;; Ok (mem, v, [])
  | SkipWhile x d =>
      v <- (if d then cv_while_discard eqb mem v x else cv_while eqb dbg mem v x) ;; Ok (mem, v, [])
  | PopUntil x d =>
      ' (r, v) <- (if d then cv_pop_until_discard eqb dbg mem v x else cv_pop_until eqb dbg mem v x) ;;
      xs <- read_range mem (cv_first r) (cv_last r) ;; Ok (mem, v, xs)
  | PopWhile x d =>
      ' (r, v) <- (if d then cv_pop_while_discard eqb dbg mem v x else cv_pop_while eqb dbg mem v x) ;;
      xs <- read_range mem (cv_first r) (cv_last r) ;; Ok (mem, v, xs)
  | Store i x => mem <- cv_set dbg mem v i x ;; Ok (mem, v, [])
  | _ => UB
  end.
Definition iv_step {A} (eqb : A -> A -> bool) (dbg : bool) (mem : list A) (v : iview) (o : vop A) : res (list A * iview * list A) :=
  match o with
  | DropFront n => v <- iv_remove_prefix mem v n ;; Ok (mem, v, [])
  | DropFrontExact n => v <- iv_remove_prefix_dc dbg mem v n ;; Ok (mem, v, [])
  | PopFront => ' (x, v) <- iv_pop_front dbg mem v ;; Ok (mem, v, [x])
  | SkipUntil x d =>
      v <- (if d then iv_until_discard eqb mem v x else iv_until eqb mem v x) ;; Ok (mem, v, [])
  | SkipWhile x d =>
      v <- (if d then iv_while_discard eqb mem v x else iv_while eqb mem v x) ;; Ok (mem, v, [])
  | PopUntil x d =>
      ' (r, v) <- (if d then iv_pop_until_discard eqb dbg mem v x else iv_pop_until eqb mem v x) ;;
      xs <- read_range mem (iv_first r) (iv_last r) ;; Ok (mem, v, xs)
  | PopWhile x d =>
      ' (r, v) <- (if d then iv_pop_while_discard eqb dbg mem v x else iv_pop_while eqb mem v x) ;;
      xs <- read_range mem (iv_first r) (iv_last r) ;; Ok (mem, v, xs)
  | Store i x => mem <- iv_set dbg mem v i x ;; Ok (mem, v, [])
  | _ => UB
  end.
Definition vw_step {A} (mem : list A) (v : view) (o : vop A) : res (list A * view * list A) :=
  match o with
  | DropFront n => v <- vw_remove_prefix mem v n ;; Ok (mem, v, [])
  | DropBack n => v <- vw_remove_suffix mem v n ;; Ok (mem, v, [])
  | PopFront => ' (x, v) <- vw_pop_front mem v ;; Ok (mem, v, [x])
  | PopBack => ' (x, v) <- vw_pop_back mem v ;; Ok (mem, v, [x])
  | PopFrontN n => ' (r, v) <- vw_pop_front_n mem v n ;;
                   xs <- read_range mem (vw_first r) (vw_last r) ;; Ok (mem, v, xs)
  | PopBackN n => ' (r, v) <- vw_pop_back_n mem v n ;;
                  xs <- read_range mem (vw_first r) (vw_last r) ;; Ok (mem, v, xs)
  | TryPopFront => ' (x, v) <- vw_pop mem v ;; Ok (mem, v, given x)
  | Store i x => mem <- vw_set mem v i x ;; Ok (mem, v, [])
  | _ => UB
  end.
(** Nothing outside [first, last) has changed. *)
Definition same_outside {A} (first last : Z) (mem mem' : list A) : Prop :=
  length mem' = length mem /\
  forall i, Z.of_nat i < first \/ last <= Z.of_nat i -> nth_error mem' i = nth_error mem i.

(** * Writing *)
(** A span_writer used several times; each element of [chunks] is one write. *)
Fixpoint sw_writes {A} (mem : list A) (w : span) (chunks : list (list A)) : res (list A * span) :=
  match chunks with
  | [] => Ok (mem, w)
  | xs :: chunks => ' (mem, w) <- sw_write mem w xs ;; sw_writes mem w chunks
  end.
Fixpoint span_writes {A} (mem : list A) (w : span) (chunks : list (list A)) : res (list A * span) :=
  match chunks with
  | [] => Ok (mem, w)
  | xs :: chunks => ' (mem, w) <- write_to_span mem w xs ;; span_writes mem w chunks
  end.

(** * keep_n *)
(** [x] comes before [y] in the order that is kept. *)
Definition better {A} (ascending : bool) (func : A -> A -> bool) (x y : A) : bool :=
  if ascending then func x y else func y x.
