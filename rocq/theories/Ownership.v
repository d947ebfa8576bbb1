(** Model of the classes that own one object: daw_unique_ptr.h, daw_maybe_unique_ptr.h,
    daw_unique_resource.h, daw_value_ptr.h, daw_unique_array.h,
    deprecated/daw_copiable_unique_ptr.h and deprecated/daw_heap_value.h; and of
    daw_scope_guard.h, daw_union_pair.h, daw_sbo.h, daw_validated.h and daw_take.h.
    No proofs in this file.

    The heap is a list of objects, [None] once deleted; an address is an index and is
    never used again.  Deleting or reading a deleted object is UB, as is dereferencing
    a null pointer.  The variables of one class are numbered; [None] is one whose
    lifetime has ended.  Destructors and copies of the objects do not throw and do not
    use the variables. *)
From Verif Require Import Common.

Record own (A : Type) := Own { ptr : option nat; aux : A }.
Arguments Own {A}. Arguments ptr {A}. Arguments aux {A}.
(** [aux] is what a variable has besides its pointer; [log] has the address of each
    deleted object with that of the variable that deleted it; [loose] are the objects
    that belong to the caller. *)
Record st (V A : Type) := St { cells : list (option V); log : list (nat * A); vars : list (option (own A)); loose : list nat }.
Arguments St {V A}. Arguments cells {V A}. Arguments log {V A}. Arguments vars {V A}. Arguments loose {V A}.

Section Memory.
  Context {V A : Type}.
  Notation st := (st V A).
  Definition start : st := St [] [] [] [].
  Definition var (s : st) (i : nat) : res (own A) :=
    match nth_error (vars s) i with Some (Some p) => Ok p | _ => UB end.
  Definition set_var (s : st) (i : nat) (p : option (own A)) : st := St (cells s) (log s) (upd (vars s) i p) (loose s).
  Definition put (s : st) (i : nat) (p : own A) : st := set_var s i (Some p).
  Definition add (s : st) (p : own A) : st := St (cells s) (log s) (vars s ++ [Some p]) (loose s).
  Definition lend (s : st) (p : option nat) : st :=
    match p with None => s | Some a => St (cells s) (log s) (vars s) (loose s ++ [a]) end.
  (** new T( v ). *)
  Definition fresh (s : st) (v : V) : st * nat :=
    (St (cells s ++ [Some v]) (log s) (vars s) (loose s), length (cells s)).
  Definition val (s : st) (p : option nat) : res V :=
    match p with
    | None => UB
    | Some a => match nth_error (cells s) a with Some (Some v) => Ok v | _ => UB end
    end.
  (** *p = v. *)
  Definition store (s : st) (p : option nat) (v : V) : res st :=
    _ <- val s p ;;
    match p with
    | None => UB
    | Some a => Ok (St (upd (cells s) a (Some v)) (log s) (vars s) (loose s))
    end.
  (** delete p, with the deleter [d]. *)
  Definition del (s : st) (d : A) (p : option nat) : res st :=
    match p with
    | None => Ok s
    | Some a => _ <- val s p ;; Ok (St (upd (cells s) a None) (log s ++ [(a, d)]) (vars s) (loose s))
    end.
  (** The caller hands over the [k]-th of its objects. *)
  Fixpoint remove_at {X} (l : list X) (k : nat) : list X :=
    match l, k with
    | [], _ => []
    | _ :: l, O => l
    | x :: l, S k => x :: remove_at l k
    end.
  Definition hand_over (s : st) (k : nat) : res (st * nat) :=
    a <- rd (loose s) k ;; Ok (St (cells s) (log s) (vars s) (remove_at (loose s) k), a).
End Memory.

(** What a program does with variables of such a class. *)
Inductive oop (V : Type) : Type :=
| Make (v : V)               (* T x( new V( v ) ), make_unique( v ) *)
| MakeNull                   (* T x; T x( nullptr ) *)
| Adopt (k : nat)            (* T x( p ) of the caller's k-th pointer *)
| MoveNew (i : nat)          (* T x( std::move( x_i ) ) *)
| MoveTo (i j : nat)         (* x_i = std::move( x_j ) *)
| CopyNew (i : nat)          (* T x( x_i ) *)
| CopyTo (i j : nat)         (* x_i = x_j *)
| SwapWith (i j : nat)       (* x_i.swap( x_j ) *)
| Reset (i : nat)            (* x_i.reset( ) *)
| ResetTo (i : nat) (v : V)  (* x_i.reset( new V( v ) ) *)
| Release (i : nat)          (* x_i.release( ) *)
| Write (i : nat) (v : V)    (* *x_i = v *)
| Assign (i : nat) (v : V)   (* x_i = v, from an lvalue *)
| Destroy (i : nat).         (* the end of x_i *)
Arguments Make {V}. Arguments MakeNull {V}. Arguments Adopt {V}. Arguments MoveNew {V}. Arguments MoveTo {V}.
Arguments CopyNew {V}. Arguments CopyTo {V}. Arguments SwapWith {V}. Arguments Reset {V}. Arguments ResetTo {V}.
Arguments Release {V}. Arguments Write {V}. Arguments Assign {V}. Arguments Destroy {V}.
Fixpoint run {V A} (step : st V A -> oop V -> res (st V A)) (os : list (oop V)) (s : st V A) : res (st V A) :=
  match os with
  | [] => Ok s
  | o :: os => s <- step s o ;; run step os s
  end.
(** *x = v through operator*, for all the classes. *)
Definition write {V A} (s : st V A) (i : nat) (v : V) : res (st V A) := p <- var s i ;; store s (ptr p) v.

(** * daw_unique_ptr.h; [aux] is the state of the deleter, 0 when default constructed. *)
Section UniquePtr.
  Context {V : Type}.
  Notation st := (st V nat).
  (** 117-119, 130 the constructors and 405-413 make_unique. *)
  Definition up_add (s : st) (p : option nat) : st := add s (Own p 0).
  (** 174-177 release, through daw::exchange (daw_exchange.h 25-30). *)
  Definition up_release (s : st) (i : nat) : res (option nat * st) :=
    p <- var s i ;; Ok (ptr p, put s i (Own None (aux p))).
  (** 195-200 reset( ): with the default deleter null is deleted, which does nothing. *)
  Definition up_reset (s : st) (i : nat) : res st :=
    p <- var s i ;; del (put s i (Own None (aux p))) (aux p) (ptr p).
  (** 202-205 reset( p ). *)
  Definition up_set (s : st) (i : nat) (p : option nat) : res st :=
    q <- var s i ;; Ok (put s i (Own p (aux q))).
  Definition up_reset_to (s : st) (i : nat) (p : option nat) : res st := s <- up_reset s i ;; up_set s i p.
  (** 132-133: the deleter is not moved. *)
  Definition up_move (s : st) (i : nat) : res st := ' (p, s) <- up_release s i ;; Ok (up_add s p).
  (** 146-152. *)
  Definition up_move_assign (s : st) (i j : nat) : res st :=
    if i =? j then Ok s
    else s <- up_reset s i ;; ' (p, s) <- up_release s j ;; up_set s i p.
  (** 227-230: the deleters are not exchanged. *)
  Definition up_swap (s : st) (i j : nat) : res st :=
    p <- var s i ;; q <- var s j ;;
    let s := put s i (Own (ptr q) (aux p)) in p' <- var s j ;; Ok (put s j (Own (ptr p) (aux p'))).
  (** 170-172. *)
  Definition up_destroy (s : st) (i : nat) : res st := s <- up_reset s i ;; Ok (set_var s i None).
  (** get_deleter( ) = d (179-181). *)
  Definition up_set_deleter (s : st) (i d : nat) : res st := p <- var s i ;; Ok (put s i (Own (ptr p) d)).
  Definition up_step (s : st) (o : oop V) : res st :=
    match o with
    | Make v => let (s, a) := fresh s v in Ok (up_add s (Some a))
    | MakeNull => Ok (up_add s None)
    | Adopt k => ' (s, a) <- hand_over s k ;; Ok (up_add s (Some a))
    | MoveNew i => up_move s i
    | MoveTo i j => up_move_assign s i j
    | SwapWith i j => up_swap s i j
    | Reset i => up_reset s i
    | ResetTo i v => let (s, a) := fresh s v in up_reset_to s i (Some a)
    | Release i => ' (p, s) <- up_release s i ;; Ok (lend s p)
    | Write i v => write s i v
    | Destroy i => up_destroy s i
    | _ => UB
    end.
  (** 442-476 comparisons, as functions of the two addresses. *)
  Definition up_eq (p q : nat) : bool := p =? q.
  Definition up_lt (p q : nat) : bool := p <? q.
  Definition up_le (p q : nat) : bool := negb (up_lt p q).
  Definition up_gt (p q : nat) : bool := up_lt q p.
  Definition up_ge (p q : nat) : bool := negb (up_lt p q).
End UniquePtr.

(** * daw_maybe_unique_ptr.h; [aux] is m_owned.  m_ptr is a daw::unique_ptr with the
    default deleter; its functions are used on the same pointer. *)
Section MaybeUniquePtr.
  Context {V : Type}.
  Notation st := (st V bool).
  (** daw_unique_ptr.h 174-177 and 195-205 on m_ptr. *)
  Definition mu_ptr_release (s : st) (i : nat) : res (option nat * st) :=
    p <- var s i ;; Ok (ptr p, put s i (Own None (aux p))).
  Definition mu_ptr_reset (s : st) (i : nat) : res st :=
    p <- var s i ;; del (put s i (Own None (aux p))) (aux p) (ptr p).
  Definition mu_ptr_set (s : st) (i : nat) (q : option nat) : res st :=
    p <- var s i ;; Ok (put s i (Own q (aux p))).
  Definition mu_ptr_reset_to (s : st) (i : nat) (q : option nat) : res st :=
    s <- mu_ptr_reset s i ;; mu_ptr_set s i q.
  Definition mu_set_owned (s : st) (i : nat) (b : bool) : res st :=
    p <- var s i ;; Ok (put s i (Own (ptr p) b)).
  (** 31-40 and 72 the constructors. *)
  Definition mu_add (s : st) (p : option nat) (owned : bool) : st := add s (Own p owned).
  (** 138-141 release. *)
  Definition mu_release (s : st) (i : nat) : res (option nat * st) :=
    s <- mu_set_owned s i true ;; mu_ptr_release s i.
  (** std::exchange( other.m_owned, true ). *)
  Definition mu_take_owned (s : st) (i : nat) : res (bool * st) :=
    p <- var s i ;; s <- mu_set_owned s i true ;; Ok (aux p, s).
  (** 74-76. *)
  Definition mu_move (s : st) (i : nat) : res st :=
    ' (p, s) <- mu_release s i ;; ' (b, s) <- mu_take_owned s i ;; Ok (mu_add s p b).
  (** 159-166 reset( ). *)
  Definition mu_reset (s : st) (i : nat) : res st :=
    p <- var s i ;;
    if aux p then mu_ptr_reset s i
    else ' (_, s) <- mu_ptr_release s i ;; mu_set_owned s i true.
  (** 99-106; m_ptr = rhs.release( ) makes a unique_ptr of the pointer and moves it. *)
  Definition mu_move_assign (s : st) (i j : nat) : res st :=
    if i =? j then Ok s
    else s <- mu_reset s i ;; ' (p, s) <- mu_release s j ;; s <- mu_ptr_reset_to s i p ;;
         ' (b, s) <- mu_take_owned s j ;; mu_set_owned s i b.
  (** 168-176 reset( p, owned ). *)
  Definition mu_reset_to (s : st) (i : nat) (q : option nat) (owned : bool) : res st :=
    p <- var s i ;;
    s <- (if aux p then mu_ptr_reset_to s i q else ' (_, s) <- mu_ptr_release s i ;; Ok s) ;;
    s <- mu_ptr_reset_to s i q ;; mu_set_owned s i owned.
  (** 198-202. *)
  Definition mu_swap (s : st) (i j : nat) : res st :=
    p <- var s i ;; q <- var s j ;; Ok (put (put s i q) j p).
  (** 134-136. *)
  Definition mu_destroy (s : st) (i : nat) : res st := s <- mu_reset s i ;; Ok (set_var s i None).
  Definition mu_step (s : st) (o : oop V) : res st :=
    match o with
    | Make v => let (s, a) := fresh s v in Ok (mu_add s (Some a) true)
    | MakeNull => Ok (mu_add s None true)
    | Adopt k => ' (s, a) <- hand_over s k ;; Ok (mu_add s (Some a) true)
    | MoveNew i => mu_move s i
    | MoveTo i j => mu_move_assign s i j
    | SwapWith i j => mu_swap s i j
    | Reset i => mu_reset s i
    | ResetTo i v => let (s, a) := fresh s v in mu_reset_to s i (Some a) true
    | Release i => ' (p, s) <- mu_release s i ;; Ok (lend s p)
    | Write i v => write s i v
    | Destroy i => mu_destroy s i
    | _ => UB
    end.
  (** maybe_unique_ptr( p, false ) of the caller's k-th pointer, which it keeps. *)
  Definition mu_borrow (s : st) (k : nat) : res st := a <- rd (loose s) k ;; Ok (mu_add s (Some a) false).
End MaybeUniquePtr.

(** * deprecated/daw_copiable_unique_ptr.h *)
Section Copiable.
  Context {V : Type}.
  Notation st := (st V unit).
  Definition own_of (p : option nat) : own unit := Own p tt.
  (** 45, 56-57, 133-139. *)
  Definition cu_add (s : st) (p : option nat) : st := add s (own_of p).
  (** 89-91. *)
  Definition cu_release (s : st) (i : nat) : res (option nat * st) :=
    p <- var s i ;; Ok (ptr p, put s i (own_of None)).
  (** 46-47. *)
  Definition cu_move (s : st) (i : nat) : res st := ' (p, s) <- cu_release s i ;; Ok (cu_add s p).
  (** 49-54 and, with the same text, 97-100 swap. *)
  Definition cu_swap (s : st) (i j : nat) : res st :=
    tmp <- var s i ;; q <- var s j ;; let s := put s j tmp in _ <- var s i ;; Ok (put s i q).
  (** 59-60. *)
  Definition cu_copy (s : st) (i : nat) : res st :=
    p <- var s i ;;
    match ptr p with
    | None => Ok (cu_add s None)
    | Some _ => v <- val s (ptr p) ;; let (s, a) := fresh s v in Ok (cu_add s (Some a))
    end.
  (** 78-83. *)
  Definition cu_reset (s : st) (i : nat) : res st :=
    p <- var s i ;; del (put s i (own_of None)) tt (ptr p).
  (** 62-76. *)
  Definition cu_copy_assign (s : st) (i j : nat) : res st :=
    if i =? j then Ok s
    else
      q <- var s j ;;
      match ptr q with
      | None => cu_reset s i
      | Some _ =>
          p <- var s i ;;
          match ptr p with
          | None => v <- val s (ptr q) ;; let (s, a) := fresh s v in Ok (put s i (own_of (Some a)))
          | Some _ => v <- val s (ptr q) ;; store s (ptr p) v
          end
      end.
  (** 85-87. *)
  Definition cu_destroy (s : st) (i : nat) : res st := s <- cu_reset s i ;; Ok (set_var s i None).
  Definition cu_step (s : st) (o : oop V) : res st :=
    match o with
    | Make v => let (s, a) := fresh s v in Ok (cu_add s (Some a))
    | MakeNull => Ok (cu_add s None)
    | Adopt k => ' (s, a) <- hand_over s k ;; Ok (cu_add s (Some a))
    | MoveNew i => cu_move s i
    | MoveTo i j => cu_swap s i j
    | CopyNew i => cu_copy s i
    | CopyTo i j => cu_copy_assign s i j
    | SwapWith i j => cu_swap s i j
    | Reset i => cu_reset s i
    | Release i => ' (p, s) <- cu_release s i ;; Ok (lend s p)
    | Write i v => write s i v
    | Destroy i => cu_destroy s i
    | _ => UB
    end.
End Copiable.

(** * std::unique_ptr, the member of the next two classes: moving transfers the
    pointer; move assignment is reset( other.release( ) ), which deletes the old object
    last. *)
Section StdUnique.
  Context {V : Type}.
  Notation st := (st V unit).
  Definition su_move (s : st) (i : nat) : res st :=
    p <- var s i ;; Ok (add (put s i (own_of None)) p).
  Definition su_move_assign (s : st) (i j : nat) : res st :=
    q <- var s j ;; let s := put s j (own_of None) in
    p <- var s i ;; del (put s i q) tt (ptr p).
  Definition su_swap (s : st) (i j : nat) : res st :=
    p <- var s i ;; q <- var s j ;; Ok (put (put s i q) j p).
  Definition su_reset (s : st) (i : nat) : res st :=
    p <- var s i ;; del (put s i (own_of None)) tt (ptr p).
  Definition su_destroy (s : st) (i : nat) : res st := s <- su_reset s i ;; Ok (set_var s i None).
End StdUnique.

(** * daw_value_ptr.h.  Copy assignment (89-104) and release (146-148) do not compile. *)
Section ValuePtr.
  Context {V : Type}.
  Notation st := (st V unit).
  (** 76-81: no test for null. *)
  Definition vp_copy (s : st) (i : nat) : res st :=
    p <- var s i ;; v <- val s (ptr p) ;; let (s, a) := fresh s v in Ok (add s (own_of (Some a))).
  (** 106-111. *)
  Definition vp_move_assign (s : st) (i j : nat) : res st :=
    if i =? j then Ok s else su_move_assign s i j.
  (** 113-121 from an lvalue and 123-127 from an rvalue. *)
  Definition vp_assign (s : st) (i : nat) (v : V) : res st :=
    p <- var s i ;;
    match ptr p with
    | None => let (s, a) := fresh s v in Ok (put s i (own_of (Some a)))
    | Some _ => store s (ptr p) v
    end.
  Definition vp_assign_rvalue (s : st) (i : nat) (v : V) : res st := p <- var s i ;; store s (ptr p) v.
  Definition vp_step (s : st) (o : oop V) : res st :=
    match o with
    | Make v => let (s, a) := fresh s v in Ok (add s (own_of (Some a)))   (* 49-60 *)
    | MakeNull => Ok (add s (own_of None))                                (* 47 *)
    | MoveNew i => su_move s i                                            (* 83-87 *)
    | MoveTo i j => vp_move_assign s i j
    | CopyNew i => vp_copy s i
    | SwapWith i j => su_swap s i j                                       (* 150-152 *)
    | Reset i => su_reset s i                                             (* 129-132 *)
    | Write i v => write s i v
    | Assign i v => vp_assign s i v
    | Destroy i => su_destroy s i                                         (* 143-144 *)
    | _ => UB
    end.
  (** 193-211 compare, of the pointed to values. *)
  Definition vp_compare (comp : V -> V -> bool) (x y : option V) : Z :=
    match x, y with
    | None, None => 0
    | None, Some _ => -1
    | Some _, None => 1
    | Some x, Some y => if comp x y then -1 else if comp y x then 1 else 0
    end%Z.
End ValuePtr.

(** * deprecated/daw_heap_value.h.  Copying a heap_value that is not const selects 56-59
    and does not compile; a copy is one of a const heap_value. *)
Section HeapValue.
  Context {V : Type}.
  Notation st := (st V unit).
  (** 39-40. *)
  Definition hv_copy (s : st) (i : nat) : res st := vp_copy s i.
  (** 42-47. *)
  Definition hv_copy_assign (s : st) (i j : nat) : res st :=
    if i =? j then Ok s
    else q <- var s j ;; v <- val s (ptr q) ;; p <- var s i ;; store s (ptr p) v.
  Definition hv_step (s : st) (o : oop V) : res st :=
    match o with
    | Make v => let (s, a) := fresh s v in Ok (add s (own_of (Some a)))   (* 34, 50-59 *)
    | MoveNew i => su_move s i                                            (* 36 *)
    | MoveTo i j => su_move_assign s i j                                  (* 37 *)
    | CopyNew i => hv_copy s i
    | CopyTo i j => hv_copy_assign s i j
    | SwapWith i j => su_swap s i j                                       (* 61-63 *)
    | Write i v => write s i v
    | Destroy i => su_destroy s i                                         (* 35 *)
    | _ => UB
    end.
End HeapValue.

(** * daw_unique_resource.h: the pointer is the handle in the std::optional; deleting
    is Deleter{ }( handle ). *)
Section UniqueResource.
  Context {V : Type}.
  Notation st := (st V unit).
  (** 24-26. *)
  Definition ur_move (s : st) (i : nat) : res st :=
    p <- var s i ;; Ok (add (put s i (own_of None)) p).
  (** 52-56: the optional keeps its value. *)
  Definition ur_reset (s : st) (i : nat) : res st := p <- var s i ;; del s tt (ptr p).
  (** 58-65. *)
  Definition ur_reset_to (s : st) (i : nat) (a : nat) : res st :=
    p <- var s i ;; s <- del s tt (ptr p) ;; Ok (put s i (own_of (Some a))).
  (** 67-70: *result without a value is UB. *)
  Definition ur_release (s : st) (i : nat) : res (nat * st) :=
    p <- var s i ;;
    match ptr p with
    | None => UB
    | Some a => Ok (a, put s i (own_of None))
    end.
  (** 28-32. *)
  Definition ur_move_assign (s : st) (i j : nat) : res st :=
    ' (a, s) <- ur_release s j ;; ur_reset_to s i a.
  (** 37-39. *)
  Definition ur_destroy (s : st) (i : nat) : res st := s <- ur_reset s i ;; Ok (set_var s i None).
  Definition ur_step (s : st) (o : oop V) : res st :=
    match o with
    | Make v => let (s, a) := fresh s v in Ok (add s (own_of (Some a)))             (* 41-43 *)
    | MakeNull => Ok (add s (own_of None))                                          (* 23 *)
    | Adopt k => ' (s, a) <- hand_over s k ;; Ok (add s (own_of (Some a)))
    | MoveNew i => ur_move s i
    | MoveTo i j => ur_move_assign s i j
    | Reset i => ur_reset s i
    | ResetTo i v => let (s, a) := fresh s v in ur_reset_to s i a                   (* also 45-50 *)
    | Release i => ' (a, s) <- ur_release s i ;; Ok (lend s (Some a))
    | Write i v => write s i v
    | Destroy i => ur_destroy s i
    | _ => UB
    end.
End UniqueResource.

(** * daw_unique_array.h: the object is the array; [aux] is m_size. *)
Section UniqueArray.
  Context {T : Type}.
  Notation st := (st (list T) nat).
  (** 48-54. *)
  Definition ua_clear (s : st) (i : nat) : res st :=
    p <- var s i ;; del (put s i (Own None 0)) (aux p) (ptr p).
  (** 61-63. *)
  Definition ua_move (s : st) (i : nat) : res st :=
    p <- var s i ;; Ok (add (put s i (Own None 0)) p).
  (** 65-76. *)
  Definition ua_move_assign (s : st) (i j : nat) : res st :=
    if i =? j then Ok s
    else
      s <- ua_clear s i ;; q <- var s j ;;
      match ptr q with
      | None => Ok s
      | Some _ => Ok (put (put s j (Own None 0)) i q)
      end.
  (** 91-93. *)
  Definition ua_destroy (s : st) (i : nat) : res st := s <- ua_clear s i ;; Ok (set_var s i None).
  Definition ua_step (s : st) (o : oop (list T)) : res st :=
    match o with
    | Make l => let (s, a) := fresh s l in Ok (add s (Own (Some a) (length l)))   (* 78-80; 82-89 does not compile *)
    | MakeNull => Ok (add s (Own None 0))                                         (* 57 *)
    | MoveNew i => ua_move s i
    | MoveTo i j => ua_move_assign s i j
    | Write i l => write s i l                                                    (* writes through operator[] *)
    | Destroy i => ua_destroy s i
    | _ => UB
    end.
  (** 95-97 empty, 99-101 size, 107-113 operator[], 115-125 at, 151-165 front and back. *)
  Definition ua_empty (p : own nat) : bool := match ptr p with None => true | Some _ => false end.
  Definition ua_get (s : st) (p : own nat) (pos : nat) : res T := l <- val s (ptr p) ;; rd l pos.
  Definition ua_at (s : st) (p : own nat) (pos : nat) : res T :=
    if negb (aux p <=? pos) then Throw else ua_get s p pos.
  Definition ua_front (s : st) (p : own nat) : res T := ua_get s p 0.
  Definition ua_back (s : st) (p : own nat) : res T := if aux p =? 0 then UB else ua_get s p (aux p - 1).
End UniqueArray.

(** * daw_scope_guard.h.  A variable is the std::optional of the handler; [ran] has the
    handlers called, in order.  Copies of a handler do the same; a std::optional that
    was moved from still has a value. *)
Record guards (F : Type) := Guards { gs : list (option (option F)); ran : list F }.
Arguments Guards {F}. Arguments gs {F}. Arguments ran {F}.
Inductive gop (F : Type) : Type :=
| Guard (f : F) | GMove (i : nat) | GAssign (i j : nat) | Cancel (i : nat) | RunNow (i : nat) | Leave (i : nat).
Arguments Guard {F}. Arguments GMove {F}. Arguments GAssign {F}. Arguments Cancel {F}. Arguments RunNow {F}. Arguments Leave {F}.
Section ScopeGuard.
  Context {F : Type}.
  Definition g_var (s : guards F) (i : nat) : res (option F) :=
    match nth_error (gs s) i with Some (Some f) => Ok f | _ => UB end.
  (** 46-54 and 86-91. *)
  Definition g_make (s : guards F) (f : F) : guards F := Guards (gs s ++ [Some (Some f)]) (ran s).
  (** 43-44, of std::optional. *)
  Definition g_move (s : guards F) (i : nat) : res (guards F) :=
    f <- g_var s i ;; Ok (Guards (gs s ++ [Some f]) (ran s)).
  Definition g_assign (s : guards F) (i j : nat) : res (guards F) :=
    f <- g_var s j ;; _ <- g_var s i ;; Ok (Guards (upd (gs s) i (Some f)) (ran s)).
  (** 56-59. *)
  Definition g_cancel (s : guards F) (i : nat) : res (guards F) :=
    _ <- g_var s i ;; Ok (Guards (upd (gs s) i (Some None)) (ran s)).
  (** 61-66. *)
  Definition g_run_now (dbg : bool) (s : guards F) (i : nat) : res (guards F) :=
    f <- g_var s i ;;
    match f with
    | None => if dbg then Throw else UB
    | Some f => g_cancel (Guards (gs s) (ran s ++ [f])) i
    end.
  (** 68-74. *)
  Definition g_leave (s : guards F) (i : nat) : res (guards F) :=
    f <- g_var s i ;;
    Ok (Guards (upd (gs s) i None) (ran s ++ match f with Some f => [f] | None => [] end)).
  Definition g_step (dbg : bool) (s : guards F) (o : gop F) : res (guards F) :=
    match o with
    | Guard f => Ok (g_make s f)
    | GMove i => g_move s i
    | GAssign i j => g_assign s i j
    | Cancel i => g_cancel s i
    | RunNow i => g_run_now dbg s i
    | Leave i => g_leave s i
    end.
  Fixpoint g_run (dbg : bool) (os : list (gop F)) (s : guards F) : res (guards F) :=
    match os with
    | [] => Ok s
    | o :: os => s <- g_step dbg s o ;; g_run dbg os s
    end.
  (** 106-123 ~on_exit_success: what it runs, given std::uncaught_exceptions( ). *)
  Definition oes_leave (uncaught : nat) (f : F) : list F := if uncaught =? 0 then [f] else [].
End ScopeGuard.

(** * daw_union_pair.h.  [stored] is the object that lives in the union, [tag] is type,
    [gone] the objects whose destructors were called.
    [triv0] and [triv1] say whether Type0 and Type1 have trivial assignment, which may
    be used on storage in which no object lives. *)
Inductive either (V0 V1 : Type) : Type := Nothing | First (v : V0) | Second (v : V1).
Arguments Nothing {V0 V1}. Arguments First {V0 V1}. Arguments Second {V0 V1}.
Inductive tags := type_0 | type_1 | type_nothing.
Record upair (V0 V1 : Type) := UPair { stored : either V0 V1; tag : tags; gone : list (either V0 V1) }.
Arguments UPair {V0 V1}. Arguments stored {V0 V1}. Arguments tag {V0 V1}. Arguments gone {V0 V1}.
Section UnionPair.
  Context {V0 V1 : Type} (triv0 triv1 : bool).
  Notation upair := (upair V0 V1).
  (** 106-107. *)
  Definition un_empty : upair := UPair Nothing type_nothing [].
  (** 52-77: destroy_type0, destroy_type1 and clear. *)
  Definition un_clear (u : upair) : res upair :=
    match tag u with
    | type_nothing => Ok u
    | type_0 => match stored u with First _ => Ok (UPair Nothing type_nothing (gone u ++ [stored u])) | _ => UB end
    | type_1 => match stored u with Second _ => Ok (UPair Nothing type_nothing (gone u ++ [stored u])) | _ => UB end
    end.
  (** value0 = value and value1 = value. *)
  Definition un_assign0 (u : upair) (v : V0) : res upair :=
    match stored u with
    | First _ => Ok (UPair (First v) (tag u) (gone u))
    | _ => if triv0 then Ok (UPair (First v) (tag u) (gone u)) else UB
    end.
  Definition un_assign1 (u : upair) (v : V1) : res upair :=
    match stored u with
    | Second _ => Ok (UPair (Second v) (tag u) (gone u))
    | _ => if triv1 then Ok (UPair (Second v) (tag u) (gone u)) else UB
    end.
  Definition with_tag (u : upair) (t : tags) : upair := UPair (stored u) t (gone u).
  (** 79-103 store_type0 and store_type1. *)
  Definition un_store0 (u : upair) (v : V0) : res upair :=
    u <- match tag u with type_0 => Ok u | _ => un_clear u end ;;
    u <- un_assign0 (with_tag u type_nothing) v ;; Ok (with_tag u type_0).
  Definition un_store1 (u : upair) (v : V1) : res upair :=
    u <- match tag u with type_1 => Ok u | _ => un_clear u end ;;
    u <- un_assign1 (with_tag u type_nothing) v ;; Ok (with_tag u type_1).
  (** 161-195 copy and move construction, 197-233 assignment from another union_pair
      (from itself it does nothing); moving leaves the source with its tag. *)
  Definition un_read0 (u : upair) : res V0 := match stored u with First v => Ok v | _ => UB end.
  Definition un_read1 (u : upair) : res V1 := match stored u with Second v => Ok v | _ => UB end.
  Definition un_assign (u rhs : upair) : res upair :=
    match tag rhs with
    | type_0 => v <- un_read0 rhs ;; un_store0 u v
    | type_1 => v <- un_read1 rhs ;; un_store1 u v
    | type_nothing => un_clear u
    end.
  Definition un_copy (other : upair) : res upair :=
    match tag other with
    | type_0 => v <- un_read0 other ;; un_store0 un_empty v
    | type_1 => v <- un_read1 other ;; un_store1 un_empty v
    | type_nothing => Ok un_empty
    end.
  (** 235-263 visit and 113-115 which. *)
  Definition un_visit {R} (u : upair) (f0 : V0 -> R) (f1 : V1 -> R) : res R :=
    match tag u with
    | type_0 => v <- un_read0 u ;; Ok (f0 v)
    | type_1 => v <- un_read1 u ;; Ok (f1 v)
    | type_nothing => Throw
    end.
  Definition un_which (u : upair) : Z := match tag u with type_0 => 0 | type_1 => 1 | type_nothing => 2 end%Z.
End UnionPair.

(** * daw_sbo.h.  [small] is sizeof( T ) <= storage_size; one type T is used.  [heap]
    says whether an object from the allocator exists. *)
Inductive engaged_types := none | local | allocated.
Record sbo (V : Type) := Sbo { engaged : engaged_types; here : option V; heap : option V }.
Arguments Sbo {V}. Arguments engaged {V}. Arguments here {V}. Arguments heap {V}.
Section SboStorage.
  Context {V : Type} (small dbg : bool).
  Definition is_engaged (s : sbo V) (e : engaged_types) : bool :=
    match engaged s, e with none, none | local, local | allocated, allocated => true | _, _ => false end.
  Definition expect (b : bool) : res unit := if dbg && negb b then Throw else Ok tt.
  Definition the (x : option V) : res V := match x with Some v => Ok v | None => UB end.
  Definition sb_start : sbo V := Sbo none None None.
  (** 74-105 allocate. *)
  Definition sb_allocate (s : sbo V) (v : V) : res (sbo V) :=
    _ <- expect (is_engaged s none) ;;
    if small then Ok (Sbo local (Some v) (heap s)) else Ok (Sbo allocated (here s) (Some v)).
  (** 34-44 get. *)
  Definition sb_get (s : sbo V) : res V :=
    if small then _ <- expect (is_engaged s local) ;; the (here s)
    else _ <- expect (is_engaged s allocated) ;; the (heap s).
  (** 46-55 get of a const storage. *)
  Definition sb_get_const (s : sbo V) : res V :=
    if small then _ <- expect (is_engaged s allocated) ;; the (here s)
    else _ <- expect (is_engaged s allocated) ;; the (heap s).
  (** 57-72 deallocate. *)
  Definition sb_deallocate (s : sbo V) : res (sbo V) :=
    _ <- (if small then expect (is_engaged s local) else expect (is_engaged s allocated)) ;;
    _ <- sb_get s ;;
    if small then Ok (Sbo none None (heap s)) else Ok (Sbo none (here s) None).
End SboStorage.

(** * daw_validated.h: the state is m_value. *)
Section Validated.
  Context {V : Type} (validator : V -> bool).
  (** 40-47 validate. *)
  Definition va_validate (v : V) : res V := if negb (validator v) then Throw else Ok v.
  (** 60 the default constructor; 62-72 the others, from the constructed value. *)
  Definition va_default (dflt : V) : V := dflt.
  Definition va_make (v : V) : res V := va_validate v.
  (** 74-82: the new state, or the exception, which leaves the old one. *)
  Definition va_assign (m_value v : V) : res V := va_validate v.
  (** A program that catches the exceptions. *)
  Fixpoint va_assigns (m_value : V) (vs : list V) : V :=
    match vs with
    | [] => m_value
    | v :: vs => match va_assign m_value v with Ok m => va_assigns m vs | _ => va_assigns m_value vs end
    end.
End Validated.

(** * daw_take.h: variables hold values; [dflt] is T{ } and [gone v] what moving leaves. *)
Section Take.
  Context {V : Type} (dflt : V) (gone : V -> V) (reset_on_take : bool).
  (** 28-38: the result and the new value of the variable. *)
  Definition take (v : V) : V * V := (v, if reset_on_take then dflt else gone v).
  (** 57-58 and 60-64 of take_t. *)
  Definition tk_move (l : list V) (i : nat) : res (list V) :=
    v <- rd l i ;; let (r, v) := take v in l <- wr l i v ;; Ok (l ++ [r]).
  Definition tk_move_assign (l : list V) (i j : nat) : res (list V) :=
    v <- rd l j ;; let (r, v) := take v in l <- wr l j v ;; wr l i r.
  (** 114-116. *)
  Definition tk_reset (l : list V) (i : nat) : res (list V) :=
    v <- rd l i ;; let (_, v) := take v in wr l i v.
End Take.
