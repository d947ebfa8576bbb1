(** CString (deprecated/daw_cstring.h) with its comparison operators (daw_operators.h) and
    generate_n of the pipelines (pipelines/generate.h, map.h, iota.h). *)
From Verif Require Import Common.

(** * Memory of characters.  A buffer was made by new[] ([b_heap]) or is an array or literal of the
    program; [b_live] is false after delete[]. *)
Record buf := Buf { b_chars : list Z; b_heap : bool; b_live : bool }.
Definition get_buf (m : list buf) (p : option nat) : res buf :=
  match p with
  | Some a => b <- rd m a ;; if b_live b then Ok b else UB
  | None => UB
  end.
(** delete[] of a pointer: of live memory of new[] only. *)
Definition delete_array (m : list buf) (a : nat) : res (list buf) :=
  b <- get_buf m (Some a) ;;
  if b_heap b then Ok (upd m a (Buf (b_chars b) true false)) else UB.

(** daw_cstring.h 25-28: m_data, m_size, m_local_string.  A pointer is the number of a buffer (pointers into the middle
    of a buffer are not modelled); sizes are numbers of characters in memory and do not overflow. *)
Record cstr := CStr { c_data : option nat; c_size : nat; c_local : bool }.

(** daw_cstring.h 30-37: string_length.  Reading past the end of the buffer is undefined; [fuel] is one more than the
    characters of the buffer. *)
Fixpoint string_length_loop (fuel : nat) (s : list Z) (result : nat) : res nat :=
  match fuel with
  | O => OutOfFuel
  | S fuel => ch <- rd s result ;; if (ch =? 0)%Z then Ok result else string_length_loop fuel s (S result)
  end.
Definition string_length (m : list buf) (p : option nat) : res nat :=
  b <- get_buf m p ;; string_length_loop (S (length (b_chars b))) (b_chars b) 0.

(** daw_cstring.h 67-68 with 41-46: CString( ptr ): length is 0. *)
Definition c_of (m : list buf) (p : option nat) : res cstr :=
  n <- string_length m p ;; Ok (CStr p n false).
(** daw_cstring.h 70: the default constructor. *)
Definition c_default : cstr := CStr None 0 true.
(** daw_cstring.h 89-90: the defaulted moves copy the members, and leave the source as it is. *)
Definition c_move (src : cstr) : cstr := CStr (c_data src) (c_size src) (c_local src).
(** daw_cstring.h 92-96: swap. *)
Definition c_swap (l r : cstr) : cstr * cstr :=
  (CStr (c_data r) (c_size r) (c_local r), CStr (c_data l) (c_size l) (c_local l)).
(** daw_cstring.h 98-106: the destructor. *)
Definition c_destroy (m : list buf) (s : cstr) : res (list buf) :=
  match c_data s with
  | Some a => if c_local s then delete_array m a else Ok m
  | None => Ok m
  end.
(** daw_cstring.h 113-117: nullify. *)
Definition c_nullify (s : cstr) : cstr := CStr None 0 false.
(** daw_cstring.h 153-155: take_ownership_of_data. *)
Definition c_own (s : cstr) : cstr := CStr (c_data s) (c_size s) true.
(** daw_cstring.h 129-131, 170-173: to_string, std::string{ m_data, m_size }. *)
Definition c_to_string (m : list buf) (s : cstr) : res (list Z) :=
  match c_size s with
  | O => Ok []
  | n => b <- get_buf m (c_data s) ;; if n <=? length (b_chars b) then Ok (firstn n (b_chars b)) else UB
  end.
(** daw_cstring.h 108-111: [pos]. *)
Definition c_at (m : list buf) (s : cstr) (pos : nat) : res Z :=
  b <- get_buf m (c_data s) ;; rd (b_chars b) pos.
(** daw_cstring.h 137-147: is_null, empty, operator bool. *)
Definition c_is_null (s : cstr) : bool := match c_data s with None => true | Some _ => false end.
Definition c_empty (s : cstr) : bool := c_is_null s || (c_size s =? 0).
Definition c_bool (s : cstr) : bool := negb (c_empty s).

(** daw_cstring.h 157-159: compare is strcmp: characters as unsigned bytes, up to a difference or the NUL.  Its result is
    only known by its sign; the model returns the difference. *)
Fixpoint strcmp_loop (fuel : nat) (s t : list Z) (i : nat) : res Z :=
  match fuel with
  | O => OutOfFuel
  | S fuel =>
      x <- rd s i ;; y <- rd t i ;;
      if (x =? y)%Z then if (x =? 0)%Z then Ok 0%Z else strcmp_loop fuel s t (S i) else Ok (x - y)%Z
  end.
Definition c_compare (m : list buf) (l r : cstr) : res Z :=
  s <- get_buf m (c_data l) ;; t <- get_buf m (c_data r) ;;
  strcmp_loop (S (length (b_chars s))) (b_chars s) (b_chars t) 0.
(** daw_operators.h 38-61: the six operators. *)
Inductive cmp := CEq | CNe | CLt | CGt | CLe | CGe.
Definition c_op (o : cmp) (m : list buf) (l r : cstr) : res bool :=
  v <- c_compare m l r ;;
  Ok match o with
     | CEq => (v =? 0)%Z | CNe => negb (v =? 0)%Z | CLt => (v <? 0)%Z
     | CGt => (v >? 0)%Z | CLe => (v <=? 0)%Z | CGe => (v >=? 0)%Z
     end.

(** * A program with variables of type CString.  [None]: not constructed, or destroyed. *)
Inductive cop :=
| COf (x : nat) (a : nat)  (* construct from the pointer to buffer a *)
| CDefault (x : nat)
| CMoveTo (x y : nat)  (* construct x from std::move( y ) *)
| CAssign (x y : nat)  (* x = std::move( y ) *)
| CSwap (x y : nat)
| CNullify (x : nat)
| COwn (x : nat)
| CDestroy (x : nat).
Definition cstate : Type := list buf * list (option cstr).
Definition obj (vs : list (option cstr)) (x : nat) : res cstr :=
  v <- rd vs x ;; match v with Some s => Ok s | None => UB end.
(** A variable that has no object: one can be constructed in it. *)
Definition fresh (vs : list (option cstr)) (x : nat) : res unit :=
  v <- rd vs x ;; match v with Some _ => UB | None => Ok tt end.
Definition c_step (st : cstate) (o : cop) : res cstate :=
  let (m, vs) := st in
  match o with
  | COf x a => _ <- fresh vs x ;; s <- c_of m (Some a) ;; Ok (m, upd vs x (Some s))
  | CDefault x => _ <- fresh vs x ;; Ok (m, upd vs x (Some c_default))
  | CMoveTo x y => _ <- fresh vs x ;; s <- obj vs y ;; Ok (m, upd vs x (Some (c_move s)))
  | CAssign x y => _ <- obj vs x ;; s <- obj vs y ;; Ok (m, upd vs x (Some (c_move s)))
  | CSwap x y =>
      s <- obj vs x ;; t <- obj vs y ;;
      let (s, t) := c_swap s t in Ok (m, upd (upd vs x (Some s)) y (Some t))
  | CNullify x => s <- obj vs x ;; Ok (m, upd vs x (Some (c_nullify s)))
  | COwn x => s <- obj vs x ;; Ok (m, upd vs x (Some (c_own s)))
  | CDestroy x => s <- obj vs x ;; m <- c_destroy m s ;; Ok (m, upd vs x None)
  end.
Fixpoint c_run (st : cstate) (os : list cop) : res cstate :=
  match os with [] => Ok st | o :: os => st <- c_step st o ;; c_run st os end.

(** * generate_n (pipelines/generate.h 31-33): a map_view over an iota_view.  The function is an object with a state: a
    call returns a value and changes the state ([m_func] is mutable, generate.h 20). *)
Section Generate.
Context {S V : Type} (call : S -> V * S).
(** pipelines/map.h 27-63 over iota.h 24-44: the number and the iterator's own copy of the function. *)
Record git := Git { g_pos : nat; g_fn : S }.
(** pipelines/map.h 194-213 and iota.h 157-171: begin and end of the view. *)
Definition g_begin (n : nat) (f : S) : git := Git 0 f.
Definition g_end (n : nat) (f : S) : git := Git n f.
(** pipelines/map.h 73-84 and generate.h 22-24: dereferencing calls the iterator's function. *)
Definition g_deref (it : git) : V * git := let (v, f) := call (g_fn it) in (v, Git (g_pos it) f).
(** pipelines/map.h 94-97, 99-103: the increments; the second returns a copy made before. *)
Definition g_inc (it : git) : git := Git (Datatypes.S (g_pos it)) (g_fn it).
Definition g_post_inc (it : git) : git * git := (it, Git (Datatypes.S (g_pos it)) (g_fn it)).
(** pipelines/map.h 151-159: == and !=. *)
Definition g_eq (l r : git) : bool := g_pos l =? g_pos r.
(** A program with iterator variables over one view.  Each dereference is observed. *)
Inductive gop :=
| GBegin (x : nat)  (* x = view.begin( ) *)
| GCopy (x y : nat)  (* x = y *)
| GDeref (x : nat)
| GInc (x : nat)
| GPostInc (x y : nat).  (* x = y++, for different variables *)
Definition g_step (n : nat) (f : S) (its : list git) (o : gop) : res (list git * list V) :=
  match o with
  | GBegin x => its <- wr its x (g_begin n f) ;; Ok (its, [])
  | GCopy x y => it <- rd its y ;; its <- wr its x it ;; Ok (its, [])
  | GDeref x => it <- rd its x ;; let (v, it) := g_deref it in its <- wr its x it ;; Ok (its, [v])
  | GInc x => it <- rd its x ;; its <- wr its x (g_inc it) ;; Ok (its, [])
  | GPostInc x y =>
      it <- rd its y ;; let (old, it) := g_post_inc it in
      its <- wr its y it ;; its <- wr its x old ;; Ok (its, [])
  end.
Fixpoint g_run (n : nat) (f : S) (its : list git) (os : list gop) : res (list git * list V) :=
  match os with
  | [] => Ok (its, [])
  | o :: os =>
      r <- g_step n f its o ;; let (its, out) := r in
      r <- g_run n f its os ;; let (its, out') := r in Ok (its, out ++ out')
  end.
(** for( auto v : view ): one dereference, then one increment, until the end. *)
Fixpoint g_for (fuel : nat) (it last : git) : res (list V) :=
  match fuel with
  | O => OutOfFuel
  | Datatypes.S fuel =>
      if g_eq it last then Ok []
      else let (v, it) := g_deref it in out <- g_for fuel (g_inc it) last ;; Ok (v :: out)
  end.
Definition generate_n (n : nat) (f : S) : res (list V) := g_for (Datatypes.S n) (g_begin n f) (g_end n f).
(** while( it != last ) out( *it++ ): the copy is dereferenced. *)
Fixpoint g_while (fuel : nat) (it last : git) : res (list V) :=
  match fuel with
  | O => OutOfFuel
  | Datatypes.S fuel =>
      if g_eq it last then Ok []
      else let (old, it) := g_post_inc it in
           let (v, _) := g_deref old in out <- g_while fuel it last ;; Ok (v :: out)
  end.
Definition generate_post (n : nat) (f : S) : res (list V) := g_while (Datatypes.S n) (g_begin n f) (g_end n f).
End Generate.
Arguments git : clear implicits.
