(** Model of deprecated/daw_heap_array.h, deprecated/daw_fixed_array.h and
    deprecated/daw_carray.h.  No proofs in this file. *)
From Verif Require Import Common.
Open Scope nat_scope.

(** The arrays allocated with new[]; None: deleted. *)
Definition arrays (T : Type) : Type := list (option (list T)).
(** An object: m_begin or m_data; m_end (array and offset); m_size.  fixed_array has no m_end. *)
Record arr := Arr { beg : option nat; fin : option (nat * nat); cnt : nat }.
Definition null_arr : arr := Arr None None 0.
(** The arrays and the variables; None: the variable has been destroyed. *)
Definition astate (T : Type) : Type := arrays T * list (option arr).

(** Variables are numbered; a constructor makes the next one. *)
Inductive aop (T : Type) : Type :=
| Default | New (n : nat) (x : T) | FromList (l : list T) | CopyNew (j : nat) | MoveNew (j : nat)
| MoveAssign (i j : nat) | CopyAssign (i j : nat) | AssignList (i : nat) (l : list T)
| SwapWith (i j : nat) | ClearA (i : nat) | SetAt (i k : nat) (x : T) | Destroy (i : nat).
Arguments Default {T}. Arguments New {T}. Arguments FromList {T}. Arguments CopyNew {T}. Arguments MoveNew {T}.
Arguments MoveAssign {T}. Arguments CopyAssign {T}. Arguments AssignList {T}. Arguments SwapWith {T}.
Arguments ClearA {T}. Arguments SetAt {T}. Arguments Destroy {T}.

Section Arrays.
  Context {T : Type} (dflt : T).
  Notation mem := (arrays T).
  (** new T[n]; the elements of new T[n] for a type such as int have no value yet, taken to
      be [dflt] here.  Allocation does not fail. *)
  Definition new_arr (m : mem) (l : list T) : mem * nat := (m ++ [Some l], length m).
  (** delete[] p. *)
  Definition del_arr (m : mem) (p : option nat) : res mem :=
    match p with
    | None => Ok m
    | Some k => match nth_error m k with Some (Some _) => Ok (upd m k None) | _ => UB end
    end.
  Definition get_arr (m : mem) (p : option nat) : res (list T) :=
    match p with
    | None => UB
    | Some k => match nth_error m k with Some (Some l) => Ok l | _ => UB end
    end.
  (** std::copy_n from the start of an array; nothing is read when n = 0. *)
  Definition read_n (m : mem) (p : option nat) (n : nat) : res (list T) :=
    if n =? 0 then Ok []
    else l <- get_arr m p ;; if n <=? length l then Ok (firstn n l) else UB.
  Definition read_at (m : mem) (p : option nat) (k : nat) : res T := l <- get_arr m p ;; rd l k.
  Definition write_at (m : mem) (p : option nat) (k : nat) (x : T) : res mem :=
    l <- get_arr m p ;; l <- wr l k x ;;
    match p with Some a => Ok (upd m a (Some l)) | None => UB end.

  Definition var (vs : list (option arr)) (i : nat) : res arr :=
    match nth_error vs i with Some (Some a) => Ok a | _ => UB end.
  Definition set_var (vs : list (option arr)) (i : nat) (a : arr) : list (option arr) := upd vs i (Some a).

  (** deprecated/daw_heap_array.h *)
  (** 52-61: n elements and one more for find_first_of. *)
  Definition ha_new (m : mem) (l : list T) : mem * arr :=
    let (m, k) := new_arr m (l ++ [dflt]) in (m, Arr (Some k) (Some (k, length l)) (length l)).
  (** 101-107: from a pointer and a size, no extra element; 75-81 copies likewise. *)
  Definition ha_from (m : mem) (l : list T) : mem * arr :=
    let (m, k) := new_arr m l in (m, Arr (Some k) (Some (k, length l)) (length l)).
  (** 109-114. *)
  Definition ha_clear (m : mem) (a : arr) : res (mem * arr) := m <- del_arr m (beg a) ;; Ok (m, null_arr).

  Definition ha_step (s : astate T) (o : aop T) : res (astate T) :=
    let (m, vs) := s in
    match o with
    | Default => Ok (m, vs ++ [Some null_arr])                                            (* 50 *)
    | New n x => let (m, a) := ha_new m (repeat x n) in Ok (m, vs ++ [Some a])              (* 52-61 *)
    | FromList l => let (m, a) := ha_from m l in Ok (m, vs ++ [Some a])                     (* 101-107 *)
    | CopyNew j =>                                                                        (* 75-81 *)
        b <- var vs j ;; l <- read_n m (beg b) (cnt b) ;;
        let (m, a) := ha_from m l in Ok (m, vs ++ [Some a])
    | MoveNew j =>                                                                        (* 63-66 *)
        b <- var vs j ;;
        let '(p, b) := (beg b, Arr None (fin b) (cnt b)) in
        let '(e, b) := (beg b, Arr None (fin b) (cnt b)) in
        let '(n, b) := (cnt b, Arr (beg b) (fin b) 0) in
        Ok (m, set_var vs j b ++ [Some (Arr p (match e with Some k => Some (k, 0) | None => None end) n)])
    | MoveAssign i j =>                                                                   (* 68-73 *)
        a <- var vs i ;; b <- var vs j ;;
        let vs := set_var vs j null_arr in
        Ok (m, set_var vs i b)
    | CopyAssign i j =>                                                                   (* 83-92 *)
        a <- var vs i ;; b <- var vs j ;; l <- read_n m (beg b) (cnt b) ;;
        let (m, c) := ha_from m l in
        ' (m, _) <- ha_clear m a ;; Ok (m, set_var vs i c)
    | AssignList i l =>                                                                   (* 94-99, cswap is swap *)
        a <- var vs i ;; let (m, c) := ha_new m l in
        ' (m, _) <- ha_clear m a ;; Ok (m, set_var vs i c)
    | SwapWith i j =>                                                                     (* 116-120 *)
        a <- var vs i ;; b <- var vs j ;; Ok (m, set_var (set_var vs i b) j a)
    | ClearA i => a <- var vs i ;; ' (m, a) <- ha_clear m a ;; Ok (m, set_var vs i a)      (* 109-114 *)
    | SetAt i k x => a <- var vs i ;; m <- write_at m (beg a) k x ;; Ok (m, vs)           (* 170-176 *)
    | Destroy i => a <- var vs i ;; ' (m, _) <- ha_clear m a ;; Ok (m, upd vs i None)     (* 122-124 *)
    end.

  (** 126-136 operator bool, size and empty. *)
  Definition ha_bool (a : arr) : bool := match beg a with None => true | Some _ => false end.
  Definition ha_empty (a : arr) : bool :=
    match beg a, fin a with
    | None, None => true
    | Some k, Some (k', o) => (k =? k') && (o =? 0)
    | _, _ => false
    end.
  (** 170-176, 178-190 operator[] and at, 192-210 front and back. *)
  Definition ha_get (m : mem) (a : arr) (k : nat) : res T := read_at m (beg a) k.
  Definition ha_at (m : mem) (a : arr) (k : nat) : res T := if k <? cnt a then ha_get m a k else Throw.
  Definition ha_back (m : mem) (a : arr) : res T :=
    match fin a with
    | Some (k, S o) => read_at m (Some k) o
    | _ => UB
    end.
  (** The elements from begin( ) to end( ). *)
  Definition ha_iterate (m : mem) (a : arr) : res (list T) :=
    match beg a, fin a with
    | None, None => Ok []
    | Some k, Some (k', o) => if k =? k' then read_n m (Some k) o else UB
    | _, _ => UB
    end.
  (** 212-227; [n] bounds the loop; the position found is counted from begin( ). *)
  Fixpoint find_loop (eqb : T -> T -> bool) (l : list T) (k n : nat) (x : T) : res nat :=
    match n with
    | O => OutOfFuel
    | S n => y <- rd l k ;; if eqb y x then Ok k else find_loop eqb l (S k) n x
    end.
  Definition ha_find (eqb : T -> T -> bool) (m : mem) (a : arr) (start : nat) (x : T) : res (mem * nat) :=
    match fin a with
    | None => UB
    | Some (e, o) =>
        m <- write_at m (Some e) o x ;; l <- get_arr m (beg a) ;;
        k <- find_loop eqb l start (S (length l)) x ;; Ok (m, k)
    end.

  (** deprecated/daw_fixed_array.h *)
  Definition fa_new (m : mem) (l : list T) : mem * arr :=
    let (m, k) := new_arr m l in (m, Arr (Some k) None (length l)).
  (** 141-144: m_data keeps its value. *)
  Definition fa_clear (m : mem) (a : arr) : res (mem * arr) := m <- del_arr m (beg a) ;; Ok (m, Arr (beg a) None 0).
  Definition fa_step (s : astate T) (o : aop T) : res (astate T) :=
    let (m, vs) := s in
    match o with
    | Default => Ok (m, vs ++ [Some null_arr])                                            (* 47 *)
    | New n x => let (m, a) := fa_new m (repeat x n) in Ok (m, vs ++ [Some a])              (* 49-61 *)
    | FromList l => let (m, a) := fa_new m l in Ok (m, vs ++ [Some a])                      (* 63-83, 119-139 *)
    | CopyNew j =>                                                                        (* 102-107 *)
        b <- var vs j ;; l <- read_n m (beg b) (cnt b) ;;
        let (m, a) := fa_new m l in Ok (m, vs ++ [Some a])
    | MoveNew j => b <- var vs j ;; Ok (m, set_var vs j null_arr ++ [Some b])             (* 89-91 *)
    | MoveAssign i j =>                                                                   (* 93-100 *)
        b <- var vs j ;; let vs := set_var vs j null_arr in
        a <- var vs i ;; ' (m, _) <- fa_clear m a ;; Ok (m, set_var vs i b)
    | CopyAssign i j =>                                                                   (* 109-117 *)
        b <- var vs j ;; l <- read_n m (beg b) (cnt b) ;;
        let (m, c) := fa_new m l in
        a <- var vs i ;; ' (m, _) <- fa_clear m a ;; Ok (m, set_var vs i c)
    | AssignList i l =>                           (* assignment of a fixed_array made from values: 63-83, 93-100 *)
        let (m, c) := fa_new m l in a <- var vs i ;; ' (m, _) <- fa_clear m a ;; Ok (m, set_var vs i c)
    | SwapWith i j =>                                   (* std::swap: one move construction, two assignments *)
        b <- var vs j ;; a <- var vs i ;;
        let vs := set_var vs i null_arr in
        b <- var vs j ;; let vs := set_var vs j null_arr in
        c <- var vs i ;; ' (m, _) <- fa_clear m c ;; let vs := set_var vs i b in
        c <- var vs j ;; ' (m, _) <- fa_clear m c ;; Ok (m, set_var vs j a)
    | ClearA i => a <- var vs i ;; ' (m, a) <- fa_clear m a ;; Ok (m, set_var vs i a)      (* 141-144 *)
    | SetAt i k x => a <- var vs i ;; m <- write_at m (beg a) k x ;; Ok (m, vs)           (* 186-192 *)
    | Destroy i => a <- var vs i ;; ' (m, _) <- fa_clear m a ;; Ok (m, upd vs i None)     (* 146-148 *)
    end.
  (** 186-208 operator[], front and back. *)
  Definition fa_get (m : mem) (a : arr) (k : nat) : res T := read_at m (beg a) k.
  Definition fa_back (m : mem) (a : arr) : res T := if cnt a =? 0 then UB else read_at m (beg a) (cnt a - 1).
  (** 210-213 release: the unique_ptr returned owns the array. *)
  Definition fa_release (s : astate T) (i : nat) : res (astate T * option nat) :=
    let (m, vs) := s in a <- var vs i ;; Ok ((m, set_var vs i null_arr), beg a).

  Fixpoint a_run (step : astate T -> aop T -> res (astate T)) (os : list (aop T)) (s : astate T) : res (astate T) :=
    match os with
    | [] => Ok s
    | o :: os => s <- step s o ;; a_run step os s
    end.

  (** deprecated/daw_carray.h: N elements in the object. *)
  (** 80-86, 24-35: assign_to writes one element after the other; [zero] is the element
      whose bytes are zero, T a type for which these bytes are a value. *)
  Fixpoint assign_to (l : list T) (k : nat) (args : list T) : res (list T) :=
    match args with
    | [] => Ok l
    | x :: args => l <- wr l k x ;; assign_to l (S k) args
    end.
  Definition ca_make (zero : T) (n : nat) (args : list T) : res (list T) := assign_to (repeat zero n) 0 args.
  (** 107-126. *)
  Definition ca_get (l : list T) (k : nat) : res T := rd l k.
  Definition ca_at (l : list T) (k : nat) : res T := if k <? length l then rd l k else Throw.
  (** 182-200. *)
  Definition ca_front (l : list T) : res T := rd l 0.
  Definition ca_back (l : list T) : res T := rd l (length l - 1).
  (** 218-221. *)
  Definition ca_fill (l : list T) (x : T) : list T := repeat x (length l).
  (** 152-180: rbegin( ) is the reverse iterator at N - 1 and rend( ) the one before the
      first element; a reverse iterator at p refers to the element before p.  The positions
      are integers plus one, so that 0 stands for ptr( ) - 1. *)
  Definition ca_rbegin (l : list T) : nat := length l.
  Definition ca_rend (l : list T) : nat := 0.
  Fixpoint ca_rloop (l : list T) (pos last n : nat) : res (list T) :=
    if pos =? last then Ok []
    else match n with
         | O => OutOfFuel
         | S n =>
             match pos with
             | S (S k) => x <- rd l k ;; r <- ca_rloop l (S k) last n ;; Ok (x :: r)
             | _ => UB
             end
         end.
  (** for( auto it = rbegin( ); it != rend( ); ++it ). *)
  Definition ca_reverse (l : list T) : res (list T) := ca_rloop l (ca_rbegin l) (ca_rend l) (S (length l)).
  Definition ca_rfirst (l : list T) : res T := match ca_rbegin l with S (S k) => rd l k | _ => UB end.
End Arrays.
