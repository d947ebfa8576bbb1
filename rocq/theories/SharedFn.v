(** Model of include/daw/daw_shared_function.h ("sf.h" below): shared_function and
    weak_shared_function, used by several threads at once.  No proofs in this file.

    The handles are variables with a place ([slots]); the storages of the functions
    are numbered in the order of their allocation.  An event lets one thread go on by
    one access to a counter or storage: [pcs] says where each thread is.  The accesses
    to the counters are sequentially consistent (the memory orders are not modelled);
    the counters are int and wrap around.

    Outcomes: [UB] is a use of a deleted storage or of a function that is not there.
    [Throw] is a mistake of the program that uses the handles and not of sf.h: two
    threads use one handle variable at the same time and one of them changes it, a
    variable is used before or after its life, a copy between the two kinds of
    handles, a call of an empty handle (daw_ensure, line 299).

    Simplifications: the old value of a variable that is assigned to is taken out when
    the assignment starts (nobody else may look at it); the store to the variable is
    one step with the last access to a counter before it; a function that is trivial
    to destroy lives in sf.h until its storage is deleted, here it is gone with the
    last owner as the others (not observable); functions do not destroy handles while
    they are called. *)
From Verif Require Import Common Ints.
Open Scope Z_scope.

(** sf.h:194-237 a weak_shared_function, 240-306 a shared_function; the storage. *)
Inductive handle := Strong (s : option nat) | Weak (s : option nat).
(** sf.h:31-33 the counters, 105-107 the function; [destroyed] counts the calls of
    its destructor. *)
Record store := Store { m_strong : Z; m_weak : Z; has_fn : bool; freed : bool; destroyed : nat }.
(** Where a thread is.  [i] is the variable that gets the result, [j] the one that is
    copied, [old] the value to release afterwards. *)
Inductive pc :=
| Idle
| IncStrong (i j k : nat) (old : handle)       (* 43 ++m_strong_count *)
| IncWeak (i j k : nat) (h old : handle)       (* 44, 56, 64 ++m_weak_count *)
| Load (i j k : nat)                           (* 49 m_strong_count.load( ) *)
| Cas (i j k : nat) (count : Z)                (* 51 compare_exchange_weak *)
| DecStrong (k : nat)                          (* 69 --m_strong_count *)
| Reset (k : nat)                              (* 163 reset_storage( ) *)
| DecWeak (k : nat)                            (* 73 --m_weak_count *)
| Delete (k : nat)                             (* 151 delete p *)
| InCall (j k : nat).                          (* 300 the function is running *)
Record world := World { slots : list (option handle); stores : list store; pcs : list pc }.

Definition reads (p : pc) : list nat :=
  match p with
  | IncStrong _ j _ _ | IncWeak _ j _ _ _ | Load _ j _ | Cas _ j _ _ | InCall j _ => [j]
  | _ => []
  end.
Definition writes (p : pc) : list nat :=
  match p with
  | IncStrong i _ _ _ | IncWeak i _ _ _ _ | Load i _ _ | Cas i _ _ _ => [i]
  | _ => []
  end.
Definition mem (i : nat) (l : list nat) : bool := existsb (Nat.eqb i) l.

(** A variable to construct, to read, and to change. *)
Definition unused (w : world) (i : nat) : res unit :=
  match nth_error (slots w) i with
  | Some None => if existsb (fun p => mem i (writes p)) (pcs w) then Throw else Ok tt
  | _ => Throw
  end.
Definition value (w : world) (j : nat) : res handle :=
  match nth_error (slots w) j with Some (Some h) => Ok h | _ => Throw end.
Definition take (w : world) (i : nat) : res handle :=
  if existsb (fun p => mem i (reads p)) (pcs w) then Throw else value w i.

Definition set_slot (w : world) (i : nat) (h : option handle) : world := World (upd (slots w) i h) (stores w) (pcs w).
Definition set_pc (w : world) (t : nat) (p : pc) : world := World (slots w) (stores w) (upd (pcs w) t p).
Definition set_store (w : world) (k : nat) (s : store) : world := World (slots w) (upd (stores w) k s) (pcs w).
Definition get_store (w : world) (k : nat) : res store :=
  match nth_error (stores w) k with Some s => if freed s then UB else Ok s | None => UB end.

(** sf.h:143-166 weak_release and strong_release: where they start. *)
Definition release (h : handle) : pc :=
  match h with Strong (Some k) => DecStrong k | Weak (Some k) => DecWeak k | _ => Idle end.
(** std::exchange( m_storage, nullptr ). *)
Definition emptied (h : handle) : handle := match h with Strong _ => Strong None | Weak _ => Weak None end.
Definition same_kind (a b : handle) : bool :=
  match a, b with Strong _, Strong _ | Weak _, Weak _ => true | _, _ => false end.

(** Statements on variables. *)
Inductive sf_op :=
| Make (i : nat)            (* shared_function vi( fn ): 250-255, 168-191 *)
| MakeNull (i : nat)        (* shared_function vi, or of nullptr: 257-259, 183-188 *)
| Copy (i j : nat)          (* T vi( vj ): 205-208, 266-268 *)
| Move (i j : nat)          (* T vi( move( vj ) ): 210-212, 270-271 *)
| Assign (i j : nat)        (* vi = vj: 214-222, 273-281 *)
| MoveAssign (i j : nat)    (* vi = move( vj ): 224-232, 283-291 *)
| Destroy (i : nat)         (* vi leaves its scope: 234-236, 261-264 *)
| GetWeak (i j : nat)       (* auto vi = vj.get_weak( ): 359-361, 388-390 *)
| Lock (i j : nat)          (* auto vi = vj.lock( ): 393-397 *)
| Call (j : nat).           (* vj( … ): 293-302, 112-121 *)

(** A thread that is [Idle] starts a statement. *)
Definition start (w : world) (t : nat) (op : sf_op) : res world :=
  match op with
  | Make i =>
      _ <- unused w i ;;
      Ok (World (upd (slots w) i (Some (Strong (Some (length (stores w)))))) (stores w ++ [Store 1 1 true false 0]) (pcs w))
  | MakeNull i => _ <- unused w i ;; Ok (set_slot w i (Some (Strong None)))
  | Copy i j =>
      _ <- unused w i ;;
      h <- value w j ;;
      match h with
      | Strong (Some k) => Ok (set_pc w t (IncStrong i j k (Strong None)))
      | Weak (Some k) => Ok (set_pc w t (IncWeak i j k h (Strong None)))
      | _ => Ok (set_slot w i (Some h))
      end
  | Move i j =>
      _ <- unused w i ;;
      h <- take w j ;;
      Ok (set_slot (set_slot w j (Some (emptied h))) i (Some h))
  | Assign i j =>
      if (i =? j)%nat then _ <- value w i ;; Ok w
      else
        old <- take w i ;;
        h <- value w j ;;
        if negb (same_kind old h) then Throw
        else
          match h with
          | Strong (Some k) => Ok (set_pc (set_slot w i None) t (IncStrong i j k old))
          | Weak (Some k) => Ok (set_pc (set_slot w i None) t (IncWeak i j k h old))
          | _ => Ok (set_pc (set_slot w i (Some h)) t (release old))
          end
  | MoveAssign i j =>
      if (i =? j)%nat then _ <- value w i ;; Ok w
      else
        old <- take w i ;;
        h <- take w j ;;
        if negb (same_kind old h) then Throw
        else Ok (set_pc (set_slot (set_slot w j (Some (emptied h))) i (Some h)) t (release old))
  | Destroy i =>
      old <- take w i ;;
      Ok (set_pc (set_slot w i None) t (release old))
  | GetWeak i j =>
      _ <- unused w i ;;
      h <- value w j ;;
      match h with
      | Strong (Some k) => Ok (set_pc w t (IncWeak i j k (Weak (Some k)) (Strong None)))
      | Strong None => Ok (set_slot w i (Some (Weak None)))
      | Weak _ => Throw
      end
  | Lock i j =>
      _ <- unused w i ;;
      h <- value w j ;;
      match h with
      | Weak (Some k) => Ok (set_pc w t (Load i j k))
      | Weak None => Ok (set_slot w i (Some (Strong None)))
      | Strong _ => Throw
      end
  | Call j =>
      h <- value w j ;;
      match h with
      | Strong (Some k) =>
          s <- get_store w k ;;
          if has_fn s then Ok (set_pc w t (InCall j k)) else UB
      | _ => Throw
      end
  end.

Definition int_add (n d : Z) : Z := swrap 32 (n + d).
Definition add_strong (s : store) (d : Z) : store := Store (int_add (m_strong s) d) (m_weak s) (has_fn s) (freed s) (destroyed s).
Definition add_weak (s : store) (d : Z) : store := Store (m_strong s) (int_add (m_weak s) d) (has_fn s) (freed s) (destroyed s).
(** The function is destroyed if it is there. *)
Definition destroy_fn (s : store) : store :=
  Store (m_strong s) (m_weak s) false (freed s) (if has_fn s then S (destroyed s) else destroyed s).
Definition free_store (s : store) : store := Store (m_strong s) (m_weak s) (has_fn s) true (destroyed s).

(** sf.h:50 while( count > 0 ). *)
Definition lock_round (w : world) (t i j k : nat) (count : Z) : world :=
  if 0 <? count then set_pc w t (Cas i j k count)
  else set_pc (set_slot w i (Some (Strong None))) t Idle.

(** A thread goes on; [spurious]: compare_exchange_weak fails although the values
    are equal. *)
Definition go_on (w : world) (t : nat) (p : pc) (spurious : bool) : res world :=
  match p with
  | Idle => Ok w
  | IncStrong i j k old =>
      s <- get_store w k ;;
      Ok (set_pc (set_store w k (add_strong s 1)) t (IncWeak i j k (Strong (Some k)) old))
  | IncWeak i j k h old =>
      s <- get_store w k ;;
      Ok (set_pc (set_slot (set_store w k (add_weak s 1)) i (Some h)) t (release old))
  | Load i j k => s <- get_store w k ;; Ok (lock_round w t i j k (m_strong s))
  | Cas i j k count =>
      s <- get_store w k ;;
      if (m_strong s =? count) && negb spurious
      then Ok (set_pc (set_store w k (add_strong s 1)) t (IncWeak i j k (Strong (Some k)) (Strong None)))
      else Ok (lock_round w t i j k (m_strong s))
  | DecStrong k =>
      s <- get_store w k ;;
      let s := add_strong s (-1) in
      Ok (set_pc (set_store w k s) t (if m_strong s =? 0 then Reset k else DecWeak k))
  | Reset k => s <- get_store w k ;; Ok (set_pc (set_store w k (destroy_fn s)) t (DecWeak k))
  | DecWeak k =>
      s <- get_store w k ;;
      let s := add_weak s (-1) in
      Ok (set_pc (set_store w k s) t (if m_weak s =? 0 then Delete k else Idle))
  | Delete k => s <- get_store w k ;; Ok (set_pc (set_store w k (free_store (destroy_fn s))) t Idle)
  | InCall j k => s <- get_store w k ;; if has_fn s then Ok (set_pc w t Idle) else UB
  end.

(** An event: the thread, the statement it starts if it is idle, and whether a
    compare_exchange_weak fails without reason.  There is no thread: nothing. *)
Definition event := (nat * sf_op * bool)%type.
Definition step (w : world) (e : event) : res world :=
  let '(t, op, spurious) := e in
  match nth_error (pcs w) t with
  | None => Ok w
  | Some Idle => start w t op
  | Some p => go_on w t p spurious
  end.
Fixpoint run (w : world) (es : list event) : res world :=
  match es with
  | [] => Ok w
  | e :: es => w <- step w e ;; run w es
  end.
(** [n] variables, [m] threads. *)
Definition initial (n m : nat) : world := World (repeat None n) [] (repeat Idle m).
