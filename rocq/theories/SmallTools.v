(** Model of daw_function_table.h (ft.h), algorithms/daw_array_compare.h (ac.h),
    daw_bitset_helper.h (bh.h), pipelines/cache_last_view.h (cl.h), daw_size_literals.h
    (sl.h) and daw_do_n.h (dn.h).

    [Throw] is an exception, or the end of the program by daw_ensure in a debug build
    ([dbg]). *)
From Verif Require Import Common Ints.
Open Scope Z_scope.

(** * ft.h: tables of functions *)
(** A function of the table: the lists of argument types it can be called with, the
    types it can be assigned from, and what it returns.  Types are numbers, values are
    integers; the functions have no other effect. *)
Record fn := Fn { f_takes : list nat -> bool; f_sets : nat -> bool; f_run : list Z -> Z }.
Inductive answer := Answered (x : Z) | Aborted.
(** An argument: its type and its value. *)
Definition arg := (nat * Z)%type.
(** ft.h:67-84 apply_at_impl: [i] is the template parameter I, [fs] the functions from
    there on. *)
Fixpoint apply_at (allow_empty : bool) (i : nat) (idx : Z) (fs : list fn) (args : list arg) : answer :=
  match fs with
  | [] => Aborted
  | f :: fs =>
      if idx =? Z.of_nat i then
        if f_takes f (map fst args) then Answered (f_run f (map snd args))
        else if allow_empty && f_takes f [] then Answered (f_run f [])
        else Aborted
      else apply_at allow_empty (S i) idx fs args
  end.
(** ft.h:86-102 set_at_impl: the value has the type [t] and behaves as [run]. *)
Fixpoint set_at (i : nat) (idx : Z) (fs : list fn) (t : nat) (run : list Z -> Z) : option (list fn) :=
  match fs with
  | [] => None
  | f :: fs =>
      if idx =? Z.of_nat i then if f_sets f t then Some (Fn (f_takes f) (f_sets f) run :: fs) else None
      else match set_at (S i) idx fs t run with Some fs => Some (f :: fs) | None => None end
  end.
(** ft.h:107-112: [same] is using_array_v.  ft.h:120-128 call; with an array the call
    has to compile for the one function type. *)
Definition ft_call (same allow_empty : bool) (fs : list fn) (idx : Z) (args : list arg) : res answer :=
  if same then f <- rd fs (Z.to_nat idx) ;; Ok (Answered (f_run f (map snd args)))
  else Ok (apply_at allow_empty 0 idx fs args).
(** ft.h:130-133 operator( ): calls call without allow_empty. *)
Definition ft_operator (same allow_empty : bool) (fs : list fn) (idx : Z) (args : list arg) : res answer :=
  ft_call same false fs idx args.
(** ft.h:135-142 set; [None]: std::abort. *)
Definition ft_set (same : bool) (fs : list fn) (idx : Z) (t : nat) (run : list Z -> Z) : res (option (list fn)) :=
  if same then f <- rd fs (Z.to_nat idx) ;; fs <- wr fs (Z.to_nat idx) (Fn (f_takes f) (f_sets f) run) ;; Ok (Some fs)
  else Ok (set_at 0 idx fs t run).

(** * ac.h: comparing arrays *)
(** An array of arrays of ... of T.  Both arguments have the same type, so the same
    extents. *)
Inductive nested (T : Type) := Leaf (x : T) | Arr (l : list (nested T)).
Arguments Leaf {T} x. Arguments Arr {T} l.
(** ac.h:31-52 array_cmp: [eqv] is equal_or_equivalent_v of the result type of [cmp]
    (true for bool, ac.h:21-29), [same] is ==. *)
Section ArrayCmp.
  Context {T R : Type}.
  Variable cmp : T -> T -> R.
  Variable same : R -> R -> bool.
  Variable eqv : R.
  Fixpoint array_cmp (a b : nested T) : R :=
    match a, b with
    | Leaf x, Leaf y => cmp x y
    | Arr l, Arr m =>
        (fix go (l m : list (nested T)) : R :=
           match l, m with
           | a :: l, b :: m => let r := array_cmp a b in if negb (same r eqv) then r else go l m
           | _, _ => eqv
           end) l m
    | _, _ => eqv
    end.
End ArrayCmp.

(** * bh.h: a bitset from positions *)
(** std::bitset<N>::set( pos ). *)
Definition bs_set (b : list bool) (pos : Z) : res (list bool) :=
  if pos <? Z.of_nat (length b) then wr b (Z.to_nat pos) true else Throw.
(** bh.h:21-35: the positions have the type [ty]; bh.h:53-67 does the same for a pack. *)
Fixpoint bits_at (dbg : bool) (ty : ity) (b : list bool) (ps : list Z) : res (list bool) :=
  match ps with
  | [] => Ok b
  | p :: ps =>
      if dbg && negb (negb (signed ty) || (0 <=? p)) then Throw
      else if dbg && negb (sz p <? Z.of_nat (length b)) then Throw
      else b <- bs_set b (sz p) ;; bits_at dbg ty b ps
  end.
Definition create_bitset (dbg : bool) (ty : ity) (n : nat) (ps : list Z) : res (list bool) :=
  bits_at dbg ty (repeat false n) ps.

(** * cl.h: an iterator that caches what it read *)
(** cl.h:32-33: the position in the array [cl_mem], and the cached value; [cl_reads] is
    the number of times the underlying iterator was dereferenced. *)
Record cl := Cl { cl_mem : list Z; cl_reads : nat; cl_pos : nat; cl_cached : option Z }.
Inductive cl_op :=
| ClRead         (* x = *it: cl.h:41-50; the same as it-> (52-54) *)
| ClWrite (x : Z) (* *it = x *)
| ClNext         (* ++it: cl.h:56-60 *)
| ClPostNext     (* x = *it++: cl.h:62-66 *)
| ClPrev         (* --it: cl.h:68-74 *)
| ClPostPrev.    (* x = *it--: cl.h:76-82 *)
(** cl.h:41-46 value. *)
Definition cl_value (s : cl) : res (cl * Z) :=
  match cl_cached s with
  | Some x => Ok (s, x)
  | None => x <- rd (cl_mem s) (cl_pos s) ;; Ok (Cl (cl_mem s) (S (cl_reads s)) (cl_pos s) (Some x), x)
  end.
(** ++ and -- of a pointer into the array. *)
Definition cl_next (s : cl) : res cl :=
  if (cl_pos s <? length (cl_mem s))%nat then Ok (Cl (cl_mem s) (cl_reads s) (S (cl_pos s)) None) else UB.
Definition cl_prev (s : cl) : res cl :=
  match cl_pos s with O => UB | S p => Ok (Cl (cl_mem s) (cl_reads s) p None) end.
Definition cl_step (s : cl) (op : cl_op) : res (cl * option Z) :=
  match op with
  | ClRead => ' (s, x) <- cl_value s ;; Ok (s, Some x)
  | ClWrite x =>
      ' (s, _) <- cl_value s ;; Ok (Cl (cl_mem s) (cl_reads s) (cl_pos s) (Some x), None)
  | ClNext => s <- cl_next s ;; Ok (s, None)
  | ClPrev => s <- cl_prev s ;; Ok (s, None)
  | ClPostNext =>
      t <- cl_next s ;; ' (r, x) <- cl_value s ;; Ok (Cl (cl_mem t) (cl_reads r) (cl_pos t) (cl_cached t), Some x)
  | ClPostPrev =>
      t <- cl_prev s ;; ' (r, x) <- cl_value s ;; Ok (Cl (cl_mem t) (cl_reads r) (cl_pos t) (cl_cached t), Some x)
  end.
Fixpoint cl_run (s : cl) (ops : list cl_op) : res (cl * list Z) :=
  match ops with
  | [] => Ok (s, [])
  | op :: ops =>
      ' (s, y) <- cl_step s op ;; ' (s, ys) <- cl_run s ops ;;
      Ok (s, match y with Some x => x :: ys | None => ys end)
  end.
(** cl.h:38-39: the iterator at a position. *)
Definition cl_make (mem : list Z) (pos : nat) : cl := Cl mem 0 pos None.

(** * sl.h: size literals *)
Inductive unit_name := KB | MB | GB | TB | PB | KiB | MiB | GiB | TiB | PiB.
Definition times (k : nat) (m x : Z) : Z := Nat.iter k (fun x => sz (x * m)) x.
(** sl.h:12-60. *)
Definition literal (u : unit_name) (x : Z) : Z :=
  match u with
  | KB => times 1 1024 x | MB => times 2 1024 x | GB => times 3 1024 x | TB => times 4 1024 x | PB => times 5 1024 x
  | KiB => times 1 1000 x | MiB => times 2 1000 x | GiB => times 3 1000 x | TiB => times 4 1000 x | PiB => times 5 1000 x
  end.

(** * dn.h: calling a function n times *)
Section DoN.
  Context {S : Type}.
  (** What a call does, with and without an argument. *)
  Variable call : S -> S.
  Variable call_with : S -> Z -> S.
  (** dn.h:49-56 do_n( count, func ): [fuel] rounds at most. *)
  Fixpoint do_n (fuel : nat) (count : Z) (s : S) : res S :=
    match fuel with
    | O => OutOfFuel
    | Datatypes.S fuel => if 0 <? count then do_n fuel (sz (count - 1)) (call s) else Ok s
    end.
  (** dn.h:58-67 do_n_arg( count, func ). *)
  Fixpoint do_n_arg_loop (fuel : nat) (n count : Z) (s : S) : res S :=
    match fuel with
    | O => OutOfFuel
    | Datatypes.S fuel => if n <? count then do_n_arg_loop fuel (sz (n + 1)) count (call_with s n) else Ok s
    end.
  Definition do_n_arg (fuel : nat) (count : Z) (s : S) : res S := do_n_arg_loop fuel 0 count s.
  (** dn.h:30-38 and 69-77 do_n_arg<count, by_n>( func ): the operands of + are evaluated
      in an order the compiler chooses; [order] is that order of the Is, a permutation of
      0, ..., count / by_n - 1. *)
  Definition static_args (order : list nat) (by_n : Z) : list Z := map (fun i => sz (Z.of_nat i * by_n)) order.
  Definition do_n_arg_static (order : list nat) (by_n : Z) (s : S) : S := fold_left call_with (static_args order by_n) s.
  (** dn.h:21-28 and 41-47 do_n<count>( func ). *)
  Definition do_n_static (order : list nat) (s : S) : S := fold_left (fun s _ => call s) order s.
End DoN.
(** dn.h:75: the number of calls. *)
Definition static_count (count by_n : Z) : nat := Z.to_nat (count / by_n).
