(** Model of include/daw/daw_ref_counted_pointer.h: rc_ptr<T> and rc_ptr<T[]>.  No
    proofs in this file.

    [arr]: the array specialisation (lines 222-408), else the single object one
    (lines 51-219).  Objects and reference counts are numbered in the order of their
    allocation.  Deleting something twice, using a deleted count and failing
    assertions are UB.  Variables are numbered in the order of their construction; a
    destroyed variable stays as [None].  The custom deleter, the comparison operators
    and get_deleter are not modelled. *)
From Verif Require Import Common Ints.
Open Scope Z_scope.

Record rc := RC { m_pointer : option nat; m_ref_count : option nat }.
Record world := World {
  objects : list bool;        (* not yet deleted *)
  counts : list (option Z);   (* the allocated counts, [None] once deleted *)
  vars : list (option rc)     (* the rc_ptr variables *)
}.

Definition rc_null := RC None None.

Definition get_var (w : world) (i : nat) : res rc :=
  match nth_error (vars w) i with Some (Some p) => Ok p | _ => UB end.
Definition set_var (w : world) (i : nat) (p : option rc) : world := World (objects w) (counts w) (upd (vars w) i p).
Definition add_var (w : world) (p : rc) : world := World (objects w) (counts w) (vars w ++ [Some p]).

(** ref_count( ): the count a variable refers to, with its number. *)
Definition ref_count (w : world) (p : rc) : res (nat * Z) :=
  match m_ref_count p with
  | None => UB
  | Some r => match nth_error (counts w) r with Some (Some n) => Ok (r, n) | _ => UB end
  end.
Definition put_count (w : world) (r : nat) (n : option Z) : world := World (objects w) (upd (counts w) r n) (vars w).
(** ++ref_count( ) *)
Definition inc (w : world) (p : rc) : res world :=
  ' (r, n) <- ref_count w p ;; Ok (put_count w r (Some (sz (n + 1)))).
(** delete ptr *)
Definition delete_object (w : world) (k : nat) : res world :=
  match nth_error (objects w) k with
  | Some true => Ok (World (upd (objects w) k false) (counts w) (vars w))
  | _ => UB
  end.

(** 126-138 and 299-312 reset( ): what becomes of the world and of *this. *)
Definition reset_value (w : world) (p : rc) : res (world * rc) :=
  match m_pointer p with
  | None => Ok (w, p)
  | Some k =>
      ' (r, n) <- ref_count w p ;;
      let n := sz (n - 1) in
      if n =? 0 then
        w <- delete_object (put_count w r None) k ;;
        Ok (w, rc_null)
      else Ok (put_count w r (Some n), p)
  end.
Definition reset (w : world) (i : nat) : res world :=
  p <- get_var w i ;;
  ' (w, p) <- reset_value w p ;;
  Ok (set_var w i (Some p)).

(** Statements of a program. *)
Inductive rc_op :=
| RcMake                    (* auto v = make_rc_ptr<T>( … ): 117-123, 425-434 *)
| RcNull                    (* rc_ptr v: 77 *)
| RcCopy (j : nat)          (* rc_ptr v( vj ): 79-85, 250-258 *)
| RcMove (j : nat)          (* rc_ptr v( move( vj ) ): 101-103, 274-276 *)
| RcAssign (i j : nat)      (* vi = vj: 87-99, 260-272 *)
| RcMoveAssign (i j : nat)  (* vi = move( vj ): 105-113, 278-286 *)
| RcSwap (i j : nat)        (* vi.swap( vj ): 288-291 and before *)
| RcReset (i : nat)         (* vi.reset( ) *)
| RcDestroy (i : nat).      (* vi leaves its scope: ~rc_ptr calls reset *)

Definition rc_step (arr : bool) (w : world) (op : rc_op) : res world :=
  match op with
  | RcMake =>
      let k := length (objects w) in
      let r := length (counts w) in
      Ok (add_var (World (objects w ++ [true]) (counts w ++ [Some 1]) (vars w)) (RC (Some k) (Some r)))
  | RcNull => Ok (add_var w rc_null)
  | RcCopy j =>
      p <- get_var w j ;;
      w <- match m_ref_count p with Some _ => inc w p | None => Ok w end ;;
      Ok (add_var w p)
  | RcMove j =>
      p <- get_var w j ;;
      Ok (add_var (set_var w j (Some rc_null)) p)
  | RcAssign i j =>
      _ <- get_var w i ;;
      q <- get_var w j ;;
      if (i =? j)%nat then Ok w
      else
        w <- reset w i ;;
        if arr then
          let w := set_var w i (Some q) in
          match m_pointer q with Some _ => inc w q | None => Ok w end
        else
          match m_pointer q with
          | Some _ => inc (set_var w i (Some q)) q
          | None => Ok w
          end
  | RcMoveAssign i j =>
      _ <- get_var w i ;;
      q <- get_var w j ;;
      if (i =? j)%nat then Ok w
      else
        w <- reset w i ;;
        Ok (set_var (set_var w j (Some rc_null)) i (Some q))
  | RcSwap i j =>
      p <- get_var w i ;;
      q <- get_var w j ;;
      Ok (set_var (set_var w j (Some p)) i (Some q))
  | RcReset i => reset w i
  | RcDestroy i =>
      w <- reset w i ;;
      Ok (set_var w i None)
  end.

Fixpoint rc_run (arr : bool) (w : world) (ops : list rc_op) : res world :=
  match ops with
  | [] => Ok w
  | op :: ops => w <- rc_step arr w op ;; rc_run arr w ops
  end.
Definition rc_start := World [] [] [].
(** operator* and operator-> of a variable: is the object alive? *)
Definition rc_deref (w : world) (i : nat) : res nat :=
  p <- get_var w i ;;
  match m_pointer p with
  | None => UB
  | Some k => match nth_error (objects w) k with Some true => Ok k | _ => UB end
  end.
