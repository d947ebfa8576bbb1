(** Vocabulary for the small tools. *)
From Verif Require Import Common Ints SmallTools.
Open Scope Z_scope.

(** * Arrays *)
(** The elements in memory order. *)
Fixpoint flatten {T} (a : nested T) : list T :=
  match a with Leaf x => [x] | Arr l => concat (map flatten l) end.
(** Two arrays of one type. *)
Inductive same_shape {T} : nested T -> nested T -> Prop :=
| SameLeaf x y : same_shape (Leaf x) (Leaf y)
| SameArr l m : Forall2 same_shape l m -> same_shape (Arr l) (Arr m).
(** [r] is the result of the first comparison of [xs] and [ys] that is not [eqv], or [eqv]. *)
Definition first_result {T R} (cmp : T -> T -> R) (eqv : R) (xs ys : list T) (r : R) : Prop :=
  (r = eqv /\ forall i x y, nth_error xs i = Some x -> nth_error ys i = Some y -> cmp x y = eqv) \/
  (exists i x y, nth_error xs i = Some x /\ nth_error ys i = Some y /\ r = cmp x y /\ r <> eqv /\
     forall j x' y', (j < i)%nat -> nth_error xs j = Some x' -> nth_error ys j = Some y' -> cmp x' y' = eqv).

(** * The caching iterator *)
Definition reads_only (op : cl_op) : Prop := match op with ClWrite _ => False | _ => True end.
(** A plain iterator at position [p] of [mem]. *)
Fixpoint plain_run (mem : list Z) (p : nat) (ops : list cl_op) : option (nat * list Z) :=
  match ops with
  | [] => Some (p, [])
  | op :: ops =>
      let read := match nth_error mem p with Some x => Some x | None => None end in
      let fwd := (p <? length mem)%nat in
      match op with
      | ClRead => match read with Some x => match plain_run mem p ops with Some (q, ys) => Some (q, x :: ys) | None => None end | None => None end
      | ClWrite _ => None
      | ClNext => if fwd then plain_run mem (S p) ops else None
      | ClPrev => if (0 <? p)%nat then plain_run mem (p - 1) ops else None
      | ClPostNext =>
          match read with Some x => match plain_run mem (S p) ops with Some (q, ys) => Some (q, x :: ys) | None => None end | None => None end
      | ClPostPrev =>
          if (0 <? p)%nat
          then match read with Some x => match plain_run mem (p - 1) ops with Some (q, ys) => Some (q, x :: ys) | None => None end | None => None end
          else None
      end
  end.
(** The number of stays at a position in which it is read; [fresh]: not yet read. *)
Fixpoint stays_read (fresh : bool) (ops : list cl_op) : nat :=
  let one := if fresh then 1%nat else 0%nat in
  match ops with
  | [] => 0
  | ClRead :: ops | ClWrite _ :: ops => one + stays_read false ops
  | ClNext :: ops | ClPrev :: ops => stays_read true ops
  | ClPostNext :: ops | ClPostPrev :: ops => one + stays_read true ops
  end.

(** * Sizes *)
(** The value of a unit: the decimal units have a factor of 1000, the binary ones of 1024. *)
Definition unit_size (u : unit_name) : Z :=
  match u with
  | KB => 1000 | MB => 1000 ^ 2 | GB => 1000 ^ 3 | TB => 1000 ^ 4 | PB => 1000 ^ 5
  | KiB => 1024 | MiB => 1024 ^ 2 | GiB => 1024 ^ 3 | TiB => 1024 ^ 4 | PiB => 1024 ^ 5
  end.
(** The unit with the factors exchanged. *)
Definition other_unit (u : unit_name) : unit_name :=
  match u with KB => KiB | MB => MiB | GB => GiB | TB => TiB | PB => PiB | KiB => KB | MiB => MB | GiB => GB | TiB => TB | PiB => PB end.

(** * Repeated calls *)
(** 0, by, 2 by, ... below [count]. *)
Definition multiples (by_n count : Z) : list Z := map (fun i => Z.of_nat i * by_n) (seq 0 (Z.to_nat ((count + by_n - 1) / by_n))).
Definition commuting {S} (call_with : S -> Z -> S) : Prop := forall s x y, call_with (call_with s x) y = call_with (call_with s y) x.
