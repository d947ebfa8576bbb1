(** What a vector is: a list of values in the first slots of its storage, the rest of
    the storage raw.  Operations on it are operations on the list. *)
From Verif Require Import Common Ints Vector.
Open Scope Z_scope.

(** The vector holds exactly [xs], every element is a live object and no other slot is. *)
Definition holds {A} (ms : Z) (v : vec A) (xs : list A) : Prop :=
  len v = length xs /\
  (exists spare, buf v = map Obj xs ++ repeat Raw spare) /\
  Z.of_nat (capacity v) <= ms.

(** max_size( ) of a vector: positive, and a difference_type. *)
Definition max_size_ok (ms : Z) : Prop := 0 < ms < 2 ^ 63.

Definition ref_value {A} (xs : list A) (x : ref A) : option A :=
  match x with Val a => Some a | Elem i => nth_error xs i end.

(** List operations. *)
Definition put {A} (p : nat) (ys xs : list A) : list A := firstn p xs ++ ys ++ skipn p xs.
Definition cut {A} (p q : nat) (xs : list A) : list A := firstn p xs ++ skipn q xs.
Definition fit {A} (n : nat) (x : A) (xs : list A) : list A := firstn n xs ++ repeat x (n - length xs).

(** The mutating members. *)
Inductive vop (A : Type) :=
| OpPush (x : ref A) | OpPop
| OpInsert (p : nat) (x : ref A) | OpEmplace (p : nat) (x : ref A)
| OpInsertN (p : nat) (n : Z) (x : ref A)
| OpInsertRange (p : nat) (l : list A) | OpInsertInput (p : nat) (l : list A)
| OpErase (p : nat) | OpEraseRange (p q : nat) | OpEraseIf (f : A -> bool)
| OpAppend (n : Z) (x : ref A) | OpResize (n : Z) | OpResizeValue (n : Z) (x : ref A)
| OpAssign (l : list A) | OpAssignInput (l : list A) | OpAssignN (n : Z) (a : A)
| OpReserve (n : Z) | OpShrink | OpClear.
Arguments OpPush {A} x. Arguments OpPop {A}. Arguments OpInsert {A} p x. Arguments OpEmplace {A} p x.
Arguments OpInsertN {A} p n x. Arguments OpInsertRange {A} p l. Arguments OpInsertInput {A} p l.
Arguments OpErase {A} p. Arguments OpEraseRange {A} p q. Arguments OpEraseIf {A} f.
Arguments OpAppend {A} n x. Arguments OpResize {A} n. Arguments OpResizeValue {A} n x.
Arguments OpAssign {A} l. Arguments OpAssignInput {A} l. Arguments OpAssignN {A} n a.
Arguments OpReserve {A} n. Arguments OpShrink {A}. Arguments OpClear {A}.

(** The same members of the model. *)
Definition vstep {A} (trivial : bool) (ms : Z) (dflt : A) (o : vop A) (v : vec A) : res (vec A) :=
  match o with
  | OpPush x => push_back trivial ms v x
  | OpPop => pop_back trivial v
  | OpInsert p x => r <- insert trivial ms v p x ;; Ok (fst r)
  | OpEmplace p x => r <- emplace trivial ms v p x ;; Ok (fst r)
  | OpInsertN p n x => r <- insert_n trivial ms v p n x ;; Ok (fst r)
  | OpInsertRange p l => r <- insert_range trivial ms v p l ;; Ok (fst r)
  | OpInsertInput p l => r <- insert_input trivial ms v p l ;; Ok (fst r)
  | OpErase p => r <- erase trivial v p ;; Ok (fst r)
  | OpEraseRange p q => r <- erase_range trivial v p q ;; Ok (fst r)
  | OpEraseIf f => r <- erase_if trivial v f ;; Ok (fst r)
  | OpAppend n x => append trivial ms v n x
  | OpResize n => resize trivial ms dflt v n
  | OpResizeValue n x => resize_ref trivial ms v n x
  | OpAssign l => assign trivial ms v l
  | OpAssignInput l => assign_input trivial ms v l
  | OpAssignN n a => assign_n trivial ms v n (Val a)
  | OpReserve n => reserve trivial ms v n
  | OpShrink => shrink_to_fit trivial v
  | OpClear => clear trivial v
  end.

(** And of lists.  A result that is too long throws; a position outside of the list or a
    reference to no element is not allowed (UB). *)
Definition limit {A} (ms : Z) (xs : list A) (added : Z) (r : list A) : res (list A) :=
  if Z.of_nat (length xs) + added <=? ms then Ok r else Throw.
Definition known {A} (xs : list A) (x : ref A) (f : A -> res (list A)) : res (list A) :=
  match ref_value xs x with Some a => f a | None => UB end.
Definition within {A} (xs : list A) (p : nat) (r : res (list A)) : res (list A) :=
  if (p <=? length xs)%nat then r else UB.
(** A count for which size( ) + n does not exceed a size_type. *)
Definition count_ok (n : Z) : bool := (0 <=? n) && (n <? 2 ^ 63).
Definition lstep {A} (ms : Z) (dflt : A) (o : vop A) (xs : list A) : res (list A) :=
  match o with
  | OpPush x => known xs x (fun a => limit ms xs 1 (xs ++ [a]))
  | OpPop => match xs with [] => UB | _ => Ok (removelast xs) end
  | OpInsert p x | OpEmplace p x => within xs p (known xs x (fun a => limit ms xs 1 (put p [a] xs)))
  | OpInsertN p n x =>
      if count_ok n then
        within xs p (known xs x (fun a => limit ms xs n (put p (repeat a (Z.to_nat n)) xs)))
      else UB
  | OpInsertRange p l | OpInsertInput p l =>
      if count_ok (Z.of_nat (length l)) then within xs p (limit ms xs (Z.of_nat (length l)) (put p l xs)) else UB
  | OpErase p => if (p <? length xs)%nat then Ok (cut p (p + 1) xs) else UB
  | OpEraseRange p q => if (p <=? q)%nat && (q <=? length xs)%nat then Ok (cut p q xs) else UB
  | OpEraseIf f => Ok (filter (fun a => negb (f a)) xs)
  | OpAppend n x =>
      if count_ok n then known xs x (fun a => limit ms xs n (xs ++ repeat a (Z.to_nat n))) else UB
  | OpResize n => if count_ok n then limit ms xs (n - Z.of_nat (length xs)) (fit (Z.to_nat n) dflt xs) else UB
  | OpResizeValue n x =>
      if count_ok n then known xs x (fun a => limit ms xs (n - Z.of_nat (length xs)) (fit (Z.to_nat n) a xs)) else UB
  | OpAssign l | OpAssignInput l => if Z.of_nat (length l) <=? ms then Ok l else Throw
  | OpAssignN n a => if 0 <=? n then if n <=? ms then Ok (repeat a (Z.to_nat n)) else Throw else UB
  | OpReserve n => if 0 <=? n then if n <=? ms then Ok xs else Throw else UB
  | OpShrink => Ok xs
  | OpClear => Ok []
  end.

Fixpoint run {S O} (step : O -> S -> res S) (os : list O) (s : S) : res S :=
  match os with [] => Ok s | o :: os => s <- step o s ;; run step os s end.

(** The number of times the capacity changes while [l] is pushed, with the result. *)
Fixpoint push_counted {A} (trivial : bool) (ms : Z) (v : vec A) (l : list A) : res (vec A * nat) :=
  match l with
  | [] => Ok (v, 0%nat)
  | a :: l =>
      w <- push_back trivial ms v (Val a) ;;
      ' r <- push_counted trivial ms w l ;;
      Ok (fst r, ((if (capacity v =? capacity w)%nat then 0 else 1) + snd r)%nat)
  end.

(** A split_buffer with the elements [xs]; the other slots may be anything. *)
Definition sb_holds {A} (b : sbuffer A) (xs : list A) : Prop :=
  exists pre post, sbuf b = pre ++ map Obj xs ++ post /\ sbegin b = length pre /\ send b = (length pre + length xs)%nat.
(** The same with nothing but raw storage around the elements. *)
Definition sb_clean {A} (b : sbuffer A) (xs : list A) : Prop :=
  exists i k, sbuf b = repeat Raw i ++ map Obj xs ++ repeat Raw k /\ sbegin b = i /\ send b = (i + length xs)%nat.
Inductive sbop (A : Type) := SPushFront (a : A) | SPushBack (a : A) | SPopFront | SPopBack | SShrink.
Arguments SPushFront {A} a. Arguments SPushBack {A} a. Arguments SPopFront {A}. Arguments SPopBack {A}.
Arguments SShrink {A}.
Definition sb_step {A} (trivial : bool) (o : sbop A) (b : sbuffer A) : res (sbuffer A) :=
  match o with
  | SPushFront a => sb_push_front trivial b a
  | SPushBack a => sb_push_back trivial b a
  | SPopFront => sb_pop_front trivial b
  | SPopBack => sb_pop_back trivial b
  | SShrink => sb_shrink_to_fit trivial b
  end.
Definition deque_step {A} (o : sbop A) (xs : list A) : res (list A) :=
  match o, xs with
  | SPushFront a, _ => Ok (a :: xs)
  | SPushBack a, _ => Ok (xs ++ [a])
  | SPopFront, x :: xs => Ok xs
  | SPopBack, _ :: _ => Ok (removelast xs)
  | SShrink, _ => Ok xs
  | _, [] => UB
  end.

(** A push for which there is room only on the other side of the elements. *)
Definition sb_shifts {A} (o : sbop A) (b : sbuffer A) : Prop :=
  match o with
  | SPushFront _ => sbegin b = 0%nat /\ (send b < sb_capacity b)%nat
  | SPushBack _ => send b = sb_capacity b /\ (0 < sbegin b)%nat
  | _ => False
  end.

(** The elements of a vector of trivial objects; nothing is said of the other slots. *)
Definition shows {A} (v : vec A) (xs : list A) : Prop :=
  len v = length xs /\ exists rest, buf v = map Obj xs ++ rest.
(** An operation that leaves the storage alone and says whether it has [n] slots. *)
Definition probe {A} (m : mem A) (n : Z) : mem A * Z := (m, if n <=? Z.of_nat (length m) then 1 else 0).

(** [xs] is before [ys]: they agree up to a position where [xs] ends or is smaller. *)
Definition lex_before {A} (ltb : A -> A -> bool) (xs ys : list A) : Prop :=
  exists n, (forall i x y, (i < n)%nat -> nth_error xs i = Some x -> nth_error ys i = Some y -> ltb x y = false /\ ltb y x = false) /\
    (n <= length xs)%nat /\ (n < length ys)%nat /\
    (n = length xs \/ exists x y, nth_error xs n = Some x /\ nth_error ys n = Some y /\ ltb x y = true).

(** The capacity after growing for [n] elements. *)
Definition grown_capacity (ms cap n : Z) : Z := if ms / 2 <=? cap then ms else Z.max (2 * cap) n.

Definition keeps_storage {A} (o : vop A) : bool :=
  match o with OpReserve _ | OpShrink => false | _ => true end.
