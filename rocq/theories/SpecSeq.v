(** What the fixed-capacity containers are supposed to do, on plain lists.
    Independent of the model, except for the names of the operations. *)
From Verif Require Import Common Ints SeqContainers.
Open Scope nat_scope.

Section Spec.
Context {A : Type}.

(** A queue bounded by [cap]: the values returned and the queue afterwards;
    [None] when the operation is not allowed (full, empty). *)
Definition queue_step (cap : nat) (q : list A) (o : ring_op A) : option (list A * list A) :=
  match o with
  | RPush v | REmplace v => if length q <? cap then Some ([], q ++ [v]) else None
  | RPop => match q with [] => None | x :: q' => Some ([x], q') end
  | RClear => Some ([], [])
  end.

(** A history: everything returned, in order, and the final queue. *)
Fixpoint queue_run (cap : nat) (q : list A) (os : list (ring_op A)) : option (list A * list A) :=
  match os with
  | [] => Some ([], q)
  | o :: os' =>
      match queue_step cap q o with
      | None => None
      | Some (x, q') =>
          match queue_run cap q' os' with
          | None => None
          | Some (xs, q'') => Some (x ++ xs, q'')
          end
      end
  end.

(** The operations of a vector of capacity [N] on a list. *)
Definition list_step (dflt : A) (N : nat) (l : list A) (o : vec_op A) : option (list A * list A) :=
  match o with
  | VPush x | VEmplace _ x => if length l <? N then Some ([], l ++ [x]) else None
  | VPushRange xs => if length l + length xs <=? N then Some ([], l ++ xs) else None
  | VAssign n x => if n <=? N then Some ([], repeat x n) else None
  | VPopBack =>
      match rev l with
      | [] => None
      | x :: r => Some ([x], rev r)
      end
  | VPopFront =>
      match l with
      | [] => None
      | x :: t => Some ([x], t)
      end
  | VResize n =>
      if n <=? N then Some ([], firstn n l ++ repeat dflt (n - length l)) else None
  | VErase p => if p <? length l then Some ([], firstn p l ++ skipn (S p) l) else None
  | VEraseRange f e =>
      if (f <=? e) && (e <=? length l) then Some ([], firstn f l ++ skipn e l) else None
  | VClear => Some ([], [])
  | VZero z => Some ([], map (fun _ => z) l)
  end.

(** A history in which every operation is allowed and meets [ok]. *)
Inductive list_run (dflt : A) (N : nat) (ok : list A -> vec_op A -> Prop) :
    list A -> list (vec_op A) -> list A -> list A -> Prop :=
| run_nil : forall l, list_run dflt N ok l [] [] l
| run_cons : forall l o os x l1 xs l2,
    ok l o ->
    list_step dflt N l o = Some (x, l1) ->
    list_run dflt N ok l1 os xs l2 ->
    list_run dflt N ok l (o :: os) (x ++ xs) l2.

(** The calls of bounded_vector_t that do what they should: all but pop_front;
    a range erased must end before the capacity and, in debug builds, must not
    be everything. *)
Definition vec_supported (dbg : bool) (N : nat) (l : list A) (o : vec_op A) : Prop :=
  match o with
  | VPopFront => False
  | VEraseRange f e => e < N /\ (dbg = true -> e - f < length l)
  | _ => True
  end.

(** What a caller can observe of a vector that holds [l]. *)
Definition vec_shows (N : nat) (v : bvec A) (l : list A) : Prop :=
  b_contents v = Ok l /\
  b_rcontents v = Ok (rev l) /\
  b_size v = Z.of_nat (length l) /\
  b_capacity v = Z.of_nat N /\
  b_available v = Z.of_nat (N - length l) /\
  b_is_empty v = (length l =? 0) /\
  b_is_full v = (length l =? N) /\
  (forall x t, l = x :: t -> b_front v = Ok x) /\
  (forall x t, l = t ++ [x] -> b_back v = Ok x) /\
  (forall i x, nth_error l i = Some x -> b_at_op v (Z.of_nat i) = Ok x /\ b_at v (Z.of_nat i) = Ok x) /\
  (forall i, (Z.of_nat (length l) <= i)%Z -> b_at v i = Throw).

End Spec.
