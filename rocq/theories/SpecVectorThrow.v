(** What a vector that survives exceptions has to keep. *)
From Verif Require Import Common Vector VectorThrow.
Open Scope Z_scope.

(** The live buffers are the same. *)
Definition same_memory {A} (w w' : world A) : Prop := forall i, buffer w' i = buffer w i.

(** The vector holds [xs] in a buffer of its own, with raw storage behind them; it
    has no buffer only if it is empty.  All other live buffers are those of [base]:
    nothing is leaked and nothing else is touched. *)
Definition owns {A} (ms : Z) (base w : world A) (v : tvec) (xs : list A) : Prop :=
  vlen v = length xs /\
  match vbuf v with
  | None => xs = [] /\ same_memory base w
  | Some b =>
      buffer base b = None /\ (forall i, i <> b -> buffer w i = buffer base i) /\
      exists k, buffer w b = Some (map Obj xs ++ repeat Raw k) /\ Z.of_nat (length xs + k) <= ms
  end.

(** Some event between the two worlds threw. *)
Definition threw {A} (fails : nat -> bool) (w w' : world A) : Prop :=
  exists k, (tick w <= k < tick w')%nat /\ fails k = true.

(** The next [n] events do not throw. *)
Definition quiet (fails : nat -> bool) (t n : nat) : Prop := forall i, (i < n)%nat -> fails (t + i)%nat = false.

(** The arguments are sizes the vector can have; a capacity and the length of a range may also be larger. *)
Definition arg_ok {A} (ms : Z) (o : top A) : Prop :=
  match o with
  | TAppend n _ | TResize n _ => 0 <= n <= ms
  | TReserve n => 0 <= n
  | _ => True
  end.

(** What a call is to leave in a vector that held [xs]. *)
Definition result_of {A} (xs : list A) (o : top A) : list A :=
  match o with
  | TPush a => xs ++ [a]
  | TAppend n a => xs ++ repeat a (Z.to_nat n)
  | TReserve _ | TShrink => xs
  | TResize n a => firstn (Z.to_nat n) xs ++ repeat a (Z.to_nat n - length xs)
  | TAssign l => l
  | TClear => []
  end.

(** What a call that throws may leave. *)
Definition left_by {A} (xs : list A) (o : top A) (ys : list A) : Prop :=
  match o with
  | TPush _ | TReserve _ => ys = xs
  | TAppend n a => exists j, (j < Z.to_nat n)%nat /\ ys = xs ++ repeat a j
  | TResize n a => exists j, (length xs + j < Z.to_nat n)%nat /\ ys = xs ++ repeat a j
  | TShrink | TClear => False
  | TAssign l => exists j, (j < length l)%nat /\ (ys = firstn j l \/ ys = firstn j l ++ skipn j xs)
  end.

(** The call asks for more elements, or room for more, than max_size( ). *)
Definition too_long {A} (ms : Z) (xs : list A) (o : top A) : Prop :=
  match o with
  | TReserve n => ms < n
  | _ => ms < Z.of_nat (length (result_of xs o))
  end.
