(** What contracts, bound functions, named parameters and factories are to do. *)
From Verif Require Import Common CallTools.

(** A value meets preconditions. *)
Definition meets {T} (v : T) (pre : list (T -> bool)) : Prop := Forall (fun p => p v = true) pre.
(** The preconditions of the contracts that exist, one after another, when a contract is used. *)
Fixpoint stages {T} (pre : list (T -> bool)) (us : list (use T)) : list (list (T -> bool)) :=
  match us with
  | [] => [pre]
  | Access :: us => stages pre us
  | Convert ps :: us => pre :: stages ps us
  | AddCondition ps :: us => pre :: stages (pre ++ ps) us
  end.

(** The preconditions of the last of them. *)
Definition final_conditions {T} (pre : list (T -> bool)) (us : list (use T)) : list (T -> bool) := List.last (stages pre us) [].

(** Direct calls of a function with the arguments [bound] inserted before position [n]. *)
Definition inserted {A} (n : nat) (bound args : list A) : list A := firstn n args ++ bound ++ skipn n args.
Fixpoint direct_calls {A R S} (func : S -> list A -> res (S * R)) (s : S) (calls : list (list A)) : res (S * list R) :=
  match calls with
  | [] => Ok (s, [])
  | args :: calls => r <- func s args;; q <- direct_calls func (fst r) calls;; Ok (fst q, snd r :: snd q)
  end.

(** The value of an option: the given one, or the default. *)
Definition option_value {V} (def : option_arg V) (opts : list (option_arg V)) (v : V) : Prop :=
  (exists o, In o opts /\ o_type o = o_type def /\ v = o_value o) \/ ((forall o, In o opts -> o_type o <> o_type def) /\ v = o_value def).

(** Settings of a factory that are kept until an object is made: values, and functions of the late factory; they are for an argument that exists. *)
Definition setting {V S} (n : nat) (op : factory_op V S) : Prop :=
  match op with
  | SetAt i _ | SetFunction i _ | SetIndex i (GivenValue _) | SetIndex i GivenOther => (i < n)%nat
  | _ => False
  end.
(** What the last of the settings for argument [i] gave. *)
Fixpoint latest {V S} (i : nat) (ops : list (factory_op V S)) (found : option (slot V S)) : option (slot V S) :=
  match ops with
  | [] => found
  | SetAt j v :: ops | SetIndex j (GivenValue v) :: ops => latest i ops (if (i =? j)%nat then Some (Value v) else found)
  | SetFunction j f :: ops => latest i ops (if (i =? j)%nat then Some (Function f) else found)
  | _ :: ops => latest i ops found
  end.
(** [arguments i n given s args s']: from argument [i] on there are [n]; each is the value given, or the result of the function given, called
    once; the calls take the state from [s] to [s']. *)
Inductive arguments {V S} (given : nat -> option (slot V S)) : nat -> nat -> S -> list V -> S -> Prop :=
| args_none i s : arguments given i 0 s [] s
| args_value i n s v vs s' : given i = Some (Value v) -> arguments given (Datatypes.S i) n s vs s' -> arguments given i (Datatypes.S n) s (v :: vs) s'
| args_function i n s f v s1 vs s' : given i = Some (Function f) -> f s = Ok (v, s1) -> arguments given (Datatypes.S i) n s1 vs s' ->
    arguments given i (Datatypes.S n) s (v :: vs) s'.
