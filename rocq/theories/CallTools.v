(** Model of daw_contract.h, daw_read_file.h, daw_bind_args_at.h, daw_named_params.h,
    daw_piecewise_factory.h and of tuple2_cat in daw_tuple2.h.

    Values are of any type; tuples and packs of arguments are lists.  [Throw] is an
    exception or the end of the program.  No proofs in this file. *)
From Verif Require Import Common Ints.
Open Scope Z_scope.
Local Arguments Z.pow : simpl never.

(** * daw_contract.h *)
(** daw_contract.h:28-43: what the handler of violations does; the default one throws, or aborts without exceptions. *)
Inductive handler := Fails | Returns.
(** daw_contract.h:53-55 validate: the preconditions are stateless. *)
Definition validate {T} (pre : list (T -> bool)) (v : T) : bool := forallb (fun p => p v) pre.
(** daw_contract.h:78-85: the constructor; the result is the value it holds.  The constructors for constants, chosen by the enable_if
    attribute of clang, do the same or do not compile. *)
Definition construct {T} (h : handler) (pre : list (T -> bool)) (v : T) : res T :=
  if negb (validate pre v) then match h with Fails => Throw | Returns => Ok v end else Ok v.
(** daw_contract.h:87-114: extract, operator*, get, operator-> and the conversion to T: DAW_ASSUME. *)
Definition access {T} (pre : list (T -> bool)) (v : T) : res T := if validate pre v then Ok v else UB.
(** What can be done with a contract: read it, convert it to one with other preconditions (119-123), add some (125-134). *)
Inductive use (T : Type) := Access | Convert (pre : list (T -> bool)) | AddCondition (pre : list (T -> bool)).
Arguments Access {T}.
Arguments Convert {T} _.
Arguments AddCondition {T} _.
Definition use_contract {T} (h : handler) (pre : list (T -> bool)) (v : T) (u : use T) : res (list (T -> bool) * T) :=
  match u with
  | Access => x <- access pre v;; Ok (pre, x)
  | Convert ps => if validate pre v then x <- construct h ps v;; Ok (ps, x) else UB
  | AddCondition ps => if validate pre v then x <- construct h (pre ++ ps) v;; Ok (pre ++ ps, x) else UB
  end.
Fixpoint use_all {T} (h : handler) (pre : list (T -> bool)) (v : T) (us : list (use T)) : res (list (T -> bool) * T) :=
  match us with
  | [] => Ok (pre, v)
  | u :: us => r <- use_contract h pre v u;; use_all h (fst r) (snd r) us
  end.
(** A contract is made from a value and used. *)
Definition contract_program {T} (h : handler) (pre : list (T -> bool)) (v : T) (us : list (use T)) : res (list (T -> bool) * T) :=
  x <- construct h pre v;; use_all h pre x us.

(** * daw_read_file.h *)
(** What the system answers: the size of the file, if there is one; whether it can be opened; the bytes that reading gives until the end
    of the file or an error.  The file may change between the calls, so the size need not be the number of the bytes. *)
Record file := File { f_size : option nat; f_opens : bool; f_bytes : list Z }.
(** The [n] characters of [w] bytes in a buffer, little endian. *)
Definition char_of (bytes : list Z) : Z := fold_right (fun b acc => b + 256 * acc) 0 bytes.
Fixpoint chars_of (w n : nat) (bytes : list Z) : list Z :=
  match n with
  | O => []
  | S n => char_of (firstn w bytes) :: chars_of w n (skipn w bytes)
  end.
(** fread( buffer, w, n, f ) on a buffer of zeros: the buffer, and the number of whole characters read.  The bytes of an incomplete
    last character are stored. *)
Definition fread (w n : nat) (bytes : list Z) : list Z * nat :=
  (firstn (n * w) (firstn (n * w) bytes ++ repeat 0 (n * w)), Nat.min n (length bytes / w)).
(** daw_read_file.h:25-60 read_file for characters of [w] bytes, in strings of at most [max_size]: the result, and the number of file
    handles that stay open. *)
Definition read_file (w : nat) (max_size : Z) (f : file) : option (list Z) * nat :=
  match f_size f with
  | None => (None, 0%nat)
  | Some fsize =>
      if (fsize =? 0)%nat then (Some [], 0%nat)
      else if max_size <? Z.of_nat fsize then (None, 0%nat)
      else if negb (f_opens f) then (None, 0%nat)
      else
        let '(buffer, num_read) := fread w fsize (f_bytes f) in
        if negb (num_read =? fsize / w)%nat then (None, 1%nat)
        else (Some (chars_of w fsize buffer), 1%nat)
  end.
(** daw_read_file.h:66-74: the overload that ends the program. *)
Definition read_file_or_terminate (max_size : Z) (f : file) : res (list Z) :=
  match fst (read_file 1 max_size f) with Some s => Ok s | None => Throw end.

(** * daw_bind_args_at.h *)
Fixpoint gets {A} (args : list A) (is : list nat) : option (list A) :=
  match is with
  | [] => Some []
  | i :: is => match nth_error args i, gets args is with Some x, Some r => Some (x :: r) | _, _ => None end
  end.
(** daw_bind_args_at.h:25-45 split_args: copies of the arguments from [start_n] to [end_n]; [None] does not compile. *)
Definition split_args {A} (start_n end_n : nat) (args : list A) : option (list A) :=
  if (end_n <=? length args)%nat then gets args (map (fun i => (start_n + i)%nat) (seq 0 (end_n - start_n))) else None.
(** daw_bind_args_at.h:106-131 operator( ): the callable has a state; it is called with copies, so nothing else changes. *)
Definition bound_call {A R S} (n : nat) (func : S -> list A -> res (S * R)) (tp_args : list A) (s : S) (args : list A) : option (res (S * R)) :=
  match split_args 0 n args, split_args n (length args) args with
  | Some a, Some b => Some (func s (a ++ tp_args ++ b))
  | _, _ => None
  end.
(** Successive calls of one bound function. *)
Fixpoint bound_calls {A R S} (n : nat) (func : S -> list A -> res (S * R)) (tp_args : list A) (s : S) (calls : list (list A)) : option (res (S * list R)) :=
  match calls with
  | [] => Some (Ok (s, []))
  | args :: calls =>
      match bound_call n func tp_args s args with
      | None => None
      | Some (Ok (s, r)) =>
          match bound_calls n func tp_args s calls with
          | Some (Ok (s, rs)) => Some (Ok (s, r :: rs))
          | other => other
          end
      | Some UB => Some UB
      | Some Throw => Some Throw
      | Some OutOfFuel => Some OutOfFuel
      end
  end.

(** * daw_named_params.h *)
(** An argument of get_opt: its option type, how it is passed (0 an rvalue, 1 an lvalue, 2 a constant lvalue), and its value. *)
Record option_arg (V : Type) := OptionArg { o_type : nat; o_category : nat; o_value : V }.
Arguments OptionArg {V} _ _ _.
Arguments o_type {V} _.
Arguments o_category {V} _.
Arguments o_value {V} _.
(** daw_named_params.h:28-34: the types of the pack are those of the forwarding references, so they differ if the arguments are passed in
    different ways. *)
Definition same_pack_type {V} (a b : option_arg V) : bool := (o_type a =? o_type b)%nat && (o_category a =? o_category b)%nat.
Definition less_than_one_match {V} (a : option_arg V) (opts : list (option_arg V)) : bool := (length (filter (same_pack_type a) opts) <=? 1)%nat.
Definition is_unique {V} (opts : list (option_arg V)) : bool := forallb (fun a => less_than_one_match a opts) opts.
(** daw_named_params.h:54-75 get_opt; [None] does not compile (each recursive call has fewer options, which are unique as well). *)
Fixpoint get_opt_loop {V} (def : option_arg V) (opts : list (option_arg V)) : V :=
  match opts with
  | [] => o_value def
  | o :: opts => if (o_type def =? o_type o)%nat then o_value o else get_opt_loop def opts
  end.
Definition get_opt {V} (def : option_arg V) (opts : list (option_arg V)) : option V :=
  if is_unique opts then Some (get_opt_loop def opts) else None.

(** * daw_piecewise_factory.h *)
(** What is stored for an argument: a value, or in the late factory a function, which may change a state and throw. *)
Inductive slot (V S : Type) := Value (v : V) | Function (f : S -> res (V * S)).
Arguments Value {V S} _.
Arguments Function {V S} _.
(** What is passed to set( index, value ): something that converts to the type of the argument, a function whose result does, or neither. *)
Inductive given (V S : Type) := GivenValue (v : V) | GivenFunction (f : S -> res (V * S)) | GivenOther.
Arguments GivenValue {V S} _.
Arguments GivenFunction {V S} _.
Arguments GivenOther {V S}.
Definition slots V S := list (option (slot V S)).
(** daw_piecewise_factory.h:178-189 set<N>( value ). *)
Definition set_at {V S} (n : nat) (v : V) (m : slots V S) : slots V S := upd m n (Some (Value v)).
(** daw_piecewise_factory.h:207-215 set<N>( function ) of the late factory. *)
Definition set_function_at {V S} (n : nat) (f : S -> res (V * S)) (m : slots V S) : slots V S := upd m n (Some (Function f)).
(** daw_piecewise_factory.h:100-136 set_tuple: [n] is N and [more] the number of the arguments from N on.  A function is called at once.  (In
    the late factory that call is ambiguous and does not compile.)  What does not convert is ignored. *)
Fixpoint set_tuple {V S} (more n index : nat) (m : slots V S) (value : given V S) (s : S) : res (slots V S * S) :=
  match more with
  | O => Throw
  | Datatypes.S more =>
      if negb (n =? index)%nat then set_tuple more (Datatypes.S n) index m value s
      else
        match value with
        | GivenValue v => Ok (upd m n (Some (Value v)), s)
        | GivenFunction f => r <- f s;; Ok (upd m n (Some (Value (fst r))), snd r)
        | GivenOther => Ok (m, s)
        end
  end.
Definition set_index {V S} (index : nat) (value : given V S) (m : slots V S) (s : S) : res (slots V S * S) := set_tuple (length m) 0 index m value s.
(** daw_piecewise_factory.h:35-98, 161-172 operator( ): the arguments for the constructor.  An empty optional is dereferenced.  Functions are
    called from the left to the right (C++ leaves the order open). *)
Fixpoint make {V S} (m : slots V S) (s : S) : res (list V * S) :=
  match m with
  | [] => Ok ([], s)
  | None :: _ => UB
  | Some (Value v) :: m => r <- make m s;; Ok (v :: fst r, snd r)
  | Some (Function f) :: m => a <- f s;; r <- make m (snd a);; Ok (fst a :: fst r, snd r)
  end.
(** The uses of a factory.  [SetIndex] with a function is for the factory that is not late, [SetFunction] for the late one. *)
Inductive factory_op (V S : Type) := SetAt (n : nat) (v : V) | SetFunction (n : nat) (f : S -> res (V * S)) | SetIndex (n : nat) (g : given V S) | Make.
Arguments SetAt {V S} _ _.
Arguments SetFunction {V S} _ _.
Arguments SetIndex {V S} _ _.
Arguments Make {V S}.
(** The factory, the state and the argument lists of the objects made so far. *)
Definition factory_step {V S} (m : slots V S) (s : S) (op : factory_op V S) : res (slots V S * S * list (list V)) :=
  match op with
  | SetAt n v => if (n <? length m)%nat then Ok (set_at n v m, s, []) else UB
  | SetFunction n f => if (n <? length m)%nat then Ok (set_function_at n f m, s, []) else UB
  | SetIndex n g => r <- set_index n g m s;; Ok (fst r, snd r, [])
  | Make => r <- make m s;; Ok (m, snd r, [fst r])
  end.
Fixpoint factory_run {V S} (m : slots V S) (s : S) (ops : list (factory_op V S)) : res (slots V S * S * list (list V)) :=
  match ops with
  | [] => Ok (m, s, [])
  | op :: ops =>
      r <- factory_step m s op;;
      q <- factory_run (fst (fst r)) (snd (fst r)) ops;;
      Ok (fst q, snd r ++ snd q)
  end.
Definition factory {V S} (n : nat) : slots V S := repeat None n.

(** * daw_tuple2.h: tuple2_cat *)
(** daw_tuple2.h:26-30. *)
Definition encode_location (outter inner : Z) : Z := Z.lor (Z.shiftl outter 32 mod 2 ^ 64) inner.
(** daw_tuple2.h:37-48: the inner loop, [k] iterations from [m] on, and the outer loop. *)
Fixpoint inner_locations (k : nat) (n m : Z) : list Z :=
  match k with O => [] | S k => encode_location n m :: inner_locations k n (m + 1) end.
Fixpoint cartesian_product (sizes : list nat) (n : Z) : list Z :=
  match sizes with [] => [] | k :: sizes => inner_locations k n 0 ++ cartesian_product sizes (n + 1) end.
(** daw_tuple2.h:178-184. *)
Definition decode_get {A} (location : Z) (tps : list (list A)) : option A :=
  let outter := Z.shiftr location 32 in
  let inner := Z.shiftr (Z.shiftl location 32 mod 2 ^ 64) 32 in
  match nth_error tps (Z.to_nat outter) with Some tp => nth_error tp (Z.to_nat inner) | None => None end.
Fixpoint decode_all {A} (locations : list Z) (tps : list (list A)) : option (list A) :=
  match locations with
  | [] => Some []
  | l :: locations => match decode_get l tps, decode_all locations tps with Some x, Some r => Some (x :: r) | _, _ => None end
  end.
(** daw_tuple2.h:198-225 tuple2_cat: [None] does not compile.  The overload for one tuple makes a tuple2<> from it, which is an error. *)
Definition tuple2_cat {A} (tps : list (list A)) : option (list A) :=
  match tps with
  | [] => Some []
  | [_] => None
  | _ => decode_all (cartesian_product (map (@length A) tps) 0) tps
  end.
