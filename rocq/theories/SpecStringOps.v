(** Specification vocabulary for histories of string view operations (C32). *)
From Verif Require Import Common Ints StringView StringPop SpecString.
Open Scope Z_scope.

(** The documented preconditions of an operation: sizes and positions are size_t
    values, the unchecked members stay inside the view, other views are valid. *)
Definition vpre (v : view) (o : vop) : Prop :=
  match o with
  | VRemovePrefix n | VRemoveSuffix n | VPopFront _ n | VPopBack _ n => 0 <= n < 2 ^ 64
  | VResize n | VPopFrontUnsafe _ n | VPopBackUnsafe _ n | VSubstrUnsafeFrom n => 0 <= n <= vsize v
  | VSubstr pos count => 0 <= pos <= vsize v /\ 0 <= count < 2 ^ 64
  | VSubstrUnsafe pos count => 0 <= pos /\ 0 <= count /\ pos + count <= vsize v
  | VPopFrontUntil _ w | VPopBackUntil _ w | VTryPopFrontUntil _ w | VTryPopBackUntil _ w
  | VRemovePrefixUntil w => valid w
  | VClear | VReset | VSubstrAll | VRemovePrefixWhile _ | VRemoveSuffixWhile _ | VTrim
  | VSetZeroTerminated => True
  end.
(** Every operation of the history meets its precondition when it is reached. *)
Fixpoint pre_run (dbg : bool) (v : view) (os : list vop) : Prop :=
  match os with
  | [] => True
  | o :: os => vpre v o /\ forall v', vstep dbg v o = Ok v' -> pre_run dbg v' os
  end.
(** Operations that do not set the mark on a promise. *)
Definition vsafe (o : vop) : bool :=
  match o with
  | VSubstrAll | VSubstrUnsafe _ _ | VSubstrUnsafeFrom _ | VPopFrontUnsafe _ _ | VPopBackUnsafe _ _
  | VSetZeroTerminated => false
  | _ => true
  end.
