(** What the floating point functions are to give.  The finite number [Fin z] of a format
    F stands for z / 2^one_exp F. *)
From Verif Require Import Common Ints Floats SpecFloats.
Open Scope Z_scope.

Definition unit_of (F : fmt) : Z := 2 ^ one_exp F.
Definition integral (F : fmt) (z : Z) : Prop := exists n, z = n * unit_of F.
(** Greatest integer not above, least integer not below, and the nearest integer, halves upwards. *)
Definition floor_of (F : fmt) (z : Z) : Z := z / unit_of F.
Definition ceil_of (F : fmt) (z : Z) : Z := - ((- z) / unit_of F).
Definition nearest_of (F : fmt) (z : Z) : Z := (2 * z + unit_of F) / (2 * unit_of F).
(** The largest double below 0.5. *)
Definition below_half : Z := 2 ^ 1073 - 2 ^ 1020.
(** z is a number of the format, none is nearer to num / den. *)
Definition nearest_rep (F : fmt) (z num den : Z) : Prop :=
  representable F z /\ forall f, representable F f -> Z.abs (z * den - num) <= Z.abs (f * den - num).
