(** What floating point numbers and their sums are to be. *)
From Verif Require Import Common Ints Floats.
Open Scope Z_scope.

(** A usable format: double and single are. *)
Definition proper_fmt (F : fmt) : Prop := 2 <= prec F /\ prec F < one_exp F /\ one_exp F + prec F < top_exp F.
(** The integers that have [prec] significant bits: the finite numbers, without a bound. *)
Definition representable (F : fmt) (z : Z) : Prop := exists m e, 0 <= e /\ Z.abs m < 2 ^ prec F /\ z = m * 2 ^ e.
(** A value that a variable of the format can have. *)
Definition number (F : fmt) (x : fp) : Prop :=
  match x with Fin z => representable F z /\ Z.abs z < 2 ^ top_exp F | _ => True end.
(** The finite values. *)
Definition fins (zs : list Z) : list fp := map Fin zs.
(** The exact sum, and the sum of the magnitudes. *)
Definition total (zs : list Z) : Z := fold_right Z.add 0 zs.
Definition magnitude (zs : list Z) : Z := fold_right (fun z s => Z.abs z + s) 0 zs.
