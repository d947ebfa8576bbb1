(** Specification vocabulary for the properties of MiscTools.v. *)
From Verif Require Import Common Ints BitsModel SpecBits SpecParse BitQueue MiscTools.
Open Scope Z_scope.

(** A test that holds, fails, or throws. *)
Definition holds_true (a : test_arg) : Prop := a = AValue true \/ a = ACall (Ok true).
Definition is_false (a : test_arg) : Prop := a = AValue false \/ a = ACall (Ok false).

(** [s] starts with the text [t] of the number [v] in the type T, and the digits do not go on. *)
Definition starts_with_number (T : ity) (s : list Z) (v : Z) : Prop :=
  exists t rest, s = t ++ rest /\ number_text t v /\ (signed T = false -> ~ In 45 t) /\
    (forall c rest', rest = c :: rest' -> ~ digit c).

(** The low [n] nibbles of [v], most significant first, and the number with given nibbles. *)
Fixpoint nibbles (n : nat) (v : Z) : list Z :=
  match n with O => [] | S n => v / 16 ^ Z.of_nat n mod 16 :: nibbles n v end.
Definition hex_value (l : list Z) : Z := fold_left (fun a d => 16 * a + d) l 0.

(** A stack of nibbles, the newest last, with room for [cap] of them; values have [vw] bits. *)
Inductive stack_step (cap : nat) (vw : Z) : list Z -> nibble_op -> list Z -> list Z -> Prop :=
| stack_push l v : 0 <= v < 2 ^ vw -> (length l < cap)%nat -> stack_step cap vw l (NPush v) [] (l ++ [v mod 16])
| stack_push_n l v n : 0 <= v < 2 ^ vw -> 4 * Z.of_nat n <= vw -> (length l + n <= cap)%nat ->
    stack_step cap vw l (NPushN v n) [] (l ++ nibbles n v)
| stack_pop l1 l2 : 4 * Z.of_nat (length l2) <= vw ->
    stack_step cap vw (l1 ++ l2) (NPop (length l2)) [hex_value l2] l1
| stack_clear l : stack_step cap vw l NClear [] [].
Inductive stack_history (cap : nat) (vw : Z) : list Z -> list nibble_op -> list Z -> list Z -> Prop :=
| sh_nil l : stack_history cap vw l [] [] l
| sh_cons l op out l' ops outs l'' : stack_step cap vw l op out l' -> stack_history cap vw l' ops outs l'' ->
    stack_history cap vw l (op :: ops) (out ++ outs) l''.

(** Groups of [w] bits none of which is the number [v]. *)
Definition none_equal (w v : Z) (gs : list (list bool)) : Prop :=
  Forall (fun g => Z.of_nat (length g) = w /\ val g <> v) gs.
