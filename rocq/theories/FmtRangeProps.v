(** Properties of the range and tuple formatters. *)
From Coq Require Import ZifyNat.
From Verif Require Import Common FmtRange SpecFmtRange FmtRangeProofs.
Open Scope Z_scope.

(** * C265 Formatting a range *)

(** A field { : spec } or { } anywhere in a format string: the left text, the elements as the specification says with the separator between them, and the right text. *)
Theorem C265_range :
  forall (V : Type) dbg (elem : formatter V) spec show ok c before after, balanced spec -> accepts elem spec show ok -> Forall ok (r_items c) ->
  vformat (range_formatter dbg elem) (escaped before ++ [123; 58] ++ spec ++ [125] ++ escaped after) c = Ok (before ++ shown show c ++ after) /\
  (spec = [] -> vformat (range_formatter dbg elem) (escaped before ++ [123; 125] ++ escaped after) c = Ok (before ++ shown show c ++ after)).
Proof. exact c265_range. Qed.

(** A field with an argument number and a specification, { 0 : spec }, does not work for ranges: the two characters before the specification are taken for the start of the field. *)
Theorem C265_number_refuted :
  forall (V : Type) dbg (elem : formatter V) spec c, balanced spec -> literal spec -> spec <> [] -> r_items c <> [] ->
  vformat (range_formatter dbg elem) ([123; 48; 58] ++ spec ++ [125]) c = Throw.
Proof. exact c265_number_refuted. Qed.

(** A specification with a single quotation mark, a fill character for instance, is an error for ranges. *)
Theorem C265_quote_refuted :
  forall (V : Type) dbg (elem : formatter V) a b after c, (forall d, In d a -> d <> 34 /\ d <> 123 /\ d <> 125) -> ~ In 34 (b ++ 125 :: after) ->
  vformat (range_formatter dbg elem) ([123; 58] ++ (a ++ 34 :: b) ++ 125 :: after) c = Throw.
Proof. exact c265_quote_refuted. Qed.

(** A formatter of numbers below 10: the specification is a letter or a mark that is written before the digit, or nothing. *)
Definition digits : formatter Z := fun fs p =>
  if is_at fs p 125 then Ok (Z.of_nat p, fun x => Ok [48 + x]) else Ok (Z.of_nat p + 1, fun x => match nth_error fs p with Some c => Ok [c; 48 + x] | None => Throw end).
Lemma digits_accepts c : c <> 125 -> accepts digits [c] (fun x => [c; 48 + x]) (fun _ => True).
Proof.
  intros N before open after p O ->. assert (E : nth_error (before ++ open ++ [c] ++ 125 :: after) (length (before ++ open)) = Some c) by (rewrite (app_assoc before open); rewrite nth_error_app2 by apply Nat.le_refl; rewrite Nat.sub_diag; reflexivity).
  unfold digits, is_at. rewrite E. rewrite (proj2 (Z.eqb_neq c 125)) by auto. eexists. split; [rewrite Nat2Z.inj_add; reflexivity|]. reflexivity.
Qed.
Example C265_nonvacuous :
  balanced [35] /\ accepts digits [35] (fun x => [35; 48 + x]) (fun _ => True) /\
  vformat (range_formatter true digits) [65; 123; 58; 35; 125; 66] (FmtRange [1; 2] [59; 32] [40] [41]) = Ok [65; 40; 35; 49; 59; 32; 35; 50; 41; 66] /\
  vformat digits [123; 48; 58; 35; 125] 1 = Ok [35; 49] /\ vformat (range_formatter false digits) [123; 48; 58; 35; 125] (with_defaults [1]) = Throw /\
  vformat digits [123; 58; 34; 125] 1 = Ok [34; 49] /\ vformat (range_formatter false digits) [123; 58; 34; 125] (with_defaults [1]) = Throw.
Proof. split; [repeat constructor; discriminate|]. split; [apply digits_accepts; discriminate|]. repeat split. Qed.
Print Assumptions C265_range.
Print Assumptions C265_number_refuted.
Print Assumptions C265_quote_refuted.

(** * C266 Formatting nested ranges *)

(** Ranges of ranges, of strings and of tuples, nested to any depth: the specification is used for every scalar in them; strings are written as they are. *)
Theorem C266_nested :
  forall dbg sf spec show s v before after, balanced spec -> (forall k, accepts (sf k) spec (show k) (fun _ => True)) -> has_shape s v ->
  vformat (element_formatter dbg sf s) (escaped before ++ [123; 58] ++ spec ++ [125] ++ escaped after) v = Ok (before ++ show_nested show s v ++ after) /\
  (spec = [] -> vformat (element_formatter dbg sf s) (escaped before ++ [123; 125] ++ escaped after) v = Ok (before ++ show_nested show s v ++ after)).
Proof. exact c266_nested. Qed.

Definition even (fs : text) (p : nat) : res (Z * (Z -> res text)) := Ok (Z.of_nat p + (if is_at fs p 125 then 0 else 1), fun x => Ok [if Z.even x then 69 else 79]).
Example C266_nonvacuous :
  let s := RangeOf (RangeOf TupleOf) in let v := VRange [VRange [VTuple [(0%nat, 1); (1%nat, 2)]; VTuple []]; VRange []] in let sf k := if (k =? 0)%nat then digits else even in
  has_shape s v /\ vformat (element_formatter true sf s) [123; 58; 35; 125] v = Ok [91; 91; 91; 35; 49; 44; 69; 93; 44; 91; 93; 93; 44; 91; 93; 93] /\
  vformat (element_formatter true sf (RangeOf Chars)) [123; 58; 35; 125] (VRange [VChars [65; 66]; VChars [67]]) = Ok [91; 65; 66; 44; 67; 93].
Proof. cbv zeta. split; [repeat constructor|]. split; reflexivity. Qed.
Print Assumptions C266_nested.

(** * C267 Formatting a tuple *)

(** A tuple: each element is written with the formatter of its type and the same specification. *)
Theorem C267_tuple :
  forall dbg sf spec show c before after, balanced spec -> (forall k, accepts (sf k) spec (show k) (fun _ => True)) ->
  vformat (tuple_formatter dbg sf) (escaped before ++ [123; 58] ++ spec ++ [125] ++ escaped after) c = Ok (before ++ shown (fun e => show (fst e) (snd e)) c ++ after) /\
  (spec = [] -> vformat (tuple_formatter dbg sf) (escaped before ++ [123; 125] ++ escaped after) c = Ok (before ++ shown (fun e => show (fst e) (snd e)) c ++ after)).
Proof. exact c267_tuple. Qed.

(** An argument number and a specification do not work together for tuples either. *)
Theorem C267_number_refuted :
  forall dbg sf spec c, balanced spec -> literal spec -> spec <> [] -> r_items c <> [] ->
  vformat (tuple_formatter dbg sf) ([123; 48; 58] ++ spec ++ [125]) c = Throw.
Proof. exact c267_number_refuted. Qed.

Example C267_nonvacuous :
  let sf k := if (k =? 0)%nat then digits else even in
  vformat (tuple_formatter true sf) [123; 58; 35; 125] (FmtRange [(0%nat, 1); (1%nat, 2)] [59] [40] [41]) = Ok [40; 35; 49; 59; 69; 41] /\
  vformat (tuple_formatter false sf) [123; 48; 58; 35; 125] (with_defaults [(0%nat, 1)]) = Throw /\ literal [35].
Proof. cbv zeta. split; [reflexivity|]. split; [reflexivity|]. intros c [<- | []]. split; discriminate. Qed.
Print Assumptions C267_tuple.
Print Assumptions C267_number_refuted.
