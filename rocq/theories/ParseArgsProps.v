(** The properties of daw_parse_args.h: C251-C252.
    The vocabulary is in SpecParseArgs.v. *)
From Coq Require Import List ZArith Bool Lia.
From Verif Require Import Common Ints StringView StringPop SpecString ParseArgs SpecParseArgs ParseArgsProofs.
Import ListNotations.
Open Scope Z_scope.

(** * C251 Arguments: the command line *)

(** The arguments after the program name are taken one by one, and each has the name and the value its text means. (Partial: see the next theorem.) *)
Theorem C251_meaning_partial :
  forall dbg runtime lo argv texts argc, lo = -128 \/ lo = 0 -> Forall2 (shows_text lo) argv texts -> argc <= Z.of_nat (length argv) ->
  Forall (fun t => ~ lone_quote t) texts ->
  exists prog args, arguments dbg runtime argc argv = Ok (prog, args) /\ valid prog /\
    chars prog = match firstn (Z.to_nat argc) texts with t :: _ => t | [] => [] end /\
    Forall2 (fun t a => exists n v, means t n v /\ arg_is a n v) (skipn 1 (firstn (Z.to_nat argc) texts)) args.
Proof. exact c251_meaning_partial. Qed.

(** A value that is a single quotation mark is lost. *)
Theorem C251_quote_refuted :
  forall dbg runtime lo argv texts argc, lo = -128 \/ lo = 0 -> Forall2 (shows_text lo) argv texts -> argc <= Z.of_nat (length argv) ->
  exists prog args, arguments dbg runtime argc argv = Ok (prog, args) /\
    forall i t a, nth_error (skipn 1 (firstn (Z.to_nat argc) texts)) i = Some t -> nth_error args i = Some a -> lone_quote t ->
    chars (a_value a) = [] /\ forall n v, means t n v -> v = [quote].
Proof. exact c251_quote_refuted. Qed.

(** A text has one meaning. *)
Theorem C251_unique :
  forall s n v n' v', means s n v -> means s n' v' -> n = n' /\ v = v'.
Proof. exact c251_unique. Qed.

(** A count above the number of pointers is undefined. *)
Theorem C251_argc :
  forall dbg runtime lo argv texts argc, lo = -128 \/ lo = 0 -> Forall2 (shows_text lo) argv texts -> Z.of_nat (length argv) < argc ->
  arguments dbg runtime argc argv = UB.
Proof. exact c251_argc. Qed.

(** prog --a=1 --b --c=@x y@ z @ (with @ for the quotation mark), and a null pointer. *)
Definition command_line : list (option (list Z)) :=
  [Some [112; 0]; Some [45; 45; 97; 61; 49; 0]; Some [45; 45; 98; 0]; Some [45; 45; 99; 61; 34; 120; 32; 121; 34; 0; 7]; Some [122; 0]; Some [34; 0]; None].
Definition command_texts : list (list Z) :=
  [[112]; [45; 45; 97; 61; 49]; [45; 45; 98]; [45; 45; 99; 61; 34; 120; 32; 121; 34]; [122]; [34]; []].
Example C251_nonvacuous :
  Forall2 (shows_text (-128)) command_line command_texts /\ Forall (fun t => ~ lone_quote t) (firstn 5 command_texts) /\ lone_quote [34] /\
  (exists p args, arguments true true 7 command_line = Ok (p, args) /\ chars p = [112] /\
    map (fun a => (chars (a_name a), chars (a_value a))) args = [([97], [49]); ([98], []); ([99], [120; 32; 121]); ([], [122]); ([], []); ([], [])]) /\
  means [45; 45; 99; 61; 34; 120; 32; 121; 34] [99] [120; 32; 121].
Proof.
  split.
  { assert (K : forall t b, forallb (fun c => negb (c =? 0) && (-128 <=? c) && (c <? 128)) t = true -> Z.of_nat (length (t ++ 0 :: b)) < 2 ^ 63 -> shows_text (-128) (Some (t ++ 0 :: b)) t).
    { intros t b H L. rewrite forallb_forall in H. split; [eauto|]. split.
      - intros I. specialize (H _ I). discriminate.
      - split; auto. apply Forall_forall. intros c I. specialize (H _ I). rewrite !andb_true_iff in H. destruct H as ((_ & H1) & H2). apply Z.leb_le in H1. apply Z.ltb_lt in H2. lia. }
    repeat (apply Forall2_cons; [first [reflexivity | match goal with |- shows_text _ _ ?t => first [exact (K t [] eq_refl eq_refl) | exact (K t [7] eq_refl eq_refl)] end]|]). constructor. }
  split.
  { assert (K : forall t c, t <> [quote] -> nth_error (rev t) 0 = Some c -> c <> quote \/ nth_error (rev t) 1 <> Some equals -> ~ lone_quote t).
    { intros t c N E H [->|(n & _ & ->)]; [auto|]. rewrite app_assoc, rev_app_distr in *. cbn in *. destruct H; congruence. }
    repeat (apply Forall_cons; [eapply K; [discriminate|reflexivity|first [left; discriminate | right; discriminate]]|]). constructor. }
  split; [left; reflexivity|]. split; [eexists; eexists; split; [vm_compute; reflexivity|split; reflexivity]|].
  apply (MeansNamed _ [99] [34; 120; 32; 121; 34]); [reflexivity|intros [H|[]]; discriminate|left; reflexivity].
Qed.
Print Assumptions C251_meaning_partial.
Print Assumptions C251_quote_refuted.
Print Assumptions C251_unique.
Print Assumptions C251_argc.

(** * C252 Arguments: lookups *)

(** A lookup by name finds the first argument with that name, and gives its value; nothing if there is none. *)
Theorem C252_by_name :
  forall args name, Forall arg_valid args -> valid name ->
  exists r, find_argument_position args name = Ok r /\ first_arg (fun a => chars (a_name a) = chars name) args r /\
    args_named args name = Ok (match r with Some i => option_map a_value (nth_error args i) | None => None end).
Proof. exact c252_by_name. Qed.

(** first_named_argument is the first argument with a name; has_named_argument tells if there is one. *)
Theorem C252_first_named :
  forall args, Forall arg_valid args ->
  exists r, first_named_argument args = Ok r /\ first_arg (fun a => chars (a_name a) <> []) args r /\
    has_named_argument args = Ok (match r with Some _ => true | None => false end).
Proof. exact c252_first_named. Qed.

(** On the command line: the value of the first argument whose text has that name. *)
Theorem C252_command_line :
  forall dbg runtime lo argv texts argc name, lo = -128 \/ lo = 0 -> Forall2 (shows_text lo) argv texts -> 0 < argc <= Z.of_nat (length argv) ->
  Forall (fun t => ~ lone_quote t) texts -> valid name ->
  exists prog args r, arguments dbg runtime argc argv = Ok (prog, args) /\ args_size args = Z.to_nat (argc - 1) /\ args_named args name = Ok r /\
    match r with
    | Some v => exists a t b, firstn (Z.to_nat argc) texts = a ++ t :: b /\ (0 < length a)%nat /\ valid v /\ means t (chars name) (chars v) /\
        forall u w, In u (skipn 1 a) -> ~ means u (chars name) w
    | None => forall u w, In u (skipn 1 (firstn (Z.to_nat argc) texts)) -> ~ means u (chars name) w
    end.
Proof. exact c252_command_line. Qed.

Definition name_of (s : list Z) : view := View (Some s) 0 (Z.of_nat (length s)).
Example C252_nonvacuous :
  exists p args, arguments true true 7 command_line = Ok (p, args) /\ args_size args = 6%nat /\ first_named_argument args = Ok (Some 0%nat) /\
  find_argument_position args (name_of [99]) = Ok (Some 2%nat) /\ find_argument_position args v_null = Ok (Some 3%nat) /\ args_named args (name_of [120]) = Ok None /\
  option_map (option_map chars) (match args_named args (name_of [99]) with Ok r => Some r | _ => None end) = Some (Some [120; 32; 121]) /\
  args_at args 6 = UB.
Proof. eexists; eexists; split; [vm_compute; reflexivity|]. repeat split; vm_compute; reflexivity. Qed.
Theorem C252_by_position :
  forall args idx, (args_empty args = true <-> args = []) /\ args_size args = length args /\
  (forall a, nth_error args idx = Some a -> args_at args idx = Ok a) /\ ((length args <= idx)%nat -> args_at args idx = UB).
Proof. exact c252_by_position_l. Qed.
Print Assumptions C252_by_position.
Print Assumptions C252_by_name.
Print Assumptions C252_first_named.
Print Assumptions C252_command_line.
