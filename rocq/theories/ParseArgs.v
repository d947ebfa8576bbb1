(** Model of daw_parse_args.h: the command line as a list of arguments, each with a name
    and a value that are views (StringView.v, StringPop.v) of the program's memory.

    [dbg] and [runtime] are those of StringView.v: the range checks of a debug build, and
    evaluation at run time.  The vector of arguments is a list; its allocation does not
    fail.  argv is the list of its pointers: [None] is a null pointer, [Some l] a pointer
    to the first of the characters [l].  A character is its value as [char]. *)
From Verif Require Import Common Ints StringView StringPop.
Open Scope Z_scope.

(** pa.h:31-33. *)
Record argument := Argument { a_name : view; a_value : view }.

Section Args.
  Variables dbg runtime : bool.

  (** pa.h:47-52: the value, without its quotes. *)
  Definition arg_value (v : view) : res view :=
    b <- starts_with_char dbg v 34 ;;
    b <- (if b then ends_with_char dbg v 34 else Ok false) ;;
    if b then v <- remove_prefix v 1 ;; Ok (remove_suffix v 1) else Ok v.
  (** pa.h:38-53 Argument( args ). *)
  Definition parse_argument (v : view) : res argument :=
    dashes <- v_literal dbg [45; 45; 0] ;;
    b <- starts_with dbg v dashes ;;
    if b then
      v <- remove_prefix v 2 ;;
      ' (name, v) <- pop_front_until_char dbg runtime v 61 ;;
      if vempty v then Ok (Argument name v_null)
      else v <- arg_value v ;; Ok (Argument name v)
    else v <- arg_value v ;; Ok (Argument v_null v).

  (** pa.h:74-76: [n] is the loop counter, [fuel] the number of rounds left. *)
  Fixpoint args_loop (fuel : nat) (n : nat) (argv : list (option (list Z))) : res (list argument) :=
    match fuel with
    | O => Ok []
    | S fuel =>
        p <- rd argv n ;;
        v <- v_cstr dbg p 0 ;;
        a <- parse_argument v ;;
        r <- args_loop fuel (S n) argv ;;
        Ok (a :: r)
    end.
  (** pa.h:57 and 70-77 Arguments( argc, argv ): the program name and the arguments. *)
  Definition arguments (argc : Z) (argv : list (option (list Z))) : res (view * list argument) :=
    prog <- v_literal dbg [0] ;;
    prog <- (if 0 <? argc
             then p <- rd argv 0 ;; match p with None => Ok prog | Some _ => v_cstr dbg p 0 end
             else Ok prog) ;;
    args <- args_loop (Z.to_nat (argc - 1)) 1 argv ;;
    Ok (prog, args).

  (** std::find_if over the arguments, from position [n]. *)
  Fixpoint find_arg (pred : argument -> res bool) (n : nat) (args : list argument) : res (option nat) :=
    match args with
    | [] => Ok None
    | a :: args => b <- pred a ;; if b then Ok (Some n) else find_arg pred (S n) args
    end.
  (** pa.h:99-105 size, empty; 107-109 operator[]( idx ). *)
  Definition args_size (args : list argument) : nat := length args.
  Definition args_empty (args : list argument) : bool := (args_size args =? 0)%nat.
  Definition args_at (args : list argument) (idx : nat) : res argument := rd args idx.
  (** pa.h:120-129 find_argument_position. *)
  Definition find_argument_position (args : list argument) (name : view) : res (option nat) :=
    find_arg (fun a => sv_eq (a_name a) name) 0 args.
  (** pa.h:111-118 operator[]( name ). *)
  Definition args_named (args : list argument) (name : view) : res (option view) :=
    pos <- find_argument_position args name ;;
    match pos with
    | Some pos => a <- rd args pos ;; Ok (Some (a_value a))
    | None => Ok None
    end.
  (** pa.h:131-139 first_named_argument, 141-143 has_named_argument. *)
  Definition first_named_argument (args : list argument) : res (option nat) :=
    find_arg (fun a => Ok (negb (vempty (a_name a)))) 0 args.
  Definition has_named_argument (args : list argument) : res bool :=
    pos <- first_named_argument args ;; Ok (match pos with Some _ => true | None => false end).
End Args.
