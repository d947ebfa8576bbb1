(** Vocabulary for the properties of MoreTools.v. No proofs in this file. *)
From Verif Require Import Common MoreTools.
Open Scope Z_scope.

(** * Braces: what the splitter is for.  A text without nested groups, where a backslash
    takes away the meaning of the character after it. *)
Inductive group_text : list Z -> Prop :=
| group_intro : forall inner, Forall (fun c => c <> 123 /\ c <> 125 /\ c <> 92) inner -> group_text (123 :: inner ++ [125]).

(** * Tracked memory *)
(** Histories of a client that does not copy pointers. *)
Definition no_copy (o : top) : Prop := forall i, o <> TCopy i.
(** Operations through pointer i. *)
Definition through (o : top) (i : nat) : Prop :=
  o = TInc i \/ o = TDec i \/ (exists v, o = TConstruct i v) \/ o = TDestroy i \/ o = TRead i \/ exists n, o = TDealloc i n.
(** The pointer was deallocated. *)
Definition deallocated (s : theap) (i : nat) : Prop := exists p, nth_error (t_ptrs s) i = Some p /\ t_destroyed p = true.
(** Pointer i stands before element k of a block that is allocated and holds l. *)
Definition stands (s : theap) (i : nat) (k : Z) (l : list (option Z)) : Prop :=
  exists b, nth_error (t_ptrs s) i = Some (TPtr b k false) /\ nth_error (t_blocks s) b = Some (true, l).

(** * Storage: the specification is a list of optional values. *)
(** The object in storage i. *)
Definition holds (s : ust) (i : nat) (v : Z) : Prop := nth_error (u_slots s) i = Some (Some v).
Definition vacant (s : ust) (i : nat) : Prop := nth_error (u_slots s) i = Some None.
(** Counting operations and living objects. *)
Definition is_construct (o : uop) : bool := match o with UConstruct _ _ => true | _ => false end.
Definition is_destruct (o : uop) : bool := match o with UDestruct _ => true | _ => false end.
Definition alive_slot (o : option Z) : bool := match o with Some _ => true | None => false end.
Definition count {T} (f : T -> bool) (l : list T) : nat := length (filter f l).
