(** What memory mapped files are to do: who owns what, and what a file holds. *)
From Verif Require Import Common MmapFile.
Open Scope Z_scope.

(** The descriptors and the mappings (address and size) that the objects own. *)
Definition file_fds (m : option mmfile) : list nat :=
  match m with Some (Some d) => match d_file d with Some fd => [fd] | None => [] end | _ => [] end.
Definition file_maps (m : option mmfile) : list (nat * nat) :=
  match m with Some (Some d) => match d_ptr d with At a => [(a, d_size d)] | _ => [] end | _ => [] end.
Definition owned_fds (o : objects) : list nat := flat_map file_fds o.
Definition owned_maps (o : objects) : list (nat * nat) := flat_map file_maps o.
(** The mappings of the system with their sizes. *)
Definition mapped (s : sys) : list (nat * nat) := map (fun m => (fst m, length (snd m))) (s_maps s).

(** No object is alive. *)
Definition all_dead (o : objects) : Prop := Forall (fun m => m = None) o.
Definition fresh_objects (n : nat) : objects := repeat None n.

(** An object that exists and has been opened, successfully or not, and not been moved from since. *)
Definition engaged (o : objects) (i : nat) : Prop := exists d, nth_error o i = Some (Some (Some d)).
Definition alive (o : objects) (i : nat) : Prop := exists m, nth_error o i = Some (Some m).
Definition not_alive (o : objects) (i : nat) : Prop := nth_error o i = Some None.
(** Operations on objects in their lifetime; those that look at a file, or take it over by assignment, are for objects that have been opened. *)
Definition proper (o : objects) (p : op) : Prop :=
  match p with
  | New i => not_alive o i
  | Open i _ | Destroy i => alive o i
  | IsOpen i | Size i => engaged o i
  | MoveNew i j => not_alive o i /\ alive o j
  | MoveAssign i j => alive o i /\ engaged o j
  end.

(** The file object [i] holds the bytes: it says that it is open, gives their number, and every one of them, as char has one byte. *)
Definition holds (o : objects) (s : sys) (i : nat) (bytes : list Z) : Prop :=
  exists m, nth_error o i = Some (Some m) /\ is_open m = Ok true /\ size m = Ok (length bytes) /\
    forall pos b, nth_error bytes pos = Some b -> get 1 m pos s = Ok b.
(** Operations that change the object i. *)
Definition touches (i : nat) (p : op) : Prop :=
  match p with
  | New j | Open j _ | Destroy j => i = j
  | MoveNew j k | MoveAssign j k => i = j \/ i = k
  | IsOpen _ | Size _ => False
  end.
(** The system can open the file, find its size and map it, and the file is not empty (an empty one cannot be mapped). *)
Definition answers_well (a : answer) : Prop := a_opens a = true /\ a_seeks a = true /\ a_maps a = true /\ a_bytes a <> [].
