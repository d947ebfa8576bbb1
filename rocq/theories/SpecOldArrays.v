(** Vocabulary for the theorems about heap_array, fixed_array and carray. *)
From Verif Require Import Common OldArrays.
Open Scope nat_scope.

(** The operations on variables that are plain lists; None: the call is not allowed. *)
Definition the {T} (ls : list (option (list T))) (i : nat) : option (list T) :=
  match nth_error ls i with Some (Some l) => Some l | _ => None end.
Definition list_step {T} (ls : list (option (list T))) (o : aop T) : option (list (option (list T))) :=
  match o with
  | Default => Some (ls ++ [Some []])
  | New n x => Some (ls ++ [Some (repeat x n)])
  | FromList l => Some (ls ++ [Some l])
  | CopyNew j => match the ls j with Some l => Some (ls ++ [Some l]) | None => None end
  | MoveNew j => match the ls j with Some l => Some (upd ls j (Some []) ++ [Some l]) | None => None end
  | MoveAssign i j =>
      match the ls i, the ls j with
      | Some _, Some l => Some (upd (upd ls j (Some [])) i (Some l))
      | _, _ => None
      end
  | CopyAssign i j =>
      match the ls i, the ls j with
      | Some _, Some l => Some (upd ls i (Some l))
      | _, _ => None
      end
  | AssignList i l => match the ls i with Some _ => Some (upd ls i (Some l)) | None => None end
  | SwapWith i j =>
      match the ls i, the ls j with
      | Some k, Some l => Some (upd (upd ls i (Some l)) j (Some k))
      | _, _ => None
      end
  | ClearA i => match the ls i with Some _ => Some (upd ls i (Some [])) | None => None end
  | SetAt i k x =>
      match the ls i with
      | Some l => if k <? length l then Some (upd ls i (Some (upd l k x))) else None
      | None => None
      end
  | Destroy i => match the ls i with Some _ => Some (upd ls i None) | None => None end
  end.
Fixpoint list_run {T} (os : list (aop T)) (ls : list (option (list T))) : option (list (option (list T))) :=
  match os with
  | [] => Some ls
  | o :: os => match list_step ls o with Some ls => list_run os ls | None => None end
  end.

(** Kinds of operations. *)
Definition is_clear {T} (o : aop T) : bool := match o with ClearA _ => true | _ => false end.
Definition is_move_assign {T} (o : aop T) : bool := match o with MoveAssign _ _ => true | _ => false end.
Definition is_move_new {T} (o : aop T) : bool := match o with MoveNew _ => true | _ => false end.
Definition without {T} (f : aop T -> bool) (os : list (aop T)) : Prop := Forall (fun o => f o = false) os.

(** The variables have these contents, seen through size( ) and operator[]. *)
Definition shows {T} (s : astate T) (ls : list (option (list T))) : Prop :=
  length (snd s) = length ls /\
  forall i, match nth_error ls i with
            | Some (Some l) =>
                exists a, nth_error (snd s) i = Some (Some a) /\ cnt a = length l /\
                          forall k x, nth_error l k = Some x -> read_at (fst s) (beg a) k = Ok x
            | Some None => nth_error (snd s) i = Some None
            | None => True
            end.
(** Array number [k] has not been deleted. *)
Definition alive {T} (m : arrays T) (k : nat) : Prop := exists l, nth_error m k = Some (Some l).
(** Exactly the variables keep arrays alive, each its own. *)
Definition no_leak {T} (s : astate T) : Prop :=
  (forall k, alive (fst s) k <-> exists i a, nth_error (snd s) i = Some (Some a) /\ beg a = Some k) /\
  (forall i j a b k, nth_error (snd s) i = Some (Some a) -> nth_error (snd s) j = Some (Some b) ->
     beg a = Some k -> beg b = Some k -> i = j).
(** The array has an element more than size( ). *)
Definition has_spare {T} (m : arrays T) (a : arr) : Prop := exists l, get_arr m (beg a) = Ok l /\ length l = S (cnt a).
(** The position of the first element equal to [x] from position [start] on, or the size. *)
Definition first_from {T} (eqb : T -> T -> bool) (l : list T) (start : nat) (x : T) (p : nat) : Prop :=
  start <= p <= length l /\ (forall k y, start <= k < p -> nth_error l k = Some y -> eqb y x = false) /\
  (forall y, nth_error l p = Some y -> eqb y x = true).
