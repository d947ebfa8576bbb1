(** What C324-C326 talk about. *)
From Verif Require Import Common ContainerHelp.

(** A vector or a container_data, seen as a value: its elements and its capacity. *)
Record aobj := mk_aobj { a_kind : owner_kind; a_vals : list Z; a_cap : nat }.
Definition a_get (a : list (option aobj)) (i : nat) : option aobj :=
  match nth_error a i with Some o => o | None => None end.
(** What the operations are to do. *)
Definition spec_step (a : list (option aobj)) (o : hop) : list (option aobj) :=
  match o with
  | HNew vs cap => if Nat.ltb cap (length vs) then a else a ++ [Some (mk_aobj IsVec vs cap)]
  | HExtract i =>
      match a_get a i with
      | Some (mk_aobj IsVec vs cap) => upd a i (Some (mk_aobj IsVec [] 0)) ++ [Some (mk_aobj IsData vs cap)]
      | _ => a
      end
  | HReset i =>
      match a_get a i with
      | Some (mk_aobj IsData vs cap) => upd a i (Some (mk_aobj IsData [] 0))
      | _ => a
      end
  | HDestroy i => upd a i None
  | HGive i vs cap =>
      if Nat.ltb cap (length vs) || Nat.eqb cap 0 then a
      else match a_get a i with
           | Some (mk_aobj IsVec _ _) => upd a i (Some (mk_aobj IsVec vs cap))
           | _ => a
           end
  | HGiveData _ _ => a
  end.
Definition spec_run (a : list (option aobj)) (ops : list hop) : list (option aobj) := fold_left spec_step ops a.

(** The object [i] owns the block [b]. *)
Definition owns (s : hst) (i b : nat) : Prop := exists o, get_obj s i = Some o /\ o_buf o = Some b.
(** The elements of an owner: the objects in the first o_size cells of its allocated block. *)
Definition elements (s : hst) (o : owner) : option (list (option Z)) :=
  match o_buf o with
  | None => if Nat.eqb (o_size o) 0 then Some [] else None
  | Some b => match nth_error (h_blocks s) b with
              | Some (true, cells) => if Nat.leb (o_size o) (length cells) then Some (firstn (o_size o) cells) else None
              | _ => None
              end
  end.
(** The program's objects have the elements and capacities of the values. *)
Definition shows (s : hst) (a : list (option aobj)) : Prop :=
  length (h_objs s) = length a /\
  forall i, match get_obj s i, a_get a i with
            | None, None => True
            | Some o, Some x => o_kind o = a_kind x /\ o_cap o = a_cap x /\ elements s o = Some (map Some (a_vals x))
            | _, _ => False
            end.
(** Every allocated block belongs to one object. *)
Definition all_owned (s : hst) : Prop :=
  forall b cells, nth_error (h_blocks s) b = Some (true, cells) -> exists i, owns s i b /\ forall j, owns s j b -> j = i.

(** Buffers are filled up to their capacity. *)
Definition full_op (o : hop) : Prop :=
  match o with HNew vs cap | HGive _ vs cap => length vs = cap | _ => True end.
(** The pointer of a container_data is not given to a vector. *)
Definition no_share (o : hop) : Prop := match o with HGiveData _ _ => False | _ => True end.
Definition careful (trivial honoured : bool) (ops : list hop) : Prop :=
  Forall no_share ops /\ (trivial = true \/ (honoured = true /\ Forall full_op ops)).

(** The values that are assigned through an output iterator. *)
Definition assigned {T} (ops : list (iop T)) : list T :=
  flat_map (fun o => match o with IAssign x => [x] | _ => [] end) ops.
(** Strictly increasing. *)
Fixpoint increasing (l : list Z) : Prop :=
  match l with x :: ((y :: _) as r) => (x < y)%Z /\ increasing r | _ => True end.

(** compressed_pair as a pair of values. *)
Definition pair_spec {A B} (s : list (A * B)) (o : pop A B) : option (list (A * B)) :=
  match o with
  | PNew a b => Some (s ++ [(a, b)])
  | PFirst i a => match nth_error s i with Some p => Some (upd s i (a, snd p)) | None => None end
  | PSecond i b => match nth_error s i with Some p => Some (upd s i (fst p, b)) | None => None end
  | PSwap i j => match nth_error s i, nth_error s j with Some p, Some q => Some (upd (upd s i q) j p) | _, _ => None end
  end.
