(** Model of insert, erase and pop_back_value of daw::vector when allocations and
    copies throw (include/daw/vector.h, to which the line numbers refer), on the
    memory of VectorThrow.v.  No proofs in this file.

    An element type either has moves that do not throw ([nothrow_move]), or it has
    no moves and std::move copies; types whose moves can throw are not modelled.
    The inserted value is not an element of the vector. *)
From Verif Require Import Common Ints Vector VectorThrow.
Open Scope Z_scope.

Section VectorThrowInsert.
Context {A : Type}.
Variable fails : nat -> bool.
Variable nothrow_move : bool.
Variable ms : Z.      (* max_size( ) *)

(** Constructs slot [j] of buffer [nb] from std::move of the object in slot [i] of
    [ob], which must not be moved from. *)
Definition shift_construct (w : world A) (ob i nb j : nat) : out A unit :=
  match fetch w ob i with
  | None => Und
  | Some a =>
      if nothrow_move then
        match place w nb j a with
        | None => Und
        | Some w => match buffer w ob with
                    | None => Und
                    | Some m => Fin (set_buffer w ob (Some (upd m i Moved))) tt
                    end
        end
      else construct fails w nb j a
  end.

(** Assigns std::move of the object in slot [i] to that in slot [j]. *)
Definition shift_assign (w : world A) (b i j : nat) : out A unit :=
  match fetch w b i with
  | None => Und
  | Some a =>
      if nothrow_move then
        match buffer w b with
        | None => Und
        | Some m => match nth_error m j with
                    | None | Some Raw => Und
                    | Some _ => Fin (set_buffer w b (Some (upd (upd m j (Obj a)) i Moved))) tt
                    end
        end
      else assign_to fails w b j a
  end.

(** 60-78 construct_forward_with_exception_guarantees: [n] elements from slot [i];
    the result is end_ of the split buffer. *)
Fixpoint relocate_forward (w : world A) (ob i n nb e : nat) {struct n} : out A nat :=
  match n with
  | O => Fin w e
  | S n => match shift_construct w ob i nb e with
           | Fin w _ => relocate_forward w ob (S i) n nb (S e)
           | Exc w _ => Exc w e
           | Und => Und
           end
  end.

(** std::move_backward( first, first + n, first + n + 1 ). *)
Fixpoint move_up (w : world A) (b first n : nat) {struct n} : out A unit :=
  match n with
  | O => Fin w tt
  | S n => match shift_assign w b (first + n) (S (first + n)) with
           | Fin w _ => move_up w b first n
           | r => r
           end
  end.
(** std::move( from, from + n, to ). *)
Fixpoint move_down (w : world A) (b from n to : nat) {struct n} : out A unit :=
  match n with
  | O => Fin w tt
  | S n => match shift_assign w b from to with
           | Fin w _ => move_down w b (S from) n (S to)
           | r => r
           end
  end.

(** 1063-1076 swap_out_circular_buffer( v, p ), with the destructor of the split
    buffer.  A vector whose first element is not the start of its allocation counts
    as undefined. *)
Definition swap_out_at (w : world A) (v : tvec) (s : tsplit) (p : nat) : out A tvec :=
  match vbuf v, tbuf s with
  | Some ob, Some nb =>
      match relocate fails nothrow_move w ob p nb (tbegin s) with
      | Fin w O =>
          match relocate_forward w ob p (vlen v - p) nb (tend s) with
          | Fin w e =>
              match split_destroy w (TSplit (Some ob) 0 (vlen v)) with
              | Some w => Fin w (TVec (Some nb) e)
              | None => Und
              end
          | Exc w e => unwind w (TSplit (Some nb) 0 e) v
          | Und => Und
          end
      | Fin _ (S _) => Und
      | Exc w b2 => unwind w (TSplit (Some nb) b2 (tend s)) v
      | Und => Und
      end
  | None, Some nb =>
      if (tbegin s =? 0)%nat && (vlen v =? 0)%nat then Fin w (TVec (Some nb) (tend s)) else Und
  | _, None => Und
  end.

(** 615-638 insert( position, x ); 1078-1091 move_range( p, m_end, p + 1 ) moves the
    last element to the storage behind it and the others up by one.  push_back of
    the split buffer (split_buffer.h 281-302) has room. *)
Definition insert (w : world A) (v : tvec) (p : nat) (a : A) : out A tvec :=
  if (vlen v <? p)%nat then Und
  else if (vlen v <? vcap w v)%nat then
    if (p =? vlen v)%nat then at_end fails w v [a]
    else match vbuf v with
         | None => Und
         | Some b =>
             match shift_construct w b (vlen v - 1) b (vlen v) with
             | Und => Und
             | Exc w _ => Exc w v
             | Fin w _ =>
                 let v := TVec (Some b) (S (vlen v)) in
                 match move_up w b p (vlen v - 2 - p) with
                 | Und => Und
                 | Exc w _ => Exc w v
                 | Fin w _ => match assign_to fails w b p a with
                              | Fin w _ => Fin w v
                              | Exc w _ => Exc w v
                              | Und => Und
                              end
                 end
             end
         end
  else match recommend ms (vcap w v) (sz (Z.of_nat (vlen v) + 1)) with
       | Ok cap =>
           match split_make fails w cap p with
           | Exc w _ => Exc w v
           | Und => Und
           | Fin w s =>
               match split_construct fails w s [a] with
               | Exc w s => unwind w s v
               | Und => Und
               | Fin w s => swap_out_at w v s p
               end
           end
       | Throw => Exc w v
       | _ => Und
       end.

(** 800-807 erase( first, last ), with the positions [p] and [q]; also 792-798
    erase( position ) with [q] = [p] + 1. *)
Definition erase (w : world A) (v : tvec) (p q : nat) : out A tvec :=
  if (q <? p)%nat || (vlen v <? q)%nat then Und
  else if (p =? q)%nat then Fin w v
  else match vbuf v with
       | None => Und
       | Some b => match move_down w b q (vlen v - q) p with
                   | Fin w _ => cut_to w v (p + (vlen v - q))
                   | Exc w _ => Exc w v
                   | Und => Und
                   end
       end.

(** 590-611 pop_back_value; an empty vector fails the assertion, which counts as
    undefined.  Types whose copies are known not to throw are not modelled. *)
Definition pop_back_value (w : world A) (v : tvec) : out A (tvec * option A) :=
  match vbuf v, vlen v with
  | Some b, S n =>
      match fetch w b n with
      | None => Und
      | Some a =>
          if nothrow_move then
            match cut_to w v n with
            | Fin w v => Fin w (v, Some a)
            | _ => Und
            end
          else if fails (tick w) then Exc (next w) (v, None)
          else match cut_to (next w) v n with
               | Fin w v => Fin w (v, Some a)
               | _ => Und
               end
      end
  | _, _ => Und
  end.

(** A program that calls members one after the other and catches the exceptions. *)
Inductive iop := IOther (o : top A) | IInsert (p : nat) (a : A) | IErase (p q : nat) | IPopValue.
Definition istep (w : world A) (v : tvec) (o : iop) : out A tvec :=
  match o with
  | IOther o => tstep fails nothrow_move ms w v o
  | IInsert p a => insert w v p a
  | IErase p q => erase w v p q
  | IPopValue => match pop_back_value w v with
                 | Fin w (v, _) => Fin w v
                 | Exc w (v, _) => Exc w v
                 | Und => Und
                 end
  end.
End VectorThrowInsert.
Arguments iop : clear implicits.
