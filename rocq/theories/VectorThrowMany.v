(** Model of insert of several elements into a daw::vector when allocations and
    copies throw (include/daw/vector.h, to which the line numbers refer), on the
    memory of VectorThrow.v.  No proofs in this file. *)
From Verif Require Import Common Ints Vector VectorThrow VectorThrowInsert.
Open Scope Z_scope.

Section VectorThrowMany.
Context {A : Type}.
Variable fails : nat -> bool.
Variable nothrow_move : bool.
Variable ms : Z.      (* max_size( ) *)

(** 703-710 of insert( position, n, x ), 775-781 of insert( position, first, last )
    for forward iterators: the branch for more elements than the free capacity has
    room for.  [l] are the values, of which none is an element of the vector. *)
Definition insert_new_buffer (w : world A) (v : tvec) (p : nat) (l : list A) : out A tvec :=
  match recommend ms (vcap w v) (sz (Z.of_nat (vlen v) + Z.of_nat (length l))) with
  | Ok cap =>
      match split_make fails w cap p with
      | Exc w _ => Exc w v
      | Und => Und
      | Fin w s =>
          match split_construct fails w s l with
          | Exc w s => unwind w s v
          | Und => Und
          | Fin w s => swap_out_at fails nothrow_move w v s p
          end
      end
  | Throw => Exc w v
  | _ => Und
  end.

(** std::move_backward( first, first + n, first + n + d ). *)
Fixpoint move_up_by (w : world A) (b first n d : nat) {struct n} : out A unit :=
  match n with
  | O => Fin w tt
  | S n => match shift_assign fails nothrow_move w b (first + n) (first + n + d) with
           | Fin w _ => move_up_by w b first n d
           | r => r
           end
  end.

(** 1078-1091 move_range( first, last, first + d ) of slots of buffer [b]: the
    elements that go behind m_end = [len] are constructed, the others assigned.  The
    result is m_end. *)
Definition move_range (w : world A) (b first last d len : nat) : out A nat :=
  let n := (len - (first + d))%nat in
  match relocate_forward fails nothrow_move w b (first + n) (last - (first + n)) b len with
  | Fin w e => match move_up_by w b first n d with
               | Fin w _ => Fin w e
               | Exc w _ => Exc w e
               | Und => Und
               end
  | r => r
  end.

(** 683-713 insert( position, n, x ), with [l] = n times x, and 754-785
    insert( position, first, last ) for forward iterators.  The values are not
    elements of the vector. *)
Definition insert_many (w : world A) (v : tvec) (p : nat) (l : list A) : out A tvec :=
  if (vlen v <? p)%nat then Und
  else if (length l =? 0)%nat then Fin w v
  else if (length l <=? vcap w v - vlen v)%nat then
    let tail := (vlen v - p)%nat in
    match (if (tail <? length l)%nat then at_end fails w v (skipn tail l) else Fin w v) with
    | Und => Und
    | Exc w v => Exc w v
    | Fin w v1 =>
        let l1 := firstn tail l in
        if (length l1 =? 0)%nat then Fin w v1
        else match vbuf v with
             | None => Und
             | Some b =>
                 match move_range w b p (vlen v) (length l) (vlen v1) with
                 | Und => Und
                 | Exc w e => Exc w (TVec (Some b) e)
                 | Fin w e => match assign_list fails w b p l1 with
                              | Fin w _ => Fin w (TVec (Some b) e)
                              | Exc w _ => Exc w (TVec (Some b) e)
                              | Und => Und
                              end
                 end
             end
    end
  else insert_new_buffer w v p l.
End VectorThrowMany.
