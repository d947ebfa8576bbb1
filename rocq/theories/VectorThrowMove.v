(** Model of push_back and insert of an rvalue into daw::vector when allocations and
    copies throw (include/daw/vector.h, to which the line numbers refer), on the
    memory of VectorThrow.v.  No proofs in this file.

    As in VectorThrowInsert.v an element type either has moves that do not throw
    ([nothrow_move]), or std::move copies.  The argument is an object outside of the
    memory of the vector: [Obj a], and [Moved] after it has been moved from; an
    argument that is an element of the vector is not modelled. *)
From Verif Require Import Common Ints Vector VectorThrow VectorThrowInsert.
Open Scope Z_scope.

Section VectorThrowMove.
Context {A : Type}.
Variable fails : nat -> bool.
Variable nothrow_move : bool.
Variable ms : Z.      (* max_size( ) *)

(** allocator_traits::construct with std::move( x ); the result is what is left of x. *)
Definition construct_from (w : world A) (b i : nat) (x : slot A) : out A (slot A) :=
  match x with
  | Obj a =>
      if nothrow_move then match place w b i a with Some w => Fin w Moved | None => Und end
      else match construct fails w b i a with
           | Fin w _ => Fin w x
           | Exc w _ => Exc w x
           | Und => Und
           end
  | _ => Und
  end.
(** Assignment of std::move( x ) to an object. *)
Definition assign_from (w : world A) (b i : nat) (x : slot A) : out A (slot A) :=
  match x with
  | Obj a =>
      if nothrow_move then
        match buffer w b with
        | None => Und
        | Some m => match nth_error m i with
                    | None | Some Raw => Und
                    | Some _ => Fin (set_buffer w b (Some (upd m i (Obj a)))) Moved
                    end
        end
      else match assign_to fails w b i a with
           | Fin w _ => Fin w x
           | Exc w _ => Exc w x
           | Und => Und
           end
  | _ => Und
  end.

(** 1167-1174 construct_one_at_end( std::move( x ) ). *)
Definition one_at_end (w : world A) (v : tvec) (x : slot A) : out A (tvec * slot A) :=
  match vbuf v with
  | None => Und
  | Some b => match construct_from w b (vlen v) x with
              | Fin w x => Fin w (TVec (Some b) (S (vlen v)), x)
              | Exc w x => Exc w (v, x)
              | Und => Und
              end
  end.

(** split_buffer.h 329-351 push_back( value_type && ), which has room; 1125-1129 of
    push_back_slow_path. *)
Definition split_push (w : world A) (s : tsplit) (x : slot A) : out A (tsplit * slot A) :=
  match tbuf s with
  | None => Und
  | Some b => match construct_from w b (tend s) x with
              | Fin w x => Fin w (TSplit (Some b) (tbegin s) (S (tend s)), x)
              | Exc w x => Exc w (s, x)
              | Und => Und
              end
  end.

(** The end of a call with the argument. *)
Definition with_arg (r : out A tvec) (x : slot A) : out A (tvec * slot A) :=
  match r with
  | Fin w v => Fin w (v, x)
  | Exc w v => Exc w (v, x)
  | Und => Und
  end.

(** 569-574 push_back( value_type && ); 1120-1131 push_back_slow_path. *)
Definition push_back_move (w : world A) (v : tvec) (x : slot A) : out A (tvec * slot A) :=
  if (vlen v <? vcap w v)%nat then one_at_end w v x
  else match recommend ms (vcap w v) (sz (Z.of_nat (vlen v) + 1)) with
       | Ok cap =>
           match split_make fails w cap (vlen v) with
           | Exc w _ => Exc w (v, x)
           | Und => Und
           | Fin w s =>
               match split_push w s x with
               | Exc w (s, x) => with_arg (unwind w s v) x
               | Und => Und
               | Fin w (s, x) => with_arg (swap_out fails nothrow_move w v s) x
               end
           end
       | Throw => Exc w (v, x)
       | _ => Und
       end.

(** 640-658 insert( position, value_type && ); the end of move_range as in insert. *)
Definition insert_move (w : world A) (v : tvec) (p : nat) (x : slot A) : out A (tvec * slot A) :=
  if (vlen v <? p)%nat then Und
  else if (vlen v <? vcap w v)%nat then
    if (p =? vlen v)%nat then one_at_end w v x
    else match vbuf v with
         | None => Und
         | Some b =>
             match shift_construct fails nothrow_move w b (vlen v - 1) b (vlen v) with
             | Und => Und
             | Exc w _ => Exc w (v, x)
             | Fin w _ =>
                 let v := TVec (Some b) (S (vlen v)) in
                 match move_up fails nothrow_move w b p (vlen v - 2 - p) with
                 | Und => Und
                 | Exc w _ => Exc w (v, x)
                 | Fin w _ => match assign_from w b p x with
                              | Fin w x => Fin w (v, x)
                              | Exc w x => Exc w (v, x)
                              | Und => Und
                              end
                 end
             end
         end
  else match recommend ms (vcap w v) (sz (Z.of_nat (vlen v) + 1)) with
       | Ok cap =>
           match split_make fails w cap p with
           | Exc w _ => Exc w (v, x)
           | Und => Und
           | Fin w s =>
               match split_push w s x with
               | Exc w (s, x) => with_arg (unwind w s v) x
               | Und => Und
               | Fin w (s, x) => with_arg (swap_out_at fails nothrow_move w v s p) x
               end
           end
       | Throw => Exc w (v, x)
       | _ => Und
       end.
End VectorThrowMove.
