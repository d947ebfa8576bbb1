(** Model of daw::vector when allocations and element constructors throw
    (include/daw/vector.h, to which the line numbers refer, and
    include/daw/split_buffer.h).  No proofs in this file.

    Memory is a list of buffers: an allocation adds one at the end, and a buffer
    that was deallocated is None.  Every allocation, copy construction and copy
    assignment is an event; [fails k] says whether the k-th event since the start of
    the program throws.  Destructors and moves do not throw: [nothrow_move] says
    whether the type has such a move; elements are copied to a new buffer when it
    has none, as std::move_if_noexcept does.  Values passed by reference are not
    elements of the vector. *)
From Verif Require Import Common Ints Vector.
Open Scope Z_scope.

Section VectorThrow.
Context {A : Type}.
Variable fails : nat -> bool.
Variable nothrow_move : bool.
Variable ms : Z.      (* max_size( ) *)

Record world := World { heap : list (option (mem A)); tick : nat }.

(** How a call ends: it returns, throws, or is undefined.  [x] is what is left of
    the objects the call works on. *)
Inductive out (X : Type) := Fin (w : world) (x : X) | Exc (w : world) (x : X) | Und.
Arguments Fin {X} w x. Arguments Exc {X} w x. Arguments Und {X}.

(** ** Memory *)
Definition buffer (w : world) (b : nat) : option (mem A) :=
  match nth_error (heap w) b with Some (Some m) => Some m | _ => None end.
Definition set_buffer (w : world) (b : nat) (m : option (mem A)) : world :=
  World (upd (heap w) b m) (tick w).
Definition next (w : world) : world := World (heap w) (S (tick w)).

(** allocator_traits::allocate. *)
Definition allocate (w : world) (n : nat) : out nat :=
  if fails (tick w) then Exc (next w) 0%nat
  else Fin (World (heap w ++ [Some (repeat Raw n)]) (S (tick w))) (length (heap w)).

(** Puts an object into a raw slot. *)
Definition place (w : world) (b i : nat) (a : A) : option world :=
  match buffer w b with
  | None => None
  | Some m => match nth_error m i with
              | Some Raw => Some (set_buffer w b (Some (upd m i (Obj a))))
              | _ => None
              end
  end.
(** allocator_traits::construct with a copy. *)
Definition construct (w : world) (b i : nat) (a : A) : out unit :=
  if fails (tick w) then Exc (next w) tt
  else match place (next w) b i a with Some w => Fin w tt | None => Und end.
(** Copy assignment to an object. *)
Definition assign_to (w : world) (b i : nat) (a : A) : out unit :=
  if fails (tick w) then Exc (next w) tt
  else match buffer w b with
       | None => Und
       | Some m => match nth_error m i with
                   | None | Some Raw => Und
                   | Some _ => Fin (set_buffer (next w) b (Some (upd m i (Obj a)))) tt
                   end
       end.
Definition fetch (w : world) (b i : nat) : option A :=
  match buffer w b with
  | None => None
  | Some m => match nth_error m i with Some (Obj a) => Some a | _ => None end
  end.
(** allocator_traits::destroy. *)
Definition destroy (w : world) (b i : nat) : option world :=
  match buffer w b with
  | None => None
  | Some m => match nth_error m i with
              | None | Some Raw => None
              | Some _ => Some (set_buffer w b (Some (upd m i Raw)))
              end
  end.
(** allocator_traits::deallocate; no object may be left. *)
Definition deallocate (w : world) (b : nat) : option world :=
  match buffer w b with
  | None => None
  | Some m => if forallb is_raw m then Some (set_buffer w b None) else None
  end.

(** Destroys the [n] objects below [last], the last one first: 1193-1201
    base_destruct_at_end, split_buffer.h 460-467 destruct_at_end. *)
Fixpoint destroy_below (w : world) (b last n : nat) {struct n} : option world :=
  match n with
  | O => Some w
  | S n =>
      match last with
      | O => None
      | S last => match destroy w b last with
                  | None => None
                  | Some w => destroy_below w b last n
                  end
      end
  end.

(** The loops of construct_at_end (975-981, 989-995, 81-91; split_buffer.h 390-411)
    with the transaction: the result is the position the transaction writes back,
    also when a constructor throws. *)
Fixpoint construct_list (w : world) (b pos : nat) (l : list A) : out nat :=
  match l with
  | [] => Fin w pos
  | a :: l => match construct w b pos a with
              | Fin w _ => construct_list w b (S pos) l
              | Exc w _ => Exc w pos
              | Und => Und
              end
  end.
(** std::copy to existing objects. *)
Fixpoint assign_list (w : world) (b pos : nat) (l : list A) : out unit :=
  match l with
  | [] => Fin w tt
  | a :: l => match assign_to w b pos a with
              | Fin w _ => assign_list w b (S pos) l
              | Exc w _ => Exc w tt
              | Und => Und
              end
  end.

(** ** The vector and the split buffer *)
(** 132-136; m_begin is nullptr if [vbuf] is None, and m_end - m_begin is [vlen]. *)
Record tvec := TVec { vbuf : option nat; vlen : nat }.
(** split_buffer.h 59-62; begin_ and end_ are counted from first_. *)
Record tsplit := TSplit { tbuf : option nat; tbegin : nat; tend : nat }.

Definition null_vec : tvec := TVec None 0.
Definition vcap (w : world) (v : tvec) : nat :=
  match vbuf v with
  | None => 0%nat
  | Some b => match buffer w b with Some m => length m | None => 0%nat end
  end.

(** split_buffer.h 81-89. *)
Definition split_make (w : world) (cap : Z) (start : nat) : out tsplit :=
  if cap =? 0 then Fin w (TSplit None start start)
  else match allocate w (Z.to_nat cap) with
       | Fin w b => Fin w (TSplit (Some b) start start)
       | Exc w _ => Exc w (TSplit None start start)
       | Und => Und
       end.
(** split_buffer.h 113-118 ~split_buffer: clear( ), then the storage. *)
Definition split_destroy (w : world) (s : tsplit) : option world :=
  match tbuf s with
  | None => if (tbegin s =? tend s)%nat then Some w else None
  | Some b => match destroy_below w b (tend s) (tend s - tbegin s) with
              | None => None
              | Some w => deallocate w b
              end
  end.
(** split_buffer.h 404-411. *)
Definition split_construct (w : world) (s : tsplit) (l : list A) : out tsplit :=
  match tbuf s with
  | None => match l with [] => Fin w s | _ => Und end
  | Some b => match construct_list w b (tend s) l with
              | Fin w e => Fin w (TSplit (Some b) (tbegin s) e)
              | Exc w e => Exc w (TSplit (Some b) (tbegin s) e)
              | Und => Und
              end
  end.

(** 38-58 construct_backward_with_exception_guarantees: [n] elements are left in
    buffer [ob]; the result is begin_ of the split buffer. *)
Fixpoint relocate (w : world) (ob n nb begin2 : nat) {struct n} : out nat :=
  match n with
  | O => Fin w begin2
  | S n =>
      match begin2 with
      | O => Und
      | S b2 =>
          match fetch w ob n with
          | None => Und
          | Some a =>
              if nothrow_move then
                match place w nb b2 a with
                | None => Und
                | Some w =>
                    match buffer w ob with
                    | None => Und
                    | Some m => relocate (set_buffer w ob (Some (upd m n Moved))) ob n nb b2
                    end
                end
              else match construct w nb b2 a with
                   | Fin w _ => relocate w ob n nb b2
                   | Exc w _ => Exc w begin2
                   | Und => Und
                   end
          end
      end
  end.

(** A local split buffer is destroyed while an exception passes. *)
Definition unwind (w : world) (s : tsplit) (v : tvec) : out tvec :=
  match split_destroy w s with Some w => Exc w v | None => Und end.

(** 1055-1063 swap_out_circular_buffer, with the destructor of the split buffer,
    which holds the old buffer then.  A vector whose first element is not the start
    of its allocation counts as undefined. *)
Definition swap_out (w : world) (v : tvec) (s : tsplit) : out tvec :=
  match vbuf v, tbuf s with
  | None, _ =>
      if (tbegin s =? 0)%nat && (vlen v =? 0)%nat then Fin w (TVec (tbuf s) (tend s)) else Und
  | Some ob, None =>
      if (vlen v =? 0)%nat then
        match split_destroy w (TSplit (Some ob) 0 0) with
        | Some w => Fin w (TVec None (tend s - tbegin s))
        | None => Und
        end
      else Und
  | Some ob, Some nb =>
      match relocate w ob (vlen v) nb (tbegin s) with
      | Fin w O =>
          match split_destroy w (TSplit (Some ob) 0 (vlen v)) with
          | Some w => Fin w (TVec (Some nb) (tend s))
          | None => Und
          end
      | Fin _ (S _) => Und
      | Exc w b2 => unwind w (TSplit (Some nb) b2 (tend s)) v
      | Und => Und
      end
  end.

(** A new buffer for [cap] elements, [l] constructed behind the place of the
    present elements, and the swap: 1025-1031 of append, 1121-1131
    push_back_slow_path, 474-476 of reserve, 486-488 of shrink_to_fit. *)
Definition rebuild (w : world) (v : tvec) (cap : Z) (l : list A) : out tvec :=
  match split_make w cap (vlen v) with
  | Exc w _ => Exc w v
  | Und => Und
  | Fin w s =>
      match split_construct w s l with
      | Exc w s => unwind w s v
      | Und => Und
      | Fin w s => swap_out w v s
      end
  end.

(** 975-1008 construct_at_end of the vector. *)
Definition at_end (w : world) (v : tvec) (l : list A) : out tvec :=
  match vbuf v with
  | None => match l with [] => Fin w v | _ => Und end
  | Some b => match construct_list w b (vlen v) l with
              | Fin w e => Fin w (TVec (Some b) e)
              | Exc w e => Exc w (TVec (Some b) e)
              | Und => Und
              end
  end.

(** 562-567 push_back; 1167-1174 construct_one_at_end. *)
Definition push_back (w : world) (v : tvec) (a : A) : out tvec :=
  if negb (vlen v =? vcap w v)%nat then at_end w v [a]
  else match recommend ms (vcap w v) (sz (Z.of_nat (vlen v) + 1)) with
       | Ok cap => rebuild w v cap [a]
       | Throw => Exc w v
       | _ => Und
       end.

(** 1021-1032 append( n, x ). *)
Definition append (w : world) (v : tvec) (n : Z) (a : A) : out tvec :=
  if n <=? Z.of_nat (vcap w v) - Z.of_nat (vlen v) then at_end w v (repeat a (Z.to_nat n))
  else match recommend ms (vcap w v) (sz (Z.of_nat (vlen v) + n)) with
       | Ok cap => rebuild w v cap (repeat a (Z.to_nat n))
       | Throw => Exc w v
       | _ => Und
       end.

(** 469-478 reserve. *)
Definition reserve (w : world) (v : tvec) (n : Z) : out tvec :=
  if Z.of_nat (vcap w v) <? n then
    if ms <? n then Exc w v else rebuild w v n []
  else Fin w v.

(** 480-494 shrink_to_fit: an exception is caught. *)
Definition shrink_to_fit (w : world) (v : tvec) : out tvec :=
  if (vlen v <? vcap w v)%nat then
    match rebuild w v (Z.of_nat (vlen v)) [] with
    | Exc w v => Fin w v
    | r => r
    end
  else Fin w v.

(** destruct_at_end( m_begin + n ). *)
Definition cut_to (w : world) (v : tvec) (n : nat) : out tvec :=
  match vbuf v with
  | None => if (vlen v =? n)%nat then Fin w v else Und
  | Some b => if (vlen v <? n)%nat then Und
              else match destroy_below w b (vlen v) (vlen v - n) with
                   | Some w => Fin w (TVec (Some b) n)
                   | None => Und
                   end
  end.

(** 818-825 resize( n, x ). *)
Definition resize (w : world) (v : tvec) (n : Z) (a : A) : out tvec :=
  if Z.of_nat (vlen v) <? n then append w v (n - Z.of_nat (vlen v)) a
  else if n <? Z.of_nat (vlen v) then cut_to w v (Z.to_nat n)
  else Fin w v.

(** 951-957 vdeallocate, and 249-254 ~vector. *)
Definition vdeallocate (w : world) (v : tvec) : option world :=
  match vbuf v with
  | None => Some w
  | Some b => match destroy_below w b (vlen v) (vlen v) with
              | Some w => deallocate w b
              | None => None
              end
  end.

(** 943-949 vallocate. *)
Definition vallocate (w : world) (n : Z) : out tvec :=
  if ms <? n then Exc w null_vec
  else match allocate w (Z.to_nat n) with
       | Fin w b => Fin w (TVec (Some b) 0)
       | Exc w _ => Exc w null_vec
       | Und => Und
       end.

(** 351-375 assign( first, last ), also 278-284 the copy assignment from another
    vector, with the elements [l] of the range. *)
Definition assign (w : world) (v : tvec) (l : list A) : out tvec :=
  let n := length l in
  if (n <=? vcap w v)%nat then
    match vbuf v with
    | None => Fin w v
    | Some b =>
        match assign_list w b 0 (firstn (vlen v) l) with
        | Exc w _ => Exc w v
        | Und => Und
        | Fin w _ =>
            if (vlen v <? n)%nat then at_end w v (skipn (vlen v) l) else cut_to w v n
        end
    end
  else
    match vdeallocate w v with
    | None => Und
    | Some w =>
        match recommend ms 0 (Z.of_nat n) with
        | Ok cap =>
            match vallocate w cap with
            | Fin w v => at_end w v l
            | Exc w v => Exc w v
            | Und => Und
            end
        | Throw => Exc w null_vec
        | _ => Und
        end
    end.

(** 161-167 vector( n, x ); 256-265 the copy constructor; 222-234 vector( first, last ):
    no destructor runs for an object whose constructor throws. *)
Definition make (w : world) (l : list A) : out tvec :=
  match l with
  | [] => Fin w null_vec
  | _ => match vallocate w (Z.of_nat (length l)) with
         | Fin w v => at_end w v l
         | r => r
         end
  end.

(** A program that calls members one after the other and catches the exceptions. *)
Inductive top :=
| TPush (a : A) | TAppend (n : Z) (a : A) | TReserve (n : Z) | TShrink | TResize (n : Z) (a : A)
| TAssign (l : list A) | TClear.

Definition tstep (w : world) (v : tvec) (o : top) : out tvec :=
  match o with
  | TPush a => push_back w v a
  | TAppend n a => append w v n a
  | TReserve n => reserve w v n
  | TShrink => shrink_to_fit w v
  | TResize n a => resize w v n a
  | TAssign l => assign w v l
  | TClear => cut_to w v 0
  end.

Fixpoint trun (w : world) (v : tvec) (os : list top) : option (world * tvec) :=
  match os with
  | [] => Some (w, v)
  | o :: os => match tstep w v o with
               | Fin w v | Exc w v => trun w v os
               | Und => None
               end
  end.
End VectorThrow.
Arguments world : clear implicits. Arguments out : clear implicits. Arguments top : clear implicits.
Arguments Fin {A X} w x. Arguments Exc {A X} w x. Arguments Und {A X}.
