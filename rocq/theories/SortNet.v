(** Model of the fixed size sorting networks of include/daw/daw_sort_n.h. *)
From Verif Require Import Common.

Section Net.
  Context {A : Type}.
  Variable comp : A -> A -> bool.

  (** daw_sort_n.h 37-46, sort_n_details::swap_if: the two elements are swapped
      when [not comp( *f, *l )] (so also when they are equivalent). *)
  Definition swap_if (i j : nat) (l : list A) : res (list A) :=
    x <- rd l i ;;
    y <- rd l j ;;
    if negb (comp x y) then swap_at l i j else Ok l.

  (** daw_sort_n.h 47-55, sort_n_details::swap_if2: swaps when
      [comp( *rhs, *lhs )]; returns the number of swaps done. *)
  Definition swap_if2 (lhs rhs : nat) (l : list A) : res (nat * list A) :=
    y <- rd l rhs ;;
    x <- rd l lhs ;;
    if comp y x then l' <- swap_at l rhs lhs ;; Ok (1, l') else Ok (0, l).

  (** A straight-line sequence of [swap_if<i,j>( first, comp )] calls. *)
  Fixpoint run_net (first : nat) (net : list (nat * nat)) (l : list A)
    : res (list A) :=
    match net with
    | [] => Ok l
    | (i, j) :: rest => l' <- swap_if (first + i) (first + j) l ;; run_net first rest l'
    end.

  (** A straight-line sequence of [result += swap_if2( it_i, it_j, comp )]
      calls, [its] being the argument list it0, it1, ... *)
  Fixpoint run_net2 (its : nat -> nat) (net : list (nat * nat)) (l : list A)
    : res (nat * list A) :=
    match net with
    | [] => Ok (0, l)
    | (i, j) :: rest =>
        '(c, l') <- swap_if2 (its i) (its j) l ;;
        '(c', l'') <- run_net2 its rest l' ;;
        Ok (c + c', l'')
    end.
End Net.

(* sort_32: daw_sort_n.h lines 61-271 *)
Definition net_32 : list (nat*nat) :=
  [(0,1); (2,3); (0,2); (1,3); (1,2); (4,5); (6,7); (4,6);
   (5,7); (5,6); (0,4); (1,5); (1,4); (2,6); (3,7); (3,6);
   (2,4); (3,5); (3,4); (8,9); (10,11); (8,10); (9,11); (9,10);
   (12,13); (14,15); (12,14); (13,15); (13,14); (8,12); (9,13); (9,12);
   (10,14); (11,15); (11,14); (10,12); (11,13); (11,12); (0,8); (1,9);
   (1,8); (2,10); (3,11); (3,10); (2,8); (3,9); (3,8); (4,12);
   (5,13); (5,12); (6,14); (7,15); (7,14); (6,12); (7,13); (7,12);
   (4,8); (5,9); (5,8); (6,10); (7,11); (7,10); (6,8); (7,9);
   (7,8); (16,17); (18,19); (16,18); (17,19); (17,18); (20,21); (22,23);
   (20,22); (21,23); (21,22); (16,20); (17,21); (17,20); (18,22); (19,23);
   (19,22); (18,20); (19,21); (19,20); (24,25); (26,27); (24,26); (25,27);
   (25,26); (28,29); (30,31); (28,30); (29,31); (29,30); (24,28); (25,29);
   (25,28); (26,30); (27,31); (27,30); (26,28); (27,29); (27,28); (16,24);
   (17,25); (17,24); (18,26); (19,27); (19,26); (18,24); (19,25); (19,24);
   (20,28); (21,29); (21,28); (22,30); (23,31); (23,30); (22,28); (23,29);
   (23,28); (20,24); (21,25); (21,24); (22,26); (23,27); (23,26); (22,24);
   (23,25); (23,24); (0,16); (1,17); (1,16); (2,18); (3,19); (3,18);
   (2,16); (3,17); (3,16); (4,20); (5,21); (5,20); (6,22); (7,23);
   (7,22); (6,20); (7,21); (7,20); (4,16); (5,17); (5,16); (6,18);
   (7,19); (7,18); (6,16); (7,17); (7,16); (8,24); (9,25); (9,24);
   (10,26); (11,27); (11,26); (10,24); (11,25); (11,24); (12,28); (13,29);
   (13,28); (14,30); (15,31); (15,30); (14,28); (15,29); (15,28); (12,24);
   (13,25); (13,24); (14,26); (15,27); (15,26); (14,24); (15,25); (15,24);
   (8,16); (9,17); (9,16); (10,18); (11,19); (11,18); (10,16); (11,17);
   (11,16); (12,20); (13,21); (13,20); (14,22); (15,23); (15,22); (14,20);
   (15,21); (15,20); (12,16); (13,17); (13,16); (14,18); (15,19); (15,18);
   (14,16); (15,17); (15,16)].

(* sort_16: daw_sort_n.h lines 277-336 *)
Definition net_16 : list (nat*nat) :=
  [(0,1); (2,3); (4,5); (6,7); (8,9); (10,11); (12,13); (14,15);
   (0,2); (4,6); (8,10); (12,14); (1,3); (5,7); (9,11); (13,15);
   (0,4); (8,12); (1,5); (9,13); (2,6); (10,14); (3,7); (11,15);
   (0,8); (1,9); (2,10); (3,11); (4,12); (5,13); (6,14); (7,15);
   (5,10); (6,9); (3,12); (13,14); (7,11); (1,2); (4,8); (1,4);
   (7,13); (2,8); (11,14); (2,4); (5,6); (9,10); (11,13); (3,8);
   (7,12); (6,8); (10,12); (3,5); (7,9); (3,4); (5,6); (7,8);
   (9,10); (11,12); (6,7); (8,9)].

(* sort_3: daw_sort_n.h lines 341-343 *)
Definition net_3 : list (nat*nat) :=
  [(1,2); (0,2); (0,1)].

(* sort_4: daw_sort_n.h lines 349-353 *)
Definition net_4 : list (nat*nat) :=
  [(0,1); (2,3); (0,2); (1,3); (1,2)].

(* sort_5: daw_sort_n.h lines 359-367 *)
Definition net_5 : list (nat*nat) :=
  [(0,1); (3,4); (2,4); (2,3); (0,3); (0,2); (1,4); (1,3);
   (1,2)].

(* sort_6: daw_sort_n.h lines 372-383 *)
Definition net_6 : list (nat*nat) :=
  [(1,2); (0,2); (0,1); (4,5); (3,5); (3,4); (0,3); (1,4);
   (2,5); (2,4); (1,3); (2,3)].

(* sort_7: daw_sort_n.h lines 389-404 *)
Definition net_7 : list (nat*nat) :=
  [(1,2); (0,2); (0,1); (3,4); (5,6); (3,5); (4,6); (4,5);
   (0,4); (0,3); (1,5); (2,6); (2,5); (1,3); (2,4); (2,3)].

(* sort_8: daw_sort_n.h lines 410-428 *)
Definition net_8 : list (nat*nat) :=
  [(0,1); (2,3); (0,2); (1,3); (1,2); (4,5); (6,7); (4,6);
   (5,7); (5,6); (0,4); (1,5); (1,4); (2,6); (3,7); (3,6);
   (2,4); (3,5); (3,4)].

(** sort_3_impl, daw_sort_n.h 440-448. *)
Definition net_3_impl : list (nat*nat) := [(1,2); (0,2); (0,1)].

(** sort_5_impl, daw_sort_n.h 450-464. *)
Definition net_5_impl : list (nat*nat) :=
  [(0,1); (3,4); (2,4); (2,3); (0,3); (0,2); (1,4); (1,3); (1,2)].

Section Sorts.
  Context {A : Type}.
  Variable comp : A -> A -> bool.

  (** daw_sort_n.h 338-344 *)
  Definition sort_3 (first : nat) (l : list A) := run_net comp first net_3 l.
  (** daw_sort_n.h 346-354 *)
  Definition sort_4 (first : nat) (l : list A) := run_net comp first net_4 l.
  (** daw_sort_n.h 356-368 *)
  Definition sort_5 (first : nat) (l : list A) := run_net comp first net_5 l.
  (** daw_sort_n.h 369-384 *)
  Definition sort_6 (first : nat) (l : list A) := run_net comp first net_6 l.
  (** daw_sort_n.h 386-405 *)
  Definition sort_7 (first : nat) (l : list A) := run_net comp first net_7 l.
  (** daw_sort_n.h 407-429 *)
  Definition sort_8 (first : nat) (l : list A) := run_net comp first net_8 l.
  (** daw_sort_n.h 274-337 *)
  Definition sort_16 (first : nat) (l : list A) := run_net comp first net_16 l.
  (** daw_sort_n.h 58-272 *)
  Definition sort_32 (first : nat) (l : list A) := run_net comp first net_32 l.

  (** daw_sort_n.h 439-448 *)
  Definition sort_3_impl (it0 it1 it2 : nat) (l : list A) :=
    run_net2 comp (fun i => nth i [it0; it1; it2] 0) net_3_impl l.
  (** daw_sort_n.h 449-464 *)
  Definition sort_5_impl (it0 it1 it2 it3 it4 : nat) (l : list A) :=
    run_net2 comp (fun i => nth i [it0; it1; it2; it3; it4] 0) net_5_impl l.
End Sorts.
