(** Model of daw::sort (introsort) of include/daw/daw_sort_n.h.
    The array is a list; iterators are positions in it.  Every dereference is
    checked ([UB] outside the list), so is decrementing past the start.  Loops
    carry a step budget; running out of it is the distinct outcome
    [OutOfFuel]. *)
From Verif Require Import Common SortNet.

Section Intro.
  Context {A : Type}.
  Variable comp : A -> A -> bool.

  (** daw_sort_n.h 516-519 (and 543-546):
      do { *j = move( *k ); j = k; } while( j != first and comp( t, *--k ) );
      returns the final [j]. *)
  Fixpoint shift_down (fuel first : nat) (t : A) (j k : nat) (l : list A)
    : res (nat * list A) :=
    match fuel with
    | O => OutOfFuel
    | S fuel =>
        x <- rd l k ;;
        l1 <- wr l j x ;;
        if k =? first then Ok (k, l1)
        else
          k' <- dec k ;;
          y <- rd l1 k' ;;
          if comp t y then shift_down fuel first t k k' l1 else Ok (k, l1)
    end.

  (** daw_sort_n.h 513-520 (and 540-547): move *i down to its place. *)
  Definition insert_at (first i j : nat) (l : list A) : res (list A) :=
    t <- rd l i ;;
    '(j', l') <- shift_down (S (length l)) first t i j l ;;
    wr l' j' t.

  (** daw_sort_n.h 538-550: the loop of insertion_sort_3. *)
  Fixpoint ins_loop (fuel first last i j : nat) (l : list A) : res (list A) :=
    match fuel with
    | O => OutOfFuel
    | S fuel =>
        if i =? last then Ok l
        else
          xi <- rd l i ;;
          xj <- rd l j ;;
          l' <- (if comp xi xj then insert_at first i j l else Ok l) ;;
          ins_loop fuel first last (S i) i l'
    end.

  (** daw_sort_n.h 530-551 *)
  Definition insertion_sort_3 (first last : nat) (l : list A) : res (list A) :=
    l' <- sort_3 comp first l ;;
    ins_loop (S (length l)) first last (first + 3) (first + 2) l'.

  (** daw_sort_n.h 511-527: the loop of insertion_sort_incomplete, [count] being
      the number of insertions done so far. *)
  Fixpoint ins_loop_lim (fuel first last i j count : nat) (l : list A)
    : res (bool * list A) :=
    match fuel with
    | O => OutOfFuel
    | S fuel =>
        if i =? last then Ok (true, l)
        else
          xi <- rd l i ;;
          xj <- rd l j ;;
          if comp xi xj then
            l' <- insert_at first i j l ;;
            if S count =? 8 then Ok (S i =? last, l')
            else ins_loop_lim fuel first last (S i) i (S count) l'
          else ins_loop_lim fuel first last (S i) i count l
    end.

  (** The two-element case, daw_sort_n.h 476-480 and 583-587. *)
  Definition sort_2 (first : nat) (l : list A) : res (list A) :=
    y <- rd l (first + 1) ;;
    x <- rd l first ;;
    if comp y x then swap_at l (first + 1) first else Ok l.

  (** The switches at 472-505 and 579-612: networks for the special lengths;
      [None] means no case label matches. *)
  Definition special (first len : nat) (l : list A) : option (res (list A)) :=
    match len with
    | 0 | 1 => Some (Ok l)
    | 2 => Some (sort_2 first l)
    | 3 => Some (sort_3 comp first l)
    | 4 => Some (sort_4 comp first l)
    | 5 => Some (sort_5 comp first l)
    | 6 => Some (sort_6 comp first l)
    | 7 => Some (sort_7 comp first l)
    | 8 => Some (sort_8 comp first l)
    | 16 => Some (sort_16 comp first l)
    | 32 => Some (sort_32 comp first l)
    | _ => None
    end.

  (** daw_sort_n.h 466-528 *)
  Definition insertion_sort_incomplete (first last : nat) (l : list A)
    : res (bool * list A) :=
    match special first (last - first) l with
    | Some r => l' <- r ;; Ok (true, l')
    | None =>
        let j := first + 2 in
        '(_, l') <- sort_3_impl comp first (first + 1) j l ;;
        ins_loop_lim (S (length l)) first last (S j) j 0 l'
    end.

  (** [while( pred( *i ) ) ++i;] starting at [i]. *)
  Fixpoint scan_up (fuel : nat) (pred : A -> bool) (i : nat) (l : list A) : res nat :=
    match fuel with
    | O => OutOfFuel
    | S fuel =>
        x <- rd l i ;;
        if pred x then scan_up fuel pred (S i) l else Ok i
    end.

  (** [while( pred( *--j ) ) {}]. *)
  Fixpoint scan_down (fuel : nat) (pred : A -> bool) (j : nat) (l : list A) : res nat :=
    match fuel with
    | O => OutOfFuel
    | S fuel =>
        j' <- dec j ;;
        x <- rd l j' ;;
        if pred x then scan_down fuel pred j' l else Ok j'
    end.

  (** Outcome of the guard search, daw_sort_n.h 634-676. *)
  Inductive guard_out :=
  | Found (j : nat) (l : list A)   (* 671-675: *j < *m was swapped to the front *)
  | AllGE (l : list A).            (* 635: no element less than the pivot *)

  Fixpoint find_guard (fuel i j m : nat) (l : list A) : res guard_out :=
    match fuel with
    | O => OutOfFuel
    | S fuel =>
        j' <- dec j ;;
        if i =? j' then Ok (AllGE l)
        else
          x <- rd l j' ;;
          p <- rd l m ;;
          if comp x p then l' <- swap_at l i j' ;; Ok (Found j' l')
          else find_guard fuel i j' m l
    end.

  (** daw_sort_n.h 639-650: [None] is the early return at 641. *)
  Fixpoint find_greater (fuel first i j : nat) (l : list A)
    : res (option (nat * list A)) :=
    match fuel with
    | O => OutOfFuel
    | S fuel =>
        if i =? j then Ok None
        else
          p <- rd l first ;;
          x <- rd l i ;;
          if comp p x then l' <- swap_at l i j ;; Ok (Some (S i, l'))
          else find_greater fuel first (S i) j l
    end.

  (** daw_sort_n.h 655-666 *)
  Fixpoint part_eq (fuel first i j : nat) (l : list A) : res (nat * list A) :=
    match fuel with
    | O => OutOfFuel
    | S fuel =>
        p <- rd l first ;;
        i' <- scan_up (S (length l)) (fun x => negb (comp p x)) i l ;;
        j' <- scan_down (S (length l)) (fun x => comp p x) j l ;;
        if j' <=? i' then Ok (i', l)
        else l' <- swap_at l i' j' ;; part_eq fuel first (S i') j' l'
    end.

  (** daw_sort_n.h 636-669, all elements being >= *first.  [inl l]: return;
      [inr (first', l)]: restart with a new first. *)
  Definition eq_branch (first last : nat) (l : list A)
    : res (list A + nat * list A) :=
    let i := S first in
    j <- dec last ;;
    p <- rd l first ;;
    x <- rd l j ;;
    r <- (if negb (comp p x) then find_greater (S (length l)) first i j l
          else Ok (Some (i, l))) ;;
    match r with
    | None => Ok (inl l)
    | Some (i, l) =>
        if i =? j then Ok (inl l)
        else '(i, l) <- part_eq (S (length l)) first i j l ;; Ok (inr (i, l))
    end.

  (** daw_sort_n.h 683-698; returns the final [i], [m] and the swap count. *)
  Fixpoint part_loop (fuel i j m cnt : nat) (l : list A)
    : res (nat * nat * nat * list A) :=
    match fuel with
    | O => OutOfFuel
    | S fuel =>
        p <- rd l m ;;
        i' <- scan_up (S (length l)) (fun x => comp x p) i l ;;
        j' <- scan_down (S (length l)) (fun x => negb (comp x p)) j l ;;
        if j' <? i' then Ok (i', m, cnt, l)
        else
          l' <- swap_at l i' j' ;;
          part_loop fuel (S i') j' (if m =? i' then j' else m) (S cnt) l'
    end.

  (** Result of one round of the outer loop before recursion. *)
  Inductive round :=
  | Done (l : list A)                      (* return *)
  | Restart (first : nat) (l : list A)     (* 667-669: first = i; continue *)
  | Split (i cnt : nat) (l : list A).      (* reached 704 *)

  (** daw_sort_n.h 617-703 *)
  Definition partition_round (first last len : nat) (l : list A) : res round :=
    let lm1 := last - 1 in
    let delta := len / 2 in
    let m := first + delta in
    '(cnt, l) <-
      (if 1000 <=? len then
         let d := delta / 2 in
         sort_5_impl comp first (first + d) m (m + d) lm1 l
       else sort_3_impl comp first m lm1 l) ;;
    x <- rd l first ;;
    p <- rd l m ;;
    g <- (if negb (comp x p) then
            o <- find_guard (S (length l)) first lm1 m l ;;
            match o with
            | Found j l => Ok (inr (j, S cnt, l))
            | AllGE l => r <- eq_branch first last l ;; Ok (inl r)
            end
          else Ok (inr (lm1, cnt, l))) ;;
    match g with
    | inl (inl l) => Ok (Done l)
    | inl (inr (f, l)) => Ok (Restart f l)
    | inr (j, cnt, l) =>
        let i := S first in
        '(i, m, cnt, l) <-
          (if i <? j then part_loop (S (length l)) i j m cnt l
           else Ok (i, m, cnt, l)) ;;
        pm <- rd l m ;;
        xi <- rd l i ;;
        if negb (i =? m) && comp pm xi
        then l' <- swap_at l i m ;; Ok (Split i (S cnt) l')
        else Ok (Split i cnt l)
    end.

  (** daw_sort_n.h 561-729.  [limit] is 30 or 6 (570-574).  One unit of fuel is
      one round of the outer loop or one recursive call. *)
  Fixpoint sort_fuel (fuel limit first last : nat) (l : list A) : res (list A) :=
    match fuel with
    | O => OutOfFuel
    | S fuel =>
        let len := last - first in
        match special first len l with
        | Some r => r
        | None =>
            if len <? limit then insertion_sort_3 first last l
            else
              r <- partition_round first last len l ;;
              match r with
              | Done l => Ok l
              | Restart f l => sort_fuel fuel limit f last l
              | Split i cnt l =>
                  let both l :=
                    if i - first <? last - i then
                      l' <- sort_fuel fuel limit first i l ;;
                      sort_fuel fuel limit (S i) last l'
                    else
                      l' <- sort_fuel fuel limit (S i) last l ;;
                      sort_fuel fuel limit first i l' in
                  if cnt =? 0 then
                    '(fs, l) <- insertion_sort_incomplete first i l ;;
                    '(ss, l) <- insertion_sort_incomplete (S i) last l ;;
                    if ss then
                      if fs then Ok l
                      else sort_fuel fuel limit first i l
                    else if fs then sort_fuel fuel limit (S i) last l
                    else both l
                  else both l
              end
        end
    end.

  (** [daw::sort( arr + first, arr + last, comp )] *)
  Definition sort (limit first last : nat) (l : list A) : res (list A) :=
    sort_fuel (S (last - first)) limit first last l.
End Intro.

Arguments Found {A}.
Arguments AllGE {A}.
Arguments Done {A}.
Arguments Restart {A}.
Arguments Split {A}.
