(** C01: the fixed-size sorting networks of daw_sort_n.h. *)
From Verif Require Import Common CommonProofs SpecSort SortNet SortNetProofs.

Theorem C01_sort_3 : forall A (comp : A -> A -> bool), strict_weak comp ->
  sorts_window comp 3 (sort_3 comp).
Proof. exact (fun A comp SW pre mid post => run_net_sorts comp SW 3 net_3 pre mid post netcheck_3). Qed.
Print Assumptions C01_sort_3.

Theorem C01_sort_4 : forall A (comp : A -> A -> bool), strict_weak comp ->
  sorts_window comp 4 (sort_4 comp).
Proof. exact (fun A comp SW pre mid post => run_net_sorts comp SW 4 net_4 pre mid post netcheck_4). Qed.
Print Assumptions C01_sort_4.

Theorem C01_sort_5 : forall A (comp : A -> A -> bool), strict_weak comp ->
  sorts_window comp 5 (sort_5 comp).
Proof. exact (fun A comp SW pre mid post => run_net_sorts comp SW 5 net_5 pre mid post netcheck_5). Qed.
Print Assumptions C01_sort_5.

Theorem C01_sort_6 : forall A (comp : A -> A -> bool), strict_weak comp ->
  sorts_window comp 6 (sort_6 comp).
Proof. exact (fun A comp SW pre mid post => run_net_sorts comp SW 6 net_6 pre mid post netcheck_6). Qed.
Print Assumptions C01_sort_6.

Theorem C01_sort_7 : forall A (comp : A -> A -> bool), strict_weak comp ->
  sorts_window comp 7 (sort_7 comp).
Proof. exact (fun A comp SW pre mid post => run_net_sorts comp SW 7 net_7 pre mid post netcheck_7). Qed.
Print Assumptions C01_sort_7.

Theorem C01_sort_8 : forall A (comp : A -> A -> bool), strict_weak comp ->
  sorts_window comp 8 (sort_8 comp).
Proof. exact (fun A comp SW pre mid post => run_net_sorts comp SW 8 net_8 pre mid post netcheck_8). Qed.
Print Assumptions C01_sort_8.

Theorem C01_sort_16 : forall A (comp : A -> A -> bool), strict_weak comp ->
  sorts_window comp 16 (sort_16 comp).
Proof. exact (fun A comp SW pre mid post => run_net_sorts comp SW 16 net_16 pre mid post netcheck_16). Qed.
Print Assumptions C01_sort_16.

Theorem C01_sort_32 : forall A (comp : A -> A -> bool), strict_weak comp ->
  sorts_window comp 32 (sort_32 comp).
Proof. exact (fun A comp SW pre mid post => run_net_sorts comp SW 32 net_32 pre mid post netcheck_32). Qed.
Print Assumptions C01_sort_32.

(** Non-vacuity: [<] on numbers is such a comparator, and so is one that has
    equivalent but different elements (compare by tens). *)
Example nat_lt_strict_weak : strict_weak Nat.ltb.
Proof.
  split.
  - intros x. apply Nat.ltb_irrefl.
  - intros x y z H1 H2. apply Nat.ltb_lt in H1, H2. apply Nat.ltb_lt. lia.
  - intros x y z H1 H2 H3 H4. apply Nat.ltb_ge in H1, H2, H3, H4.
    split; apply Nat.ltb_ge; lia.
Qed.

Example by_tens_strict_weak : strict_weak (fun x y => Nat.ltb (x / 10) (y / 10)).
Proof.
  split.
  - intros x. apply Nat.ltb_irrefl.
  - intros x y z H1 H2. apply Nat.ltb_lt in H1, H2. apply Nat.ltb_lt. lia.
  - intros x y z H1 H2 H3 H4. apply Nat.ltb_ge in H1, H2, H3, H4.
    split; apply Nat.ltb_ge; lia.
Qed.

Example sort_16_runs :
  sort_16 Nat.ltb 1 [99; 5;3;9;1;7;7;2;8;15;14;0;11;3;6;12;4; 98] =
  Ok [99; 0;1;2;3;3;4;5;6;7;7;8;9;11;12;14;15; 98].
Proof. vm_compute. reflexivity. Qed.

(** Too short an array is not silently accepted by the model. *)
Example sort_4_short : sort_4 Nat.ltb 0 [3;2;1] = UB.
Proof. vm_compute. reflexivity. Qed.
