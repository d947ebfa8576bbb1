(** Specifications used for the range algorithms, independent of the model. *)
From Verif Require Import Common.

(** [p] is the first position whose element satisfies [P], or the end. *)
Definition is_first {A} (P : A -> bool) (l : list A) (p : nat) : Prop :=
  p <= length l /\
  (forall k x, k < p -> nth_error l k = Some x -> P x = false) /\
  (forall x, nth_error l p = Some x -> P x = true).

(** All elements satisfying [P] come before all others. *)
Definition partitioned {A} (P : A -> bool) (l : list A) : Prop :=
  forall i j x y, i < j -> nth_error l i = Some x -> nth_error l j = Some y ->
    P y = true -> P x = true.

(** [pat] occurs in [text] at position [p], elements matched by [eq]. *)
Definition occurs_at {A B} (eq : A -> B -> bool) (text : list A) (pat : list B) (p : nat) : Prop :=
  p + length pat <= length text /\
  forall k x y, nth_error text (p + k) = Some x -> nth_error pat k = Some y -> eq x y = true.

(** Equivalence induced by a comparator. *)
Definition equivalent {A} (comp : A -> A -> bool) (x y : A) : Prop :=
  comp x y = false /\ comp y x = false.

(** [x] restricted to [lo, hi]. *)
Definition clampZ (lo hi x : Z) : Z := Z.max lo (Z.min hi x).

(** Same length and corresponding elements related. *)
Definition pointwise {A B} (R : A -> B -> bool) (l1 : list A) (l2 : list B) : Prop :=
  length l1 = length l2 /\
  forall k x y, nth_error l1 k = Some x -> nth_error l2 k = Some y -> R x y = true.

(** Dictionary order: at the first position where the ranges are not
    equivalent the first one is smaller, or it is a proper prefix. *)
Definition precedes {A} (comp : A -> A -> bool) (l1 l2 : list A) : Prop :=
  exists n,
    (forall k x y, k < n -> nth_error l1 k = Some x -> nth_error l2 k = Some y ->
       equivalent comp x y) /\
    ((n = length l1 /\ n < length l2) \/
     (exists x y, nth_error l1 n = Some x /\ nth_error l2 n = Some y /\ comp x y = true)).

(** The first among the smallest / the first and last among the largest. *)
Definition first_smallest {A} (comp : A -> A -> bool) (l : list A) (p : nat) : Prop :=
  exists m, nth_error l p = Some m /\
  (forall k x, nth_error l k = Some x -> comp x m = false) /\
  (forall k x, k < p -> nth_error l k = Some x -> comp m x = true).
Definition first_largest {A} (comp : A -> A -> bool) (l : list A) (p : nat) : Prop :=
  exists m, nth_error l p = Some m /\
  (forall k x, nth_error l k = Some x -> comp m x = false) /\
  (forall k x, k < p -> nth_error l k = Some x -> comp x m = true).
Definition last_largest {A} (comp : A -> A -> bool) (l : list A) (p : nat) : Prop :=
  exists m, nth_error l p = Some m /\
  (forall k x, nth_error l k = Some x -> comp m x = false) /\
  (forall k x, p < k -> nth_error l k = Some x -> comp x m = true).

(** [F], started at any position of any array with enough room, writes exactly
    [r] there, touches nothing else, and returns the end of what it wrote. *)
Definition emits {B} (F : nat -> list B -> res (nat * list B)) (r : list B) : Prop :=
  forall pre old post, length old = length r ->
    F (length pre) (pre ++ old ++ post) = Ok (length pre + length r, pre ++ r ++ post).

(** [r] is [l] with some elements left out. *)
Inductive subseq {A} : list A -> list A -> Prop :=
| subseq_nil : subseq [] []
| subseq_skip x r l : subseq r l -> subseq r (x :: l)
| subseq_take x r l : subseq r l -> subseq (x :: r) (x :: l).

(** How many elements are equivalent to [v]. *)
Definition count_equiv {A} (comp : A -> A -> bool) (v : A) (l : list A) : nat :=
  length (filter (fun x => negb (comp x v) && negb (comp v x)) l).

(** Consecutive half-open pieces from [a] to [b]. *)
Fixpoint tiles (a b : nat) (pieces : list (nat * nat)) : Prop :=
  match pieces with
  | [] => a = b
  | (x, y) :: t => x = a /\ x <= y /\ tiles y b t
  end.

(** Pieces joined with a delimiter between them. *)
Fixpoint join {A} (d : A) (pieces : list (list A)) : list A :=
  match pieces with
  | [] => []
  | [p] => p
  | p :: t => p ++ d :: join d t
  end.
