(** Specification vocabulary for the fits: grouping, assignment of values,
    jacobian.  Independent of the model. *)
From Coq Require Import List ZArith Bool Sorted.
Import ListNotations.

(** rows [i] and [j] agree in every column *)
Definition agree (cols : list (list Z)) (i j : nat) : Prop :=
  forall c, In c cols -> nth i c 0%Z = nth j c 0%Z.
(** every entry is a nonnegative number of at most [w] decimal digits *)
Definition fits_width (w : nat) (l : list Z) : Prop :=
  (1 <= w)%nat /\ forall x, In x l -> (0 <= x < 10 ^ Z.of_nat w)%Z.
(** sum of a list *)
Definition total (l : list nat) : nat := fold_right Nat.add 0 l.

(** the distinct elements in the order of their first occurrence *)
Fixpoint uniq (l : list Z) : list Z :=
  match l with
  | [] => []
  | x :: r => x :: filter (fun y => negb (Z.eqb y x)) (uniq r)
  end.
(** number of an element in a list *)
Fixpoint number (x : Z) (l : list Z) : nat :=
  match l with
  | [] => O
  | y :: r => if Z.eqb x y then O else S (number x r)
  end.
(** the number of the group of [x] (groups numbered by first occurrence) *)
Definition rank (l : list Z) (x : Z) : nat := number x (uniq l).

(** non-decreasing list *)
Definition sorted (l : list Z) : Prop := StronglySorted Z.le l.
(** the distinct dates of the observations that carry the group number [k] *)
Definition dates_of (index dyn : list Z) (k : Z) : list Z :=
  uniq (map fst (filter (fun p => Z.eqb (snd p) k) (combine index dyn))).

(** equal elements are adjacent *)
Definition contiguous (l : list Z) : Prop :=
  forall i j k, (i < j < k)%nat -> (k < length l)%nat -> nth i l 0%Z = nth k l 0%Z -> nth j l 0%Z = nth i l 0%Z.

(** the observations in the order in which the fit processes them: one
    combined group after the other *)
Definition processing_order (gi : list Z) : list nat :=
  concat (map (fun g => filter (fun i => Z.eqb (nth i gi 0%Z) g) (seq 0 (length gi))) (uniq gi)).

(** the combined groups refine the groups of a parameter *)
Definition refines (gi dyn : list Z) : Prop :=
  length gi = length dyn /\ forall i j, (i < length gi)%nat -> (j < length gi)%nat -> nth i gi 0%Z = nth j gi 0%Z -> nth i dyn 0%Z = nth j dyn 0%Z.
(** the parameter's group number of each combined group (that of its first
    observation), combined groups in the order of their first occurrence *)
Definition group_values (gi dyn : list Z) : list Z := map (fun g => nth (number g gi) dyn 0%Z) (uniq gi).
