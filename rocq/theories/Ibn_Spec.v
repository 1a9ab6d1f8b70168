(** What intermediate_residuals is expected to show. *)
From Coq Require Import ZArith QArith Qabs Bool Arith List.
From Verif Require Import Base Ibn_Model.
Import ListNotations.
Local Open Scope list_scope.

(** the value limited to a range *)
Definition clamp (lo hi v : Z) : Z := Z.max lo (Z.min hi v).
(** a bound counted from the end if negative *)
Definition from_end (n v : Z) : Z := if (v <? 0)%Z then (v + n)%Z else v.
(** start and stop of a slice of a list with n elements, for positive and negative steps *)
Definition start_of (n step : Z) (b : option Z) : Z :=
  match b with
  | None => if (0 <? step)%Z then 0%Z else (n - 1)%Z
  | Some v => if (0 <? step)%Z then clamp 0 n (from_end n v) else clamp (-1) (n - 1) (from_end n v)
  end.
(** see [start_of] *)
Definition stop_of (n step : Z) (b : option Z) : Z :=
  match b with
  | None => if (0 <? step)%Z then n else (-1)%Z
  | Some v => if (0 <? step)%Z then clamp 0 n (from_end n v) else clamp (-1) (n - 1) (from_end n v)
  end.
(** the step of a slice *)
Definition step_of (s : pslice) : Z := match s_step s with Some z => z | None => 1%Z end.
(** the position p is the k-th one of the slice *)
Definition kth (n : Z) (s : pslice) (k : nat) (p : Z) : Prop :=
  p = (start_of n (step_of s) (s_start s) + Z.of_nat k * step_of s)%Z /\
  if (0 <? step_of s)%Z then (p < stop_of n (step_of s) (s_stop s))%Z else (stop_of n (step_of s) (s_stop s) < p)%Z.

(** the residuals with the key i *)
Fixpoint members (keys : list (option nat)) (errs : list Q) (i : nat) : list Q :=
  match keys, errs with
  | Some k :: ks, e :: es => if Nat.eqb k i then e :: members ks es i else members ks es i
  | None :: ks, _ :: es => members ks es i
  | _, _ => []
  end.
(** the sum *)
Fixpoint sum (l : list Q) : Q := match l with [] => 0 | x :: r => x + sum r end.
(** the absolute value of the mean *)
Definition abs_mean (l : list Q) : Q := Qabs (sum l / qn (List.length l)).
(** a row of the plot shows the residuals of an iteration: one value for each column, masked if it has no residuals *)
Definition shows (keys : list (option nat)) (n : nat) (errs : list Q) (row : list (option Q)) : Prop :=
  List.length row = n /\
  forall i, (i < n)%nat -> match nth i row None with Some q => members keys errs i <> [] /\ q == abs_mean (members keys errs i) | None => members keys errs i = [] end.

(** the edges are in ascending order *)
Definition increasing (l : list Q) : Prop := forall i, (S i < List.length l)%nat -> nth i l 0 < nth (S i) l 0.
(** the value is in bin i, which includes its upper edge (the first one both edges) *)
Definition in_bin (edges : list Q) (i : nat) (v : Q) : Prop :=
  (S i < List.length edges)%nat /\ ((nth i edges 0 < v /\ v <= nth (S i) edges 0) \/ (i = 0%nat /\ v == nth 0 edges 0)).
(** the keys of the observations: the number of the bin of the value, if any *)
Definition binned (edges : list Q) (v : option Q) (k : option nat) : Prop :=
  match k with
  | Some i => exists x, v = Some x /\ in_bin edges i x
  | None => forall x i, v = Some x -> ~ in_bin edges i x
  end.
(** column i has values, its neighbours (if any) have none *)
Definition lone (z : list (list (option Q))) (n i : nat) : Prop :=
  let has j := exists row q, In row z /\ nth j row None = Some q in
  (i < n)%nat /\ has i /\ ((i > 0)%nat -> ~ has (i - 1)%nat) /\ ((S i < n)%nat -> ~ has (S i)).
(** all bins have the same width *)
Definition even_bins (b : list Q) (n : nat) : Prop := forall i, (i < n)%nat -> nth (S i) b 0 - nth i b 0 == nth 1 b 0 - nth 0 b 0.
(** the numbers of the columns of the residuals *)
Definition grouped_by (g : grouping) (keys : list (option nat)) (n : nat) : Prop :=
  match g with
  | GStr k m => keys = map Some k /\ n = m
  | GTuple (Some vals) edges _ => Forall2 (binned edges) vals keys /\ n = (List.length edges - 1)%nat
  | _ => False
  end.
(** bins given by at least two edges in ascending order *)
Definition proper (g : grouping) : Prop :=
  match g with GTuple _ edges breaks => increasing edges /\ increasing breaks /\ List.length breaks = List.length edges /\ (1 < List.length edges)%nat | _ => True end.
(** an observation is in bin i *)
Definition occupied (vals : list (option Q)) (edges : list Q) (i : nat) : Prop := exists x, In (Some x) vals /\ in_bin edges i x.
(** the default slice(2, None) *)
Definition default_slice : pslice := mkslice (Some 2%Z) None None.
