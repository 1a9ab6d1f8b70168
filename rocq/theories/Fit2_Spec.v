(** Specification vocabulary for the derivative of the residuals (C94) *)
From Coq Require Import ZArith Reals Bool Arith List.
From Verif Require Import Fit_Spec.
Import ListNotations.
Local Open Scope list_scope.
Local Open Scope R_scope.

(** [f] with the value at [p] replaced *)
Definition upd1 (f : nat -> R) (p : nat) (v : R) : nat -> R := fun q => if Nat.eqb q p then v else f q.
(** the fit vector with the value of group [g] of parameter [p] replaced *)
Definition upd2 (x : nat -> nat -> R) (p g : nat) (v : R) : nat -> nat -> R :=
  fun q h => if Nat.eqb q p && Nat.eqb h g then v else x q h.
(** the parameter values of observation [i] *)
Definition theta (dyns : list (list Z)) (x : nat -> nat -> R) (i : nat) : nat -> R :=
  fun p => x p (rank (nth p dyns []) (nth i (nth p dyns []) 0%Z)).
