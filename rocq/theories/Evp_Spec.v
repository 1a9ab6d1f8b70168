(** Specification: values of Legendre expansions *)
From Coq Require Import Reals List ZArith Bool.
From Verif Require Import Base Sca_Model Sca_Spec Evp_Model.
Import ListNotations.
Local Open Scope R_scope.

(** a geometry that the functions accept *)
Definition accepted (g : geom) : Prop :=
  match g with Mono => True | Chars l => (4 <= List.length l)%nat /\ forall k c, (k < 4)%nat -> nth_error l k = Some c -> c <> GOther end.
(** the coefficients represent the function of the scattering-angle cosine *)
Definition represents (coefs : nat -> R) (ncoefs : nat) (f : R -> R) : Prop := forall x, fold_right Rplus 0 (map (fun n => coefs n * leg n x) (seq 0 ncoefs)) = f x.
(** value of a scattering function between two directions (zenith and azimuth angle) *)
Definition between_dirs (f : R -> R) (a : avec) (t p t' p' : R) : R := f (wdot a (dir t p) (dir t' p')).
