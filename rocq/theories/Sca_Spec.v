(** Specification vocabulary for the scattering functions, independent of the model's helpers. *)
From Coq Require Import Reals List.
From Coquelicot Require Import Coquelicot.
From Verif Require Import Sca_Model.
Import ListNotations.
Local Open Scope R_scope.

(** unit direction vector with zenith angle t and azimuth p *)
Definition dir (t p : R) : R * R * R := (cos t, sin t * cos p, sin t * sin p).
Definition wdot (a : avec) (u v : R * R * R) : R :=
  let '(u0, u1, u2) := u in let '(v0, v1, v2) := v in
  a0 a * (u0 * v0) + a1 a * (u1 * v1) + a2 a * (u2 * v2).

Definition unit_weights (a : avec) : Prop := Rabs (a0 a) <= 1 /\ Rabs (a1 a) <= 1 /\ Rabs (a2 a) <= 1.

(** n-th coefficient of the Legendre expansion of f on [-1,1] *)
Definition leg_projection (f : R -> R) (n : nat) : R :=
  (2 * INR n + 1) / 2 * RInt (fun x => f x * leg n x) (-1) 1.

(** integral over all directions, weighted w(theta) *)
Definition sphere (f : R -> R -> R) (t_max : R) : R :=
  RInt (fun phi => RInt (fun th => f th phi * sin th) 0 t_max) 0 (2 * PI).

(** weighted sum over the choices of a linear combination *)
Fixpoint wsum (v : choice -> R) (cs : list choice) : R :=
  match cs with [] => 0 | c :: r => ch_frac c * v c + wsum v r end.
(** m is the largest ncoefs among the choices with weights a *)
Definition largest_ncoefs (cs : list choice) (a : avec) (m : nat) : Prop :=
  (exists c, In c cs /\ ch_a c = a /\ ch_ncoefs c = m) /\
  (forall c, In c cs -> ch_a c = a -> (ch_ncoefs c <= m)%nat).

(** the attributes an object has after a history: the last assigned ones *)
Fixpoint last_t (t : R) (ops : list hgop) : R :=
  match ops with [] => t | HSetT t' :: r => last_t t' r | _ :: r => last_t t r end.
Fixpoint last_a (a : avec) (ops : list hgop) : avec :=
  match ops with [] => a | HSetA a' :: r => last_a a' r | _ :: r => last_a a r end.
Definition is_set (op : hgop) : bool :=
  match op with HSetT _ | HSetA _ => true | _ => false end.
