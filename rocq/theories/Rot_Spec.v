(** Specification of the radiation that a volume scatters into all directions. *)
From Coq Require Import Reals List.
From Coquelicot Require Import Coquelicot.
From Verif Require Import RT_Model Sca_Model Shp_Model Shp_Spec.
Local Open Scope R_scope.

(** [v] is the integral of [f] (zenith angle, azimuth) over the directions of the whole sphere: over the cosine of the
    zenith angle (-1 to 1) and the azimuth (0 to 2 pi) *)
Definition is_sphere (f : R -> R -> R) (v : R) : Prop :=
  (forall mu, -1 < mu < 1 -> ex_RInt (f (acos mu)) 0 (2 * PI)) /\
  is_RInt (fun mu => RInt (f (acos mu)) 0 (2 * PI)) (-1) 1 v.

(** function of the cosine of the scattering angle with two derivatives, the second one continuous *)
Definition twice (g : R -> R) : Prop :=
  exists g1 g2 : R -> R, forall x, -1 <= x <= 1 -> is_derive g x (g1 x) /\ is_derive g1 x (g2 x) /\ continuous g2 x.

(** length of the direction (zenith angle, azimuth) after its components have been multiplied by the weights [a] *)
Definition stretch (a : avec) (t p : R) : R :=
  sqrt ((a0 a * cos t) ^ 2 + (a1 a * (sin t * cos p)) ^ 2 + (a2 a * (sin t * sin p)) ^ 2).

(** every weight is 1 or -1 *)
Definition signs (a : avec) : Prop := (a0 a) ^ 2 = 1 /\ (a1 a) ^ 2 = 1 /\ (a2 a) ^ 2 = 1.

(** sum of the weighting factors of the elements of a phase function *)
Definition fractions (pd : pdict) (v : vfun) : R := fold_right (fun c s => pnum pd (fst c) + s) 0 (v_elems v).
(** every element of the phase function has weights 1 or -1 *)
Definition all_signs (v : vfun) : Prop := forall w e, In (w, e) (v_elems v) -> signs (velem_a e).
