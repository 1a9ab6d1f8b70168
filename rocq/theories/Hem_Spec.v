(** Specification of the hemispherical reflectance (independent of the model). *)
From Coq Require Import Reals List.
From Coquelicot Require Import Coquelicot.
Import ListNotations.
Local Open Scope R_scope.

(** continuous in the direction of the scattered radiation *)
Definition continuous_brdf (brdf : R -> R -> R -> R -> R) : Prop :=
  forall t_0 p_0 ts ps, continuity_2d_pt (fun ts ps => brdf t_0 ts p_0 ps) ts ps.

(** part of the radiation incident from (t_0, p_0) that leaves into the upper hemisphere *)
Definition reflectance (brdf : R -> R -> R -> R -> R) (NormBRDF t_0 p_0 : R) : R :=
  NormBRDF * RInt (fun ts => RInt (fun ps => brdf t_0 ts p_0 ps * (cos ts * sin ts)) 0 (2 * PI)) 0 (PI / 2).

(** an angle in degrees on the grid lo, lo + step, ... below hi *)
Definition on_grid (lo hi step t : R) : Prop := exists k : nat, t = lo + INR k * step /\ t < hi.
