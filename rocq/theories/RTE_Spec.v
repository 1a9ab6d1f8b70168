(** Specification: first-order solution of the radiative transfer equation for a layer over a surface
    (doc/theory.rst, "Problem Geometry and Boundary Conditions", "First-order solution to the RTE").

    [t] in [0, tau] is the optical depth below the top of the layer.  A direction is given by the angle with the
    vertical and the azimuth; integrals over a hemisphere are over the cosine (0 to 1) and the azimuth (0 to 2 pi). *)
From Coq Require Import Reals.
From Coquelicot Require Import Coquelicot.
From Verif Require Import Int_Spec.
Local Open Scope R_scope.

(** continuous in the layer, up to its boundaries *)
Definition in_layer (tau t : R) : Prop := 0 <= t <= tau.

(** upwelling intensity [U] in a direction with cosine [mu] and source [J]:  mu dU/dt = U - J *)
Definition upwelling (tau mu : R) (J U : R -> R) : Prop :=
  continuous_on (in_layer tau) U /\ forall t, 0 < t < tau -> is_derive U t ((U t - J t) / mu).
(** downwelling intensity [D]:  mu dD/dt = J - D *)
Definition downwelling (tau mu : R) (J D : R -> R) : Prop :=
  continuous_on (in_layer tau) D /\ forall t, 0 < t < tau -> is_derive D t ((J t - D t) / mu).

Section Layer.
(** phase function for scattering from a downward to an upward, a downward to a downward and an upward to an upward
    direction (angle and azimuth before, angle and azimuth after scattering), BRDF of the surface *)
Variables p_du p_dd p_uu f : R -> R -> R -> R -> R.
(** incident intensity, single scattering albedo, optical depth, incidence and exit directions *)
Variables I0 omega tau t_0 p_0 t_ex p_ex : R.

(** direct beam at depth [t] *)
Definition beam (t : R) : R := I0 * exp (- t / cos t_0).

(** radiation without scattering in the layer: the part of the beam that the surface reflects *)
Definition zeroth_order (U0 : R -> R -> R -> R) : Prop :=
  forall th ph, 0 < cos th ->
    upwelling tau (cos th) (fun _ => 0) (U0 th ph) /\ U0 th ph tau = cos t_0 * beam tau * f t_0 p_0 th ph.

(** downwelling radiation that is scattered once in the layer (from the beam) *)
Definition first_down (D1 : R -> R -> R -> R) : Prop :=
  forall th ph, 0 < cos th ->
    downwelling tau (cos th) (fun t => omega * (beam t * p_dd t_0 p_0 th ph)) (D1 th ph) /\ D1 th ph 0 = 0.

(** upwelling radiation in direction of the sensor that is scattered once in the layer: sources are the beam and the
    radiation that the surface reflects; at the bottom, the surface reflects the downwelling radiation *)
Definition first_up (U0 D1 : R -> R -> R -> R) (U1 : R -> R) : Prop :=
  exists J,
    (forall t, 0 < t < tau -> exists S, J t = omega * (beam t * p_du t_0 p_0 t_ex p_ex + S) /\
       is_RInt (fun mu => RInt (fun ph => U0 (acos mu) ph t * p_uu (acos mu) ph t_ex p_ex) 0 (2 * PI)) 0 1 S) /\
    upwelling tau (cos t_ex) J U1 /\
    is_RInt (fun mu => RInt (fun ph => mu * D1 (acos mu) ph tau * f (acos mu) ph t_ex p_ex) 0 (2 * PI)) 0 1 (U1 tau).

(** [v]: intensity at the top of the layer in direction of the sensor, to first order in [omega] (second-order
    reflections by the surface neglected, as documented) *)
Definition first_order_intensity (v : R) : Prop :=
  exists U0 D1 U1, zeroth_order U0 /\ first_down D1 /\ first_up U0 D1 U1 /\ v = U0 t_ex p_ex 0 + U1 0.

(** the products that occur in the interaction term depend continuously on the direction of the radiation between
    the two scattering events *)
Definition regular (p g : R -> R -> R) : Prop :=
  (forall mu, 0 < mu < 1 -> ex_RInt (fun ph => p (acos mu) ph * g (acos mu) ph) 0 (2 * PI)) /\
  continuous_on (fun mu => 0 <= mu <= 1) (fun mu => azimuth_product p g (acos mu)).
End Layer.
