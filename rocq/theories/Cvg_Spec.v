(** Specification of the truncation error of the interaction term: what the number of Legendre
    coefficients (the argument [ncoefs] of the scattering functions) means for the result. *)
From Coq Require Import Reals List.
From Coquelicot Require Import Coquelicot.
From Verif Require Import Base RT_Model Sca_Model Sca_Spec Int_Model Int_Spec Shp_Model Shp_Spec.
Import ListNotations.
Local Open Scope R_scope.

(** functions of two directions: phase functions p(theta_0, phi_0, theta_s, phi_s) and BRDFs
    f(theta_s, phi_s, theta_ex, phi_ex) *)
Definition angular := R -> R -> R -> R -> R.

(** [g] is nowhere further than [e] from [h] *)
Definition within (e : R) (g h : angular) : Prop :=
  forall t1 p1 t2 p2, Rabs (g t1 p1 t2 p2 - h t1 p1 t2 p2) <= e.
(** [g] is nowhere larger than [b] *)
Definition bounded_by (b : R) (g : angular) : Prop :=
  forall t1 p1 t2 p2, Rabs (g t1 p1 t2 p2) <= b.
(** the product of phase function and BRDF can be integrated over the azimuth *)
Definition azimuth_integrable (p f : angular) : Prop :=
  forall t1 p1 t2 p2 ts, ex_RInt (fun ps => p t1 p1 ts ps * f ts ps t2 p2) 0 (2 * PI).

(** the phase function / BRDF given by a function of the (generalised) scattering angle *)
Definition phase (h : R -> R) (a : avec) : angular :=
  fun t_0 p_0 t_s p_s => h (scat_angle t_0 (PI - t_s) p_0 p_s a).
Definition brdf (h : R -> R) (a : avec) : angular :=
  fun t_s p_s t_ex p_ex => h (scat_angle t_s t_ex p_s p_ex a).

(** sum of (2n+1) |t|^n over all n, and over the n not below N *)
Definition hg_total (t : R) : R := (1 + Rabs t) / (1 - Rabs t) ^ 2.
Definition hg_tail (t : R) (N : nat) : R :=
  Rabs t ^ N * (2 * INR N + 1 - (2 * INR N - 1) * Rabs t) / (1 - Rabs t) ^ 2.

(** factor in front of the interaction term and extinction of the two paths *)
Definition strength (I0 omega tau NormBRDF bsf t_0 t_ex : R) : R :=
  Rabs ((1 - bsf) * NormBRDF * I0 * omega * cos t_0) * (exp (- tau / cos t_ex) + exp (- tau / cos t_0)).

(** the Legendre series with these coefficients represents [h] on the range of the scattering
    angle, with an error of at most [tail N] for N coefficients *)
Definition expands (coefs : nat -> R) (h : R -> R) (tail : nat -> R) : Prop :=
  forall N x, -1 <= x <= 1 -> Rabs (leg_sum coefs N x - h x) <= tail N.
(** more coefficients never have a larger bound, and the bound vanishes *)
Definition vanishing (tail : nat -> R) : Prop :=
  (forall N, tail (S N) <= tail N) /\ is_lim_seq tail 0.
Definition continuous_inside (h : R -> R) : Prop := forall x, -1 <= x <= 1 -> continuous h x.

(** the textbook phase function (a sum of the formulas of Shp_Spec) as a function of the incident
    zenith angle (of the downwelling ray) and the scattered one, as in is_interaction; the BRDF *)
Definition exact_phase (pd : pdict) (v : vfun) : angular :=
  fun t_0 p_0 t_s p_s => v_sum pd (v_elems v) t_0 (PI - t_s) p_0 p_s.
Definition exact_brdf (pd : pdict) (s : sfun) : angular :=
  fun t_s p_s t_ex p_ex => s_sum pd (s_elems s) t_s t_ex p_s p_ex.
(** every cosine lobe has a power of at least 1 (see C70 for the power 0) *)
Definition proper_lobes (s : sfun) : Prop := forall w i a, In (w, SCos i a) (s_elems s) -> (1 <= i)%nat.
