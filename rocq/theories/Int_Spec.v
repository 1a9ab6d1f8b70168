(** Specification of the interaction term, independent of the model's helpers. *)
From Coq Require Import Reals List.
From Coquelicot Require Import Coquelicot.
From Verif Require Import Base Sca_Model Int_Model.
Import ListNotations.
Local Open Scope R_scope.

(** scipy.special.expi: integral of exp(t)/t from -infinity to x, Cauchy principal value *)
Definition is_expi (expi : R -> R) : Prop :=
  (forall x, x < 0 -> is_lim (fun a => RInt (fun t => exp t / t) a x) m_infty (expi x)) /\
  (forall x, 0 < x ->
     filterlim (fun e => expi (- e) + RInt (fun t => exp t / t) e x) (at_right 0) (locally (expi x))).

(** scipy.special.expn: integral of exp(-tau t)/t^n from 1 to infinity *)
Definition is_expn (expn : nat -> R -> R) : Prop :=
  forall n tau, (1 <= n)%nat -> 0 < tau ->
    is_lim (fun b => RInt (fun t => exp (- tau * t) / t ^ n) 1 b) p_infty (expn n tau).

(** polynomial with the given coefficients *)
Fixpoint poly_at (fn : list R) (x : R) : R :=
  match fn with [] => 0 | c :: r => c + x * poly_at r x end.

(** the product of phase function and BRDF integrated over the azimuth of the intermediate
    direction *)
Definition azimuth_product (p f : R -> R -> R) (theta_s : R) : R :=
  RInt (fun phi_s => p theta_s phi_s * f theta_s phi_s) 0 (2 * PI).

(** the function F_int of the documentation (theory.rst, F_int): mu1 is the cosine of the first zenith
    angle, g mu_s the azimuth-integrated product for the intermediate direction cosine mu_s *)
Definition is_F_int (tau mu1 : R) (g : R -> R) (l : R) : Prop :=
  is_RInt (fun mu_s => mu_s / (mu1 - mu_s) * (exp (- tau / mu1) - exp (- tau / mu_s)) * g mu_s) 0 1 l.

(** value of the expansion(s) of a phase function / BRDF object in the given directions *)
Definition V_value (V : sobj) (theta_0 phi_0 theta_s phi_s : R) : R :=
  fold_right Rplus 0
    (map (fun e => legexpansion_V (e_coefs e) (e_np e) (e_a e) theta_0 phi_0 theta_s phi_s) (expansions V)).
Definition S_value (S : sobj) (theta_s phi_s theta_ex phi_ex : R) : R :=
  fold_right Rplus 0
    (map (fun e => legexpansion_S (e_coefs e) (e_np e) (e_a e) theta_s phi_s theta_ex phi_ex) (expansions S)).
(** at least one coefficient, and no expansion longer than the advertised [ncoefs] *)
Definition bounded_obj (o : sobj) : Prop :=
  (1 <= ncoefs o)%nat /\ List.Forall (fun e => (e_np e <= ncoefs o)%nat) (expansions o).

(** value of a monomial / an expanded expression in the angles *)
Definition mono_at (m : mono) (theta_s phi_s : R) : R :=
  mc m * sin phi_s ^ m_sp m * cos phi_s ^ m_cp m * sin theta_s ^ m_st m * cos theta_s ^ m_ct m.
Definition expr_at (p : poly) (theta_s phi_s : R) : R :=
  fold_right Rplus 0 (map (fun m => mono_at m theta_s phi_s) p).

(** first-order interaction term (theory.rst, interaction contribution): [p] is the phase
    function p(theta_0, phi_0, theta_s, phi_s), [f] the BRDF f(theta_s, phi_s, theta_ex, phi_ex) *)
Definition is_interaction (p f : R -> R -> R -> R -> R)
           (I0 omega tau NormBRDF bsf t_0 p_0 t_ex p_ex v : R) : Prop :=
  exists F1 F2,
    is_F_int tau (cos t_0)
      (fun mu => azimuth_product (p t_0 p_0) (fun ts ps => f ts ps t_ex p_ex) (acos mu)) F1 /\
    is_F_int tau (cos t_ex)
      (fun mu => azimuth_product (p t_ex p_ex) (fun ts ps => f ts ps t_0 p_0) (acos mu)) F2 /\
    v = (1 - bsf) * NormBRDF * I0 * omega * cos t_0 * (exp (- tau / cos t_ex) * F1 + exp (- tau / cos t_0) * F2).

(** geometry 'vvvv': nothing is fixed *)
Definition all_variable : geom := GQuad None None None None.
