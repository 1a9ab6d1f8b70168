(** Specification of the radiation that leaves the scene: integrals over the upper hemisphere. *)
From Coq Require Import Reals List.
From Coquelicot Require Import Coquelicot.
From Verif Require Import RT_Model RT_Spec Int_Spec.
Local Open Scope R_scope.

(** [v] is the integral of [f] (zenith angle, azimuth) over the directions of the upper hemisphere; the integral is
    over the cosine (0 to 1) and the azimuth (0 to 2 pi) *)
Definition is_hemi (f : R -> R -> R) (v : R) : Prop :=
  (forall mu, 0 < mu < 1 -> ex_RInt (f (acos mu)) 0 (2 * PI)) /\
  is_RInt (fun mu => RInt (f (acos mu)) 0 (2 * PI)) 0 1 v.

(** the same scene and incidence direction, seen from another direction *)
Definition seen_from (o : RT) (th ph : R) : RT := set_p_ex (set_t_ex o th) ph.

(** [e]: power that leaves the scene (surface and volume contribution) per unit area *)
Definition leaves (o : RT) (e : R) : Prop := is_hemi (fun th ph => cos th * RT_Spec.total (seen_from o th ph)) e.

(** power that arrives per unit area: a beam of strength I0 at the incidence angle *)
Definition arrives (o : RT) : R := I0 o * cos (t_0 o).

(** [r]: part of the beam that the surface reflects (directional-hemispherical reflectance without NormBRDF) *)
Definition reflects (o : RT) (r : R) : Prop :=
  is_hemi (fun th ph => cos th * brdf (SRF o) (param_dict o) (t_0 o) th (p_0 o) ph) r.

(** [u]: part of the scattered radiation that the layer scatters upwards *)
Definition scatters_up (o : RT) (u : R) : Prop :=
  is_hemi (fun th ph => p (V o) (param_dict o) (t_0 o) th (p_0 o) ph) u.

(** phase function and BRDF are nowhere negative *)
Definition nonneg_scene (o : RT) : Prop :=
  forall th ph, 0 <= brdf (SRF o) (param_dict o) (t_0 o) th (p_0 o) ph /\ 0 <= p (V o) (param_dict o) (t_0 o) th (p_0 o) ph.

(** parameters in their physical range, bistatic geometry *)
Definition physical (o : RT) : Prop :=
  is_mono o = false /\ 0 <= I0 o /\ 0 < cos (t_0 o) /\ 0 <= tau (V o) /\ 0 <= omega (V o) /\ 0 <= bsf o <= 1 /\ 0 <= NormBRDF (SRF o).

(** ** with the interaction contribution *)

(** continuous function of the direction: of the cosine of the zenith angle (0 to 1) and the azimuth *)
Definition continuous_dir (g : R -> R -> R) : Prop :=
  forall m ph, continuity_2d_pt (fun m ph => g (acos (Rmax 0 (Rmin 1 m))) ph) m ph.

(** finite sum of products of a function of the first and a function of the second direction *)
Definition sum_of_products (l : list ((R -> R -> R) * (R -> R -> R))) (t p t' p' : R) : R :=
  fold_right (fun ab s => fst ab t p * snd ab t' p' + s) 0 l.
Definition separable (f : R -> R -> R -> R -> R) : Prop :=
  exists l, List.Forall (fun ab => continuous_dir (fst ab) /\ continuous_dir (snd ab)) l /\
            forall t p t' p', f t p t' p' = sum_of_products l t p t' p'.

(** [F1], [F2]: the factors of the interaction contribution for every direction of observation; [pd]: phase function
    for scattering that does not turn the radiation around (down - down and up - up), [f]: BRDF *)
Definition factors (o : RT) (pd f : R -> R -> R -> R -> R) (F1 F2 : R -> R -> R) : Prop :=
  forall th ph, 0 < cos th < 1 ->
    is_F_int (tau (V o)) (cos (t_0 o)) (fun mu => azimuth_product (pd (t_0 o) (p_0 o)) (fun ts ps => f ts ps th ph) (acos mu)) (F1 th ph) /\
    is_F_int (tau (V o)) (cos th) (fun mu => azimuth_product (pd th ph) (fun ts ps => f ts ps (t_0 o) (p_0 o)) (acos mu)) (F2 th ph).

(** [e]: power that leaves the scene, all three contributions as returned by [calc] *)
Definition leaves_all (o : RT) (F1 F2 : R -> R -> R) (e : R) : Prop :=
  exists tot, (forall th ph, 0 < cos th < 1 -> o_tot (calc_scalar true (seen_from o th ph) (Some (F1 th ph)) (Some (F2 th ph))) = Some (tot th ph)) /\
    is_hemi (fun th ph => cos th * tot th ph) e.

(** the surface: reciprocal, nowhere negative, the same function that gives the surface contribution; it reflects at
    most the part [a] of the radiation from any direction *)
Definition surface_reflects_at_most (o : RT) (f : R -> R -> R -> R -> R) (a : R) : Prop :=
  separable f /\ (forall t p t' p', 0 <= f t p t' p' /\ f t p t' p' = f t' p' t p) /\
  (forall th ph, brdf (SRF o) (param_dict o) (t_0 o) th (p_0 o) ph = f (t_0 o) (p_0 o) th ph) /\
  forall t p, 0 < cos t -> exists r, is_hemi (fun th ph => cos th * f t p th ph) r /\ NormBRDF (SRF o) * r <= a.

(** the layer: nowhere negative; it scatters the part [u] of the beam upwards and [d] downwards, and does not add energy
    to the upwelling radiation *)
Definition layer_scatters (o : RT) (pd : R -> R -> R -> R -> R) (u d : R) : Prop :=
  separable pd /\ (forall t p t' p', 0 <= pd t p t' p') /\
  (forall th ph, 0 <= p (V o) (param_dict o) (t_0 o) th (p_0 o) ph) /\
  scatters_up o u /\ is_hemi (pd (t_0 o) (p_0 o)) d /\
  forall t p, 0 < cos t -> exists v, is_hemi (fun th ph => pd th ph t p) v /\ omega (V o) * v <= 1.
