(** Vocabulary for models built from the shipped scattering functions. *)
From Coq Require Import Reals List String.
From Verif Require Import Base RT_Model Sca_Model Sca_Spec Shp_Model.
Import ListNotations.
Local Open Scope R_scope.

(** the parameter has a value, and this value satisfies P *)
Definition has (P : R -> Prop) (pd : pdict) (q : par) : Prop := exists x, pval pd q = Some x /\ P x.
Definition asym (x : R) : Prop := -1 < x < 1.
Definition any (x : R) : Prop := True.
Definition nonneg (x : R) : Prop := 0 <= x.
Definition positive (x : R) : Prop := 0 < x.

(** the elements of a function (with weighting factors) *)
Definition v_elems (v : vfun) : list (par * velem) :=
  match v with VOne e => [(Num 1, e)] | VLin cs => cs end.
Definition s_elems (s : sfun) : list (par * selem) :=
  match s with SOne e => [(Num 1, e)] | SLin cs => cs end.

(** admissible elements: asymmetry parameters in (-1,1), generalisation weights in [-1,1] *)
Definition v_adm (pd : pdict) (e : velem) : Prop :=
  match e with
  | VRay a => unit_weights a
  | VHG t a | VHGR t a => has asym pd t /\ unit_weights a
  end.
Definition s_adm (pd : pdict) (e : selem) : Prop :=
  match e with
  | SIso a | SCos _ a => unit_weights a
  | SHG t a => has asym pd t /\ unit_weights a
  | SHGN t a => has (fun g => asym g /\ g <> 0) pd t /\ unit_weights a /\ a0 a <> 0
  end.
Definition v_ok (pd : pdict) (v : vfun) : Prop :=
  forall w e, In (w, e) (v_elems v) -> has any pd w /\ v_adm pd e.
Definition s_ok (pd : pdict) (s : sfun) : Prop :=
  forall w e, In (w, e) (s_elems s) -> has any pd w /\ s_adm pd e.

(** a cosine lobe of power i is n times differentiable at scattering-angle cosine x *)
Definition lobe_smooth (n i : nat) (x : R) : Prop := x <> 0 \/ i = 0%nat \/ (n < i)%nat.
(** no cosine lobe of the BRDF has its edge at the backscatter direction for incidence angle t *)
Definition no_edge (n : nat) (s : sfun) (t ph : R) : Prop :=
  forall w i a, In (w, SCos i a) (s_elems s) -> lobe_smooth n i (scat_angle t t ph (ph + PI) a).

(** weighting factors nonnegative, not all of them 0 *)
Definition v_weights (pd : pdict) (v : vfun) : Prop :=
  (forall w e, In (w, e) (v_elems v) -> has nonneg pd w) /\
  exists w e, In (w, e) (v_elems v) /\ has positive pd w.
Definition s_weights (pd : pdict) (s : sfun) : Prop :=
  forall w e, In (w, e) (s_elems s) -> has nonneg pd w.

(** the object uses these shipped functions *)
Definition shipped (o : RT) (v : vfun) (s : sfun) : Prop :=
  V o = mkVolume (tau (V o)) (omega (V o)) v /\ SRF o = mkSurface (NormBRDF (SRF o)) s.

(** textbook values for asymmetry g and scattering cosine x *)
Definition hg_kernel (g x : R) : R := (1 - g * g) / Rpower (1 + g * g - 2 * g * x) (3 / 2).
Definition v_formula (pd : pdict) (e : velem) (x : R) : R :=
  match e with
  | VRay _ => 3 / (16 * PI) * (1 + x * x)
  | VHG t _ => / (4 * PI) * hg_kernel (pnum pd t) x
  | VHGR t _ => 3 / (8 * PI) / (2 + pnum pd t * pnum pd t) * (1 + x * x) * hg_kernel (pnum pd t) x
  end.
(** the BRDFs without HG_nadirnorm (for its normalisation see C20) *)
Definition s_formula (pd : pdict) (e : selem) (x : R) : R :=
  match e with
  | SIso _ => / PI
  | SCos i _ => / PI * Rmax 0 x ^ i
  | SHG t _ => / PI * hg_kernel (pnum pd t) x
  | SHGN t a => / nadir_hemreflect (pnum pd t) a * (/ PI * hg_kernel (pnum pd t) x)
  end.
(** weighted sum over the elements at directions (t0, p0), (tex, pex) *)
Fixpoint v_sum (pd : pdict) (cs : list (par * velem)) (t0 tex p0 pex : R) : R :=
  match cs with
  | [] => 0
  | (w, e) :: r => pnum pd w * v_formula pd e (wdot (velem_a e) (dir t0 p0) (dir tex pex)) + v_sum pd r t0 tex p0 pex
  end.
Fixpoint s_sum (pd : pdict) (cs : list (par * selem)) (t0 tex p0 pex : R) : R :=
  match cs with
  | [] => 0
  | (w, e) :: r => pnum pd w * s_formula pd e (wdot (selem_a e) (dir t0 p0) (dir tex pex)) + s_sum pd r t0 tex p0 pex
  end.

(** physical values: vegetation absorbs and scatters, not only bare soil *)
Definition vegetated (o : RT) : Prop :=
  0 < I0 o /\ 0 < tau (V o) /\ 0 < omega (V o) /\ 0 <= bsf o < 1 /\ 0 <= NormBRDF (SRF o).

(** exchange of incidence and exit direction of a bistatic object *)
Definition exchanged (o : RT) : RT :=
  mkRT (I0 o) (geometry o) (gt_ex o) (gp_ex o) (gt_0 o) (gp_0 o) (V o) (SRF o) (bsf o)
       (param_dict o) (nmax o) None None.

(** an example: HG + Rayleigh phase function, BRDF with a cosine lobe and a HG peak whose
    asymmetry is the free parameter "g" *)
Definition ex_v : vfun :=
  VLin [(Num (1/4), VHG (Num (1/2)) (A3 (-1) 1 1)); (Num (3/4), VRay (A3 (-1) 1 1))].
Definition ex_s : sfun :=
  SLin [(Num (1/2), SHG (Sym "g") (A3 1 1 1)); (Num (1/2), SCos 3 (A3 1 1 1))].
Definition ex_sh : RT :=
  init 1 0 0 0 0 (mkVolume (1/2) (3/10) ex_v) (mkSurface (1/5) ex_s) "mono"%string (1/10)
       (("g"%string, 1/3) :: nil) 3.
