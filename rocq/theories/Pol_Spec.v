(** Specification of the polar plots: what the lines mean. *)
From Coq Require Import ZArith Reals List.
From Coquelicot Require Import Coquelicot.
From Verif Require Import Base RT_Model Sca_Model Sca_Spec Shp_Model Shp_Spec Cvg_Spec Pol_Model.
Import ListNotations.
Local Open Scope R_scope.

(** admissible parameters *)
Definition fine (X : plotted) (pd : pdict) : Prop :=
  match X with
  | XVol _ v => v_ok pd v
  | XSurf _ s => s_ok pd s /\ proper_lobes s
  | _ => False
  end.
(** the textbook value in the plane of incidence: incidence-angle t, scattering angle ts *)
Definition textbook (X : plotted) (pd : pdict) (t ts : R) : R :=
  match X with
  | XVol _ v => v_sum pd (v_elems v) t ts 0 0
  | XSurf _ s => s_sum pd (s_elems s) t ts 0 0
  | _ => 0
  end.
(** with another number of coefficients *)
Definition with_ncoefs (N : nat) (X : plotted) : plotted :=
  match X with XVol _ v => XVol N v | XSurf _ s => XSurf N s | _ => X end.
(** a scattering function that is no linear combination of phase functions *)
Definition expandable_X (X : plotted) : Prop :=
  match X with XVol _ (VOne _) => True | XSurf _ _ => True | _ => False end.
Definition is_volume (X : plotted) : Prop := match X with XVol _ _ => True | _ => False end.
(** admissible arguments *)
Definition good_opts (o : popts) : Prop :=
  o_inc_list o = true /\ o_multip_float o = true /\ o_params o <> [] /\ o_axes o <> Some false.
