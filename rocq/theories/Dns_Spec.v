(** Specification: the model for vanishing and for very dense vegetation *)
From Coq Require Import Reals List.
From Coquelicot Require Import Coquelicot.
From Verif Require Import Base RT_Model Sca_Model Sca_Spec Int_Model Int_Spec.
Local Open Scope R_scope.

(** backscatter of the surface without vegetation *)
Definition bare_surface (o : RT) : R := NormBRDF (SRF o) * (I0 o * cos (t_0 o) * brdf_val o).
(** backscatter of an infinitely thick layer *)
Definition half_space (o : RT) : R := I0 o * omega (V o) * cos (t_0 o) / (cos (t_0 o) + cos (t_ex o)) * p_val o.
(** the factors of the interaction term for an object whose optical depth is varied: the integrals F_int over bounded
    azimuth products [g1], [g2] *)
Definition factors_of (o : RT) (g1 g2 : R -> R) (M : R) (F1 F2 : R -> R) : Prop :=
  (forall m, 0 <= m <= 1 -> Rabs (g1 m) <= M /\ Rabs (g2 m) <= M) /\
  (forall tau, 0 < tau -> is_F_int tau (cos (t_0 o)) g1 (F1 tau) /\ is_F_int tau (cos (t_ex o)) g2 (F2 tau)).
(** every expansion has weights of at most 1 *)
Definition unit_obj (s : sobj) : Prop := List.Forall (fun e => unit_weights (e_a e)) (expansions s).
(** the sum of the absolute values of the coefficients *)
Definition total_weight (s : sobj) : R :=
  fold_right Rplus 0 (map (fun e => fold_right Rplus 0 (map (fun n => Rabs (e_coefs e n)) (List.seq 0 (e_np e)))) (expansions s)).
