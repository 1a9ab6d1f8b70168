(** Specification: fits of data that were generated by the model *)
From Coq Require Import ZArith Reals List String.
From Verif Require Import Base RT_Model RT_Spec Fit_Spec Res_Model Res_Spec Dns_Spec.
Import ListNotations.
Local Open Scope R_scope.

(** the weight of observation [i] *)
Definition weight (weights : option (list R)) (i : nat) : R := match weights with Some c => nth i c 0 | None => 1 end.
(** the sum of squares that the optimiser minimises, as a function of its vector *)
Definition is_cost (A : Type) (model : list (option R) -> A -> R) (gi index : list Z) (rows : list A) (sig : list R) (weights : option (list R))
    (dyns : list (list Z)) (x : list R) (c : R) : Prop :=
  exists r, residual_fun Rmult Rminus 1 model gi index rows sig weights dyns x = Ok r /\ c = sumR (map (fun v => v * v) r).
(** the values of the parameters one after the other are the vector *)
Definition vector_of (dyns : list (list Z)) (parts : list (list R)) (x : list R) : Prop :=
  List.concat parts = x /\ map (@List.length R) parts = map (fun c => List.length (uniq c)) dyns.
(** each measurement is the value of the model with these parameter values *)
Definition generated (A : Type) (model : list (option R) -> A -> R) (rows : list A) (a0 : A) (dyns : list (list Z)) (parts : list (list R)) (sig : list R) : Prop :=
  forall i, (i < List.length sig)%nat -> nth i sig 0 = model (map (fun p => Some (value_at 0 p i)) (combine dyns parts)) (nth i rows a0).

(** the model without interaction term in the units of the data, the parameter [key] has the value [v] *)
Definition rt1_model (dB sig0 : bool) (key : string) (vs : list (option R)) (o : RT) : R :=
  match vs with [Some v] => in_units dB sig0 (t_0 o) (RT_Spec.total (with_key o key v)) | _ => 0 end.
(** the backscatter reacts to the parameter: what the scene needs for it *)
Definition sensitive (key : string) (o : RT) : Prop :=
  0 < cos (t_0 o) /\ 0 < cos (t_ex o) /\
  match key with
  | "NormBRDF"%string => I0 o * brdf_val o <> 0 /\ 0 <= bsf o <= 1
  | "omega"%string => I0 o * p_val o <> 0 /\ bsf o <> 1 /\ tau (V o) <> 0
  | "tau"%string => bsf o <> 1 /\ bare_surface o <> half_space o
  | "bsf"%string => tau (V o) <> 0 /\ bare_surface o <> half_space o
  | _ => False
  end.
(** ... and what makes the scene blind for it *)
Definition blind (key : string) (o : RT) : Prop :=
  match key with
  | "NormBRDF"%string => I0 o * brdf_val o = 0
  | "omega"%string => I0 o * p_val o = 0 \/ bsf o = 1 \/ tau (V o) = 0
  | "tau"%string => bsf o = 1 \/ bare_surface o = half_space o
  | "bsf"%string => tau (V o) = 0 \/ bare_surface o = half_space o
  | _ => False
  end.
(** a parameter with one group of observations per value: every group has a sensitive observation that has a weight *)
Definition seen (key : string) (rows : list RT) (o0 : RT) (weights : option (list R)) (c : list Z) : Prop :=
  forall g, In g c -> exists i, (i < List.length c)%nat /\ nth i c 0%Z = g /\ sensitive key (nth i rows o0) /\ weight weights i <> 0.
