(** Specification: errors of the data and of the parameters *)
From Coq Require Import ZArith Reals List String.
From Verif Require Import Base RT_Model RT_Spec Fit_Spec Res_Model Res_Spec Dns_Spec Nfr_Spec Rtv_Spec.
Import ListNotations.
Local Open Scope R_scope.

(** the value of the model (linear units) if the parameter is zero *)
Definition offset (sig0 : bool) (key : string) (o : RT) : R := rt1_model false sig0 key [Some 0] o.
(** ... and how much it grows if the parameter grows from zero to one *)
Definition gain (sig0 : bool) (key : string) (o : RT) : R := rt1_model false sig0 key [Some 1] o - offset sig0 key o.
(** sum over the observations of a group *)
Definition over_group (c : list Z) (g : Z) (f : nat -> R) : R :=
  sumR (map (fun i => if Z.eqb (nth i c 0%Z) g then f i else 0) (seq 0 (List.length c))).
(** weighted linear regression of the data of a group *)
Definition estimate (sig0 : bool) (key : string) (rows : list RT) (o0 : RT) (sig : list R) (weights : option (list R)) (c : list Z) (g : Z) : R :=
  over_group c g (fun i => Rsqr (weight weights i) * gain sig0 key (nth i rows o0) * (nth i sig 0 - offset sig0 key (nth i rows o0)))
  / over_group c g (fun i => Rsqr (weight weights i * gain sig0 key (nth i rows o0))).
(** the nearest value of an interval *)
Definition clamp (lo hi x : R) : R := Rmax lo (Rmin hi x).
