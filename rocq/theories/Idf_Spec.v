(** Specification: which pairs of parameters a fit can tell apart *)
From Coq Require Import ZArith Reals List String.
From Verif Require Import Base RT_Model RT_Spec Fit_Spec Res_Model Res_Spec Dns_Spec Nfr_Spec.
Import ListNotations.
Local Open Scope R_scope.

(** the model without interaction term in the units of the data; the parameters [k1] and [k2] have the given values *)
Definition model2 (dB sig0 : bool) (k1 k2 : string) (vs : list (option R)) (o : RT) : R :=
  match vs with [Some v; Some w] => in_units dB sig0 (t_0 o) (RT_Spec.total (with_key (with_key o k1 v) k2 w)) | _ => 0 end.
(** observations determine two parameters (among values [P]): no two pairs of values give the same for all of them *)
Definition determine {A} (model : list (option R) -> A -> R) (P : R -> R -> Prop) (obs : A -> Prop) : Prop :=
  forall v w v' w', P v w -> P v' w' -> (forall o, obs o -> model [Some v; Some w] o = model [Some v'; Some w'] o) -> v = v' /\ w = w'.
(** the observations of a group that have a weight *)
Definition in_group {A} (rows : list A) (a0 : A) (weights : option (list R)) (c : list Z) (g : Z) (o : A) : Prop :=
  exists i, (i < List.length c)%nat /\ nth i c 0%Z = g /\ weight weights i <> 0 /\ o = nth i rows a0.
(** the observations that share both values with observation [i], and have a weight *)
Definition sharing {A} (rows : list A) (a0 : A) (weights : option (list R)) (c1 c2 : list Z) (i : nat) (o : A) : Prop :=
  exists j, (j < List.length c1)%nat /\ nth j c1 0%Z = nth i c1 0%Z /\ nth j c2 0%Z = nth i c2 0%Z /\ weight weights j <> 0 /\ o = nth j rows a0.
(** the length of the path through the canopy (one unit thick), down and up *)
Definition slant (o : RT) : R := / cos (t_0 o) + / cos (t_ex o).
(** the two directions are above the horizon *)
Definition above (o : RT) : Prop := 0 < cos (t_0 o) /\ 0 < cos (t_ex o).
