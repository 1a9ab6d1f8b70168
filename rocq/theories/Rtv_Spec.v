(** Specification: what can be explained by the choice of one parameter *)
From Coq Require Import ZArith Reals List String.
From Verif Require Import Base RT_Model RT_Spec Fit_Spec Res_Model Res_Spec Dns_Spec Nfr_Spec.
Import ListNotations.
Local Open Scope R_scope.

(** [s] lies between [a] and [b] *)
Definition between (a s b : R) : Prop := a <= s <= b \/ b <= s <= a.
(** a value in the interval fits a measurement at least as good as all others in the interval *)
Definition best_in (f : R -> R) (s lo hi v : R) : Prop :=
  lo <= v <= hi /\ forall w, lo <= w <= hi -> Rabs (f v - s) <= Rabs (f w - s).
(** a vector within the bounds of the parameter *)
Definition in_box (lo hi y : list R) : Prop :=
  List.length y = List.length lo /\ forall k, (k < List.length lo)%nat -> nth k lo 0 <= nth k y 0 <= nth k hi 0.
(** a vector within the bounds that no other vector within the bounds beats *)
Definition best_fit (dB sig0 : bool) (key : string) (gi index : list Z) (rows : list RT) (sig : list R) (weights : option (list R)) (c : list Z) (lo hi y : list R) : Prop :=
  in_box lo hi y /\ exists m, is_cost RT (rt1_model dB sig0 key) gi index rows sig weights [c] y m /\
    forall z n, in_box lo hi z -> is_cost RT (rt1_model dB sig0 key) gi index rows sig weights [c] z n -> m <= n.
