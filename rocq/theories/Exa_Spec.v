(** What memoised quantities are computed from, whatever happens between: the values at the first use. *)
From Coq Require Import Reals List.
From Verif Require Import Base RT_Model Sca_Model.
Import ListNotations.
Local Open Scope R_scope.

(** what was kept, or what holds now *)
Definition kept_or {A} (k : option A) (now : A) : A := match k with Some x => x | None => now end.

(** the zenith angles (of incidence, of exit) whose cosines' powers are used after the operations: those at the first evaluation since the
    caches were emptied *)
Fixpoint powers_of (now : R * R) (kept : option (R * R)) (ops : list geo_op) : R * R :=
  match ops with
  | [] => kept_or kept now
  | OpT0 v :: r => powers_of (v, snd now) kept r
  | OpTex v :: r => powers_of (fst now, v) kept r
  | OpInteraction :: r => powers_of now (Some (kept_or kept now)) r
  | OpClear :: r => powers_of now None r
  | _ :: r => powers_of now kept r
  end.

(** the attributes (t, a) that the surface function is evaluated with: those at the first evaluation *)
Fixpoint function_of (now : R * avec) (kept : option (R * avec)) (ops : list hgop) : R * avec :=
  match ops with
  | [] => kept_or kept now
  | HSetT t :: r => function_of (t, snd now) kept r
  | HSetA a :: r => function_of (fst now, a) kept r
  | HEval _ _ _ _ :: r => function_of now (Some (kept_or kept now)) r
  | HCoef _ :: r => function_of now kept r
  end.
(** the attribute t that the coefficients are computed from: that at their first use *)
Fixpoint coefficients_of (now : R) (kept : option R) (ops : list hgop) : R :=
  match ops with
  | [] => kept_or kept now
  | HSetT t :: r => coefficients_of t kept r
  | HCoef _ :: r => coefficients_of now (Some (kept_or kept now)) r
  | _ :: r => coefficients_of now kept r
  end.
(** the positive half of the range *)
Definition half (x : R) : R := if Rlt_dec 0 x then 1 / PI else 0.
