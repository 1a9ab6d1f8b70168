(** Specification for C200-C202: doubles, accuracy, and the exact values. *)
From Coq Require Import Reals List ZArith.
From Flocq Require Import Core.
From Verif Require Import RT_Model Flt_Model.
Import ListNotations.
Local Open Scope R_scope.

(** rounding to the nearest double (ties to even), subnormal numbers included *)
Definition dbl (x : R) : R := round radix2 (FLT_exp (-1074) 53) ZnearestE x.
Definition is_double (x : R) : Prop := generic_format radix2 (FLT_exp (-1074) 53) x.

(** x is y up to the factor exp(e) in either direction (a relative error of e if e is small) *)
Definition near (e x y : R) : Prop := y * exp (- e) <= x /\ x <= y * exp e.
(** the accuracy of one operation: 2^-53 *)
Definition w : R := - ln (1 - bpow radix2 (-53)).
(** a number that is rounded with this accuracy *)
Definition normal (x : R) : Prop := x = 0 \/ bpow radix2 (-1022) <= Rabs x.

(** accuracy of the library functions; np.exp: for arguments whose exponential is not subnormal *)
Definition accurate_exp (a : R) (expf : R -> R) : Prop := forall x, -600 <= x <= 0 -> near a (expf x) (exp x).
Definition accurate_cos (c : R) (cosf : R -> R) (t : R) : Prop := near c (cosf t) (cos t).
(** np.exp of numbers that are not positive lies in [0, 1] *)
Definition exp_range (expf : R -> R) : Prop := forall x, x <= 0 -> 0 <= expf x <= 1.
Definition exp_mono (expf : R -> R) : Prop := forall x y, x <= y -> y <= 0 -> expf x <= expf y.

(** physical ranges *)
Definition sane (i : inputs) : Prop :=
  0 <= i_I0 i /\ 0 <= i_omega i /\ 0 <= i_tau i /\ 0 <= i_N i /\ 0 <= i_bsf i <= 1 /\ 0 <= i_brdf i /\ 0 <= i_p i.

(** the exact values: incident intensity, optical path, contributions for exact values b and q of the scattering
    functions *)
Definition path (i : inputs) : R := i_tau i / cos (i_t0 i) + i_tau i / cos (i_tex i).
Definition exact_surface (i : inputs) (b : R) : R :=
  i_N i * ((1 - i_bsf i) * (exp (- path i) * (i_I0 i * cos (i_t0 i) * b)) + i_bsf i * (i_I0 i * cos (i_t0 i) * b)).
Definition exact_volume (i : inputs) (q : R) : R :=
  (1 - i_bsf i) * (i_I0 i * i_omega i * cos (i_t0 i) / (cos (i_t0 i) + cos (i_tex i)) * (1 - exp (- path i)) * q).

(** the exact results of all operations before they are rounded *)
Definition surface_steps (expf cosf : R -> R) (i : inputs) : list R :=
  let m0 := cosf (i_t0 i) in let m1 := cosf (i_tex i) in
  let I_bs := dbl (dbl (i_I0 i * m0) * i_brdf i) in
  let a := dbl (- dbl (i_tau i / m0) - dbl (i_tau i / m1)) in
  let s := dbl (expf a * I_bs) in
  [i_I0 i * m0; dbl (i_I0 i * m0) * i_brdf i; i_tau i / m0; i_tau i / m1; - dbl (i_tau i / m0) - dbl (i_tau i / m1);
   expf a * I_bs; 1 - i_bsf i; dbl (1 - i_bsf i) * s; i_bsf i * I_bs; dbl (dbl (1 - i_bsf i) * s) + dbl (i_bsf i * I_bs);
   i_N i * dbl (dbl (dbl (1 - i_bsf i) * s) + dbl (i_bsf i * I_bs))].
Definition volume_steps (expf cosf : R -> R) (i : inputs) : list R :=
  let m0 := cosf (i_t0 i) in let m1 := cosf (i_tex i) in
  let a := dbl (- dbl (i_tau i / m0) - dbl (i_tau i / m1)) in
  let f := dbl (dbl (dbl (i_I0 i * i_omega i) * m0) / dbl (m0 + m1)) in
  let g := dbl (1 - expf a) in
  [i_tau i / m0; i_tau i / m1; - dbl (i_tau i / m0) - dbl (i_tau i / m1); i_I0 i * i_omega i; dbl (i_I0 i * i_omega i) * m0; m0 + m1;
   dbl (dbl (i_I0 i * i_omega i) * m0) / dbl (m0 + m1); 1 - expf a; f * g; dbl (f * g) * i_p i; 1 - i_bsf i;
   dbl (1 - i_bsf i) * dbl (dbl (f * g) * i_p i)].

(** the inputs of an RT1 object for the computed values bf and pf of the scattering functions *)
Definition inputs_of (o : RT) (bf pf : R) : inputs :=
  mkin (I0 o) (omega (V o)) (tau (V o)) (NormBRDF (SRF o)) (bsf o) (t_0 o) (t_ex o) bf pf.

(** both directions in the upper hemisphere *)
Definition upward (cosf : R -> R) (i : inputs) : Prop := 0 < cosf (i_t0 i) /\ 0 < cosf (i_tex i).
(** another optical depth *)
Definition with_tau (i : inputs) (t : R) : inputs := mkin (i_I0 i) (i_omega i) t (i_N i) (i_bsf i) (i_t0 i) (i_tex i) (i_brdf i) (i_p i).
