(** Model of the slopes, curvatures and the jacobian of RT1 objects with numpy-arrays: /repo/rt1/rt1.py [surface_slope],
    [surface_curv], [volume_slope], [volume_curv], [tot_slope], [tot_curv] (750-1213), [jacobian] and its parts (1363-1703), with
    /repo/rt1/surface.py [brdf_theta_diff] (275-444), volume.py [p_theta_diff].  Every operation is numpy's operation with
    broadcasting (Arr_Model); the other models (RT_Model) are about one element.

    Simplifications: those of Arr_Model; nan is not modelled; the compiled derivatives are taken as given (which function
    sympy compiles is C01-C09; that the memoised functions are the right ones is C156). *)
From Coq Require Import Reals List String Bool Arith.
From Verif Require Import Base RT_Model Arr_Model.
Import ListNotations.
Local Open Scope R_scope.

(** numpy: the indices of an array of a given shape *)
Fixpoint indices (s : list nat) : list (list nat) :=
  match s with
  | [] => [[]]
  | d :: s => flat_map (fun i => map (cons i) (indices s)) (seq 0 d)
  end.
(** surface.py 338-347: [np.unique(p_0)] has one element: this element *)
Definition unique (a : arr R) : option R :=
  match map (data a) (indices (shape a)) with
  | [] => None
  | v :: l => if forallb (fun w => if Req_EM_T w v then true else false) l then Some v else None
  end.

(** an RT1 object with the compiled derivatives of its scattering functions: the n-th derivative with respect to the
    zenith-angle in monostatic geometry for the azimuth [v] (surface.py 407-425, volume.py), and the derivative with respect
    to a parameter (rt1.py 1539-1585) *)
Record dobj : Type := mkd { d_o : aobj; d_brdf : nat -> R -> func; d_p : nat -> R -> func; d_kbrdf : string -> func; d_kp : string -> func }.

(** numpy's binary operations *)
Notation "a +e b" := (Ap2 Rplus a b) (at level 50, left associativity).
(** ... *)
Notation "a -e b" := (Ap2 Rminus a b) (at level 50, left associativity).
(** ... *)
Notation "a *e b" := (Ap2 Rmult a b) (at level 40, left associativity).
(** ... *)
Notation "a /e b" := (Ap2 Rdiv a b) (at level 40, left associativity).
(** numpy: [c * a] *)
Notation "c .* a" := (Ap1 (Rmult c) a) (at level 35, right associativity).
(** numpy: [a ** k] *)
Notation "a ^e k" := (Ap1 (fun x => pow x k) a) (at level 30).

Section Mono.
(** [v]: the single value of p_0 (surface.py 343) *)
Variables (d : dobj) (v : R).
Let o := d_o d.
(** rt1.py 449-452 *)
Let mu := e_mu0 o.
(** rt1.py: [self.V.tau] *)
Let tau_ := Leaf (a_tau o).
(** rt1.py: [np.sin(self.t_0)] *)
Let sin_ := Ap1 sin (Leaf (a_t0 o)).
(** rt1.py: [self.I0] *)
Let I0_ := Leaf (a_I0 o).
(** rt1.py: [self.bsf] *)
Let bsf_ := Leaf (a_bsf o).
(** surface.py 349-350, 444: in monostatic geometry the function gets [t_0, t_0, p_0, p_0 + pi] *)
Definition mono_args : list (arr R) := a_t0 o :: a_t0 o :: a_p0 o :: op1 (fun x => x + PI) (a_p0 o) :: map snd (a_params o).
(** rt1.py 771-780, 846-855 *)
Definition e_dbrdf (n : nat) : ex := Call (d_brdf d n v) mono_args.
(** rt1.py 973-982, 1047-1056 *)
Definition e_dp (n : nat) : ex := Call (d_p d n v) mono_args.
(** rt1.py 782-788 *)
Definition e_brdf : ex := Call (a_brdf o) (call_args o).
(** rt1.py 985-991 *)
Definition e_p : ex := Call (a_p o) (call_args o).
(** [np.exp(-(2 * self.V.tau / self._mu_0))], rt1.py 793, 877, 1000 *)
Definition e_exp2 : ex := Ap1 exp (Ap1 Ropp (2 .* tau_ /e mu)).

(** rt1.py 790-806 *)
Definition e_surface_I_slope : ex :=
  let vegs := I0_ *e e_exp2 *e (mu *e e_dbrdf 1 -e Ap1 (fun x => x + 1) (2 .* tau_ /e mu) *e sin_ *e e_brdf) in
  let bs := I0_ *e (mu *e e_dbrdf 1 -e sin_ *e e_brdf) in
  Leaf (a_N o) *e (e_1bsf o *e vegs +e bsf_ *e bs).
(** rt1.py 874-903 *)
Definition e_surface_I_curv : ex :=
  let vegs := I0_ *e e_exp2 *e
      (mu *e e_dbrdf 2 -e 2 .* sin_ *e e_dbrdf 1 *e Ap1 (fun x => x + 1) (2 .* tau_ /e mu)
       +e (4 .* (tau_ ^e 2) /e (mu ^e 3) *e (sin_ ^e 2) -e 2 .* tau_ -e mu) *e e_brdf) in
  let bs := I0_ *e (mu *e e_dbrdf 2 -e 2 .* sin_ *e e_dbrdf 1 -e mu *e e_brdf) in
  Leaf (a_N o) *e (e_1bsf o *e vegs +e bsf_ *e bs).
(** rt1.py 994-1010 *)
Definition e_volume_I_slope : ex :=
  Ap1 (fun x => x / 2) (e_1bsf o *e I0_ *e Leaf (a_omega o))
  *e (Ap1 (fun x => x * 2) e_exp2 *e tau_ *e sin_ /e (mu ^e 2) *e e_p +e Ap1 (fun x => 1 - x) e_exp2 *e e_dp 1).
(** rt1.py 1076-1100 *)
Definition e_volume_I_curv : ex :=
  Ap1 (fun x => x / 2) (e_1bsf o *e I0_ *e Leaf (a_omega o))
  *e (e_exp2 *e (2 .* tau_ /e (mu ^e 3)) *e (Ap1 (fun x => x + 1) (sin_ ^e 2) -e 2 .* tau_ /e mu *e (sin_ ^e 2)) *e e_p
      +e Ap1 (fun x => x * 4) e_exp2 *e tau_ /e (mu ^e 2) *e sin_ *e e_dp 1
      +e Ap1 (fun x => 1 - x) e_exp2 *e e_dp 2).
(** the unit conversion of a slope: rt1.py 808-817, 1013-1022, 1152-1161 *)
Definition e_slope_units (dB sig0 : bool) (I_slope I_val : ex) : ex :=
  match sig0, dB with
  | false, false => I_slope
  | true, false => (4 * PI) .* (mu *e I_slope -e sin_ *e I_val)
  | false, true => (10 / ln 10) .* I_slope /e I_val
  | true, true => (10 / ln 10) .* (I_slope /e I_val -e Ap1 tan (Leaf (a_t0 o)))
  end.
(** the unit conversion of a curvature: rt1.py 905-924, 1102-1124, 1190-1213 *)
Definition e_curv_units (dB sig0 : bool) (I_curv I_slope I_val : ex) : ex :=
  match sig0, dB with
  | false, false => I_curv
  | true, false => (4 * PI) .* (mu *e I_curv -e 2 .* sin_ *e I_slope -e mu *e I_val)
  | false, true => (10 / ln 10) .* (I_curv /e I_val -e (I_slope ^e 2) /e (I_val ^e 2))
  | true, true => (10 / ln 10) .* (I_curv /e I_val -e (I_slope ^e 2) /e (I_val ^e 2) -e Ap1 (fun x => / (x ^ 2)) mu)
  end.
(** rt1.py 750-817 *)
Definition e_surface_slope (dB sig0 : bool) : ex := e_slope_units dB sig0 e_surface_I_slope (e_surface o).
(** rt1.py 819-924 *)
Definition e_surface_curv (dB sig0 : bool) : ex := e_curv_units dB sig0 e_surface_I_curv (e_surface_slope false false) (e_surface o).
(** rt1.py 951-1022 *)
Definition e_volume_slope (dB sig0 : bool) : ex := e_slope_units dB sig0 e_volume_I_slope (e_volume o).
(** rt1.py 1024-1124 *)
Definition e_volume_curv (dB sig0 : bool) : ex := e_curv_units dB sig0 e_volume_I_curv (e_volume_slope false false) (e_volume o).
(** rt1.py 1126-1161 *)
Definition e_tot_slope (dB sig0 : bool) : ex :=
  e_slope_units dB sig0 (e_volume_slope false false +e e_surface_slope false false) (e_volume o +e e_surface o).
(** rt1.py 1163-1213 *)
Definition e_tot_curv (dB sig0 : bool) : ex :=
  e_curv_units dB sig0 (e_volume_curv false false +e e_surface_curv false false) (e_volume_slope false false +e e_surface_slope false false)
    (e_volume o +e e_surface o).
End Mono.

(** surface.py 337-341, volume.py: AssertionError unless p_0 has a single value; the derivative is evaluated first in all
    these functions (rt1.py 771, 846, 973, 1047, 1148, 1185) *)
Definition mono (d : dobj) (e : R -> ex) : res (arr R) :=
  match unique (a_p0 (d_o d)) with
  | Some v => eval (e v)
  | None => Err AssertionError
  end.
(** the six functions *)
Inductive which : Type := SurfaceSlope | SurfaceCurv | VolumeSlope | VolumeCurv | TotSlope | TotCurv.
(** rt1.py 750-817, 819-924, 951-1022, 1024-1124, 1126-1161, 1163-1213 *)
Definition aslope (w : which) (dB sig0 : bool) (d : dobj) : res (arr R) :=
  mono d (fun v =>
    match w with
    | SurfaceSlope => e_surface_slope d v dB sig0
    | SurfaceCurv => e_surface_curv d v dB sig0
    | VolumeSlope => e_volume_slope d v dB sig0
    | VolumeCurv => e_volume_curv d v dB sig0
    | TotSlope => e_tot_slope d v dB sig0
    | TotCurv => e_tot_curv d v dB sig0
    end).

(** ** the jacobian *)
Section Jac.
Variable d : dobj.
Let o := d_o d.
(** rt1.py 449-452, 454-457 *)
Let mu := e_mu0 o.
(** rt1.py 454-457 *)
Let mux := e_muex o.
(** rt1.py: [self.V.tau] *)
Let tau_ := Leaf (a_tau o).
(** rt1.py: [self.I0] *)
Let I0_ := Leaf (a_I0 o).
(** rt1.py 1377, 1457: [np.exp(-self.V.tau / self._mu_0 - self.V.tau / self._mu_ex)] *)
Definition e_trans2 : ex := Ap1 exp (Ap1 Ropp tau_ /e mu -e tau_ /e mux).
(** rt1.py 1363-1384 *)
Definition e_dvolume_dtau : ex :=
  e_1bsf o *e (I0_ *e Leaf (a_omega o) *e (mu /e (mu +e mux))
               *e ((Ap1 (Rdiv 1) mu +e Ap1 (Rdiv 1) (Ap1 Rinv mux)) *e e_trans2) *e e_p d).
(** rt1.py 1386-1402 *)
Definition e_dvolume_domega : ex :=
  e_1bsf o *e (I0_ *e mu /e (mu +e mux) *e Ap1 (fun x => 1 - x) (e_trans o) *e e_p d).
(** rt1.py 1404-1426 *)
Definition e_dvolume_dbsf : ex :=
  Ap1 Ropp (I0_ *e Leaf (a_omega o) *e mu /e (mu +e mux) *e Ap1 (fun x => 1 - x) (e_trans o) *e e_p d).
(** a Python number *)
Definition e_const (c : R) : ex := Leaf (mkarr [] (fun _ => c)).
(** rt1.py 1443-1464 *)
Definition e_dsurface_dtau : ex :=
  Leaf (a_N o) *e e_1bsf o *e (I0_ *e (Ap1 (Rdiv (-1)) mu -e Ap1 (Rdiv 1) mux) *e e_trans2 *e mu *e e_brdf d).
(** rt1.py 1480-1505 *)
Definition e_dsurface_dR : ex := e_1bsf o *e (e_trans o *e e_Ibs o) +e Leaf (a_bsf o) *e e_Ibs o.
(** rt1.py 1507-1537, with [np.ones_like(self.t_0)] *)
Definition e_dsurface_dbsf : ex :=
  Leaf (a_N o) *e (e_Ibs o -e e_trans o *e e_Ibs o *e Ap1 (fun _ => 1) (Leaf (a_t0 o))).
(** rt1.py 1587-1613 *)
Definition e_dsurface_dkey (key : string) : ex :=
  let bs := I0_ *e mu *e Call (d_kbrdf d key) (call_args o) in
  Leaf (a_N o) *e (e_1bsf o *e (e_trans o *e bs) +e Leaf (a_bsf o) *e bs).
(** rt1.py 1615-1628 *)
Definition e_dvolume_dkey (key : string) : ex :=
  e_1bsf o *e (I0_ *e Leaf (a_omega o) *e mu /e (mu +e mux) *e Ap1 (fun x => 1 - x) (e_trans o) *e Call (d_kp d key) (call_args o)).
(** rt1.py 1675-1680 *)
Definition e_norm (dB sig0 : bool) : ex :=
  if andb sig0 (negb dB) then (4 * PI) .* mu
  else if dB then Ap1 (Rdiv 10) (ln 10 .* (e_surface o +e e_volume o))
  else e_const 1.
(** rt1.py 1683-1701, one entry *)
Definition e_entry (dB sig0 : bool) (key : string) : res ex :=
  let norm := e_norm dB sig0 in
  if String.eqb key "omega" then Ok ((e_const 0 +e e_dvolume_domega) *e norm)
  else if String.eqb key "tau" then Ok ((e_dsurface_dtau +e e_dvolume_dtau) *e norm)
  else if String.eqb key "NormBRDF" then Ok ((e_dsurface_dR +e e_const 0) *e norm)
  else if String.eqb key "bsf" then Ok ((e_dsurface_dbsf +e e_dvolume_dbsf) *e norm)
  else if dmem string_dec key (a_params o) then Ok ((e_dsurface_dkey key +e e_dvolume_dkey key) *e norm)
  else Err AssertionError.
(** rt1.py 1630-1703: the normalisation first, then entry by entry *)
Definition ajacobian (dB sig0 : bool) (param_list : list string) : res (list (arr R)) :=
  do _ <- eval (e_norm dB sig0);
  mapM (fun key => do e <- e_entry dB sig0 key; eval e) param_list.
End Jac.
