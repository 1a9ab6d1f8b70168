(** Model of the class RT1 (rt1/rt1.py): geometry, surface and volume contributions, slopes,
    curvatures, jacobian, [calc] and the memoised cosine powers.
    One array element is modelled (numpy broadcasting is elementwise); floats are reals. *)
From Coq Require Import Reals List String Bool Arith.
From Coquelicot Require Import Coquelicot.
From Verif Require Import Base.
Import ListNotations.
Local Open Scope R_scope.

(** free parameters, [param_dict] of rt1.py 137, 149 *)
Definition pdict := dict string R.

(** A surface object: rt1/surface.py 17-30, 89-138.  [brdf] is the numerical value of the
    BRDF (surface.py 89-138) for angles t_0, t_ex, p_0, p_ex and the free parameters. *)
Record SRFobj := mkSRF {
  NormBRDF : R;
  brdf : pdict -> R -> R -> R -> R -> R }.

(** A volume object: rt1/volume.py 16-28, 87-135. *)
Record Vobj := mkV {
  tau : R;
  omega : R;
  p : pdict -> R -> R -> R -> R -> R }.

(** surface.py 272-443 with [geometry="mono"]: theta_ex is replaced by theta_0, phi_ex by
    phi_0 + pi and the expression is differentiated n times by sympy.  [sp.diff] is
    modelled by the mathematical derivative of the denotation. *)
Definition brdf_theta_diff (S : SRFobj) (pd : pdict) (t_0 p_0 : R) (n : nat) : R :=
  Derive_n (fun t => brdf S pd t t p_0 (p_0 + PI)) n t_0.

(** volume.py 137-308 with [geometry="mono"], same simplification *)
Definition p_theta_diff (V : Vobj) (pd : pdict) (t_0 p_0 : R) (n : nat) : R :=
  Derive_n (fun t => p V pd t t p_0 (p_0 + PI)) n t_0.

(** An RT1 object: rt1.py 124-200.  [gt_0] ... [gp_ex] are the private angle slots
    [__t_0], [__p_0], [__t_ex], [__p_ex]; the two caches are the values memoised by
    [lru_cache] for this object (rt1.py 1326-1338), [None] before the first evaluation. *)
Record RT := mkRT {
  I0 : R;
  geometry : string;
  gt_0 : R;  gp_0 : R;  gt_ex : R;  gp_ex : R;
  V : Vobj;
  SRF : SRFobj;
  bsf : R;
  param_dict : pdict;
  nmax : nat;                        (* V.ncoefs + SRF.ncoefs - 1, rt1.py 1329, 1336 *)
  cache_mu_0_x : option (list R);
  cache_mu_ex_x : option (list R) }.

(** [self.geometry == "mono"], rt1.py 411, 417, 430, 436 *)
Definition is_mono (o : RT) : bool := String.eqb (geometry o) "mono".

(** getters: rt1.py 388-389, 399-400, 410-414, 429-433 *)
Definition t_0 (o : RT) : R := gt_0 o.
(** rt1.py 399-400 *)
Definition p_0 (o : RT) : R := gp_0 o.
(** rt1.py 410-414 *)
Definition t_ex (o : RT) : R := if is_mono o then t_0 o else gt_ex o.
(** rt1.py 429-433 *)
Definition p_ex (o : RT) : R := if is_mono o then p_0 o + PI else gp_ex o.

(** rt1.py 449-457 *)
Definition mu_0 (o : RT) : R := cos (t_0 o).
(** rt1.py 454-457 *)
Definition mu_ex (o : RT) : R := cos (t_ex o).

(** setters: rt1.py 391-395, 402-406, 416-425, 435-444 (the caches are not touched) *)
Definition set_t_0 (o : RT) (v : R) : RT :=
  mkRT (I0 o) (geometry o) v (gp_0 o) (gt_ex o) (gp_ex o) (V o) (SRF o) (bsf o)
       (param_dict o) (nmax o) (cache_mu_0_x o) (cache_mu_ex_x o).
(** rt1.py 402-406 *)
Definition set_p_0 (o : RT) (v : R) : RT :=
  mkRT (I0 o) (geometry o) (gt_0 o) v (gt_ex o) (gp_ex o) (V o) (SRF o) (bsf o)
       (param_dict o) (nmax o) (cache_mu_0_x o) (cache_mu_ex_x o).
(** rt1.py 416-425 *)
Definition set_t_ex (o : RT) (v : R) : RT :=
  if is_mono o then o
  else mkRT (I0 o) (geometry o) (gt_0 o) (gp_0 o) v (gp_ex o) (V o) (SRF o) (bsf o)
            (param_dict o) (nmax o) (cache_mu_0_x o) (cache_mu_ex_x o).
(** rt1.py 435-444 *)
Definition set_p_ex (o : RT) (v : R) : RT :=
  if is_mono o then o
  else mkRT (I0 o) (geometry o) (gt_0 o) (gp_0 o) (gt_ex o) v (V o) (SRF o) (bsf o)
            (param_dict o) (nmax o) (cache_mu_0_x o) (cache_mu_ex_x o).

(** plain attribute assignments [R.V.tau = v], [R.V.omega = v], [R.SRF.NormBRDF = v],
    [R.bsf = v], [R.param_dict[k] = v] (rt1.py 149, 154, 157, 169; volume.py 17-18;
    surface.py 24) *)
Definition set_V (o : RT) (v : Vobj) : RT :=
  mkRT (I0 o) (geometry o) (gt_0 o) (gp_0 o) (gt_ex o) (gp_ex o) v (SRF o) (bsf o)
       (param_dict o) (nmax o) (cache_mu_0_x o) (cache_mu_ex_x o).
(** [R.SRF = v], rt1.py 157 *)
Definition set_SRF (o : RT) (v : SRFobj) : RT :=
  mkRT (I0 o) (geometry o) (gt_0 o) (gp_0 o) (gt_ex o) (gp_ex o) (V o) v (bsf o)
       (param_dict o) (nmax o) (cache_mu_0_x o) (cache_mu_ex_x o).
(** [R.V.tau = v], volume.py 17 *)
Definition set_tau (o : RT) (v : R) : RT := set_V o (mkV v (omega (V o)) (p (V o))).
(** [R.V.omega = v], volume.py 18 *)
Definition set_omega (o : RT) (v : R) : RT := set_V o (mkV (tau (V o)) v (p (V o))).
(** [R.SRF.NormBRDF = v], surface.py 24 *)
Definition set_NormBRDF (o : RT) (v : R) : RT := set_SRF o (mkSRF v (brdf (SRF o))).
(** [R.bsf = v], rt1.py 169 *)
Definition set_bsf (o : RT) (v : R) : RT :=
  mkRT (I0 o) (geometry o) (gt_0 o) (gp_0 o) (gt_ex o) (gp_ex o) (V o) (SRF o) v
       (param_dict o) (nmax o) (cache_mu_0_x o) (cache_mu_ex_x o).
(** [R.param_dict[k] = v], rt1.py 149 *)
Definition set_param (o : RT) (k : string) (v : R) : RT :=
  mkRT (I0 o) (geometry o) (gt_0 o) (gp_0 o) (gt_ex o) (gp_ex o) (V o) (SRF o) (bsf o)
       (dset string_dec k v (param_dict o)) (nmax o) (cache_mu_0_x o) (cache_mu_ex_x o).

(** BRDF and phase function at the current geometry: the calls in rt1.py 737-744,
    941-947 *)
Definition brdf_val (o : RT) : R := brdf (SRF o) (param_dict o) (t_0 o) (t_ex o) (p_0 o) (p_ex o).
(** rt1.py 941-947 *)
Definition p_val (o : RT) : R := p (V o) (param_dict o) (t_0 o) (t_ex o) (p_0 o) (p_ex o).

(** rt1.py 722-748 *)
Definition surface (o : RT) : R :=
  let I_bs := I0 o * mu_0 o * brdf_val o in
  let Isurf := exp (- (tau (V o) / mu_0 o) - (tau (V o) / mu_ex o)) * I_bs in
  NormBRDF (SRF o) * ((1 - bsf o) * Isurf + bsf o * I_bs).

(** rt1.py 770-806: [I_slope] of [surface_slope] *)
Definition surface_I_slope (o : RT) : R :=
  let brdf_slope := brdf_theta_diff (SRF o) (param_dict o) (t_0 o) (p_0 o) 1 in
  let brdf_val := brdf_val o in
  let I_vegs_slope :=
    I0 o * exp (- (2 * tau (V o) / mu_0 o))
    * (mu_0 o * brdf_slope - (2 * tau (V o) / mu_0 o + 1) * sin (t_0 o) * brdf_val) in
  let I_bs_slope := I0 o * (mu_0 o * brdf_slope - sin (t_0 o) * brdf_val) in
  NormBRDF (SRF o) * ((1 - bsf o) * I_vegs_slope + bsf o * I_bs_slope).

(** rt1.py 750-817 *)
Definition surface_slope (dB sig0 : bool) (o : RT) : R :=
  let I_slope := surface_I_slope o in
  let I_val := surface o in
  match sig0, dB with
  | false, false => I_slope
  | true, false => 4 * PI * (mu_0 o * I_slope - sin (t_0 o) * I_val)
  | false, true => 10 / ln 10 * I_slope / I_val
  | true, true => 10 / ln 10 * (I_slope / I_val - tan (t_0 o))
  end.

(** rt1.py 839-900: [I_curv] of [surface_curv] *)
Definition surface_I_curv (o : RT) : R :=
  let brdf_curv := brdf_theta_diff (SRF o) (param_dict o) (t_0 o) (p_0 o) 2 in
  let brdf_slope := brdf_theta_diff (SRF o) (param_dict o) (t_0 o) (p_0 o) 1 in
  let brdf_val := brdf_val o in
  let I_vegs_curv :=
    I0 o * exp (- (2 * tau (V o) / mu_0 o))
    * (mu_0 o * brdf_curv
       - 2 * sin (t_0 o) * brdf_slope * (2 * tau (V o) / mu_0 o + 1)
       + (4 * tau (V o) ^ 2 / mu_0 o ^ 3 * sin (t_0 o) ^ 2 - 2 * tau (V o) - mu_0 o)
         * brdf_val) in
  let I_bs_curv :=
    I0 o * (mu_0 o * brdf_curv - 2 * sin (t_0 o) * brdf_slope - mu_0 o * brdf_val) in
  NormBRDF (SRF o) * ((1 - bsf o) * I_vegs_curv + bsf o * I_bs_curv).

(** rt1.py 819-924 *)
Definition surface_curv (dB sig0 : bool) (o : RT) : R :=
  let I_curv := surface_I_curv o in
  let I_slope := surface_slope false false o in
  let I_val := surface o in
  match sig0, dB with
  | false, false => I_curv
  | true, false => 4 * PI * (mu_0 o * I_curv - 2 * sin (t_0 o) * I_slope - mu_0 o * I_val)
  | false, true => 10 / ln 10 * (I_curv / I_val - I_slope ^ 2 / I_val ^ 2)
  | true, true => 10 / ln 10 * (I_curv / I_val - I_slope ^ 2 / I_val ^ 2 - / (mu_0 o ^ 2))
  end.

(** rt1.py 926-949 *)
Definition volume (o : RT) : R :=
  let vol := (I0 o * omega (V o) * mu_0 o / (mu_0 o + mu_ex o))
             * (1 - exp (- (tau (V o) / mu_0 o) - (tau (V o) / mu_ex o)))
             * p_val o in
  (1 - bsf o) * vol.

(** rt1.py 971-1010 *)
Definition volume_I_slope (o : RT) : R :=
  let p_slope := p_theta_diff (V o) (param_dict o) (t_0 o) (p_0 o) 1 in
  let p_val := p_val o in
  (1 - bsf o) * I0 o * omega (V o) / 2
  * ((exp (- (2 * tau (V o) / mu_0 o)) * 2 * tau (V o) * sin (t_0 o) / mu_0 o ^ 2) * p_val
     + (1 - exp (- (2 * tau (V o) / mu_0 o))) * p_slope).

(** rt1.py 951-1022 *)
Definition volume_slope (dB sig0 : bool) (o : RT) : R :=
  let I_slope := volume_I_slope o in
  let I_val := volume o in
  match sig0, dB with
  | false, false => I_slope
  | true, false => 4 * PI * (mu_0 o * I_slope - sin (t_0 o) * I_val)
  | false, true => 10 / ln 10 * I_slope / I_val
  | true, true => 10 / ln 10 * (I_slope / I_val - tan (t_0 o))
  end.

(** rt1.py 1045-1100 *)
Definition volume_I_curv (o : RT) : R :=
  let p_curv := p_theta_diff (V o) (param_dict o) (t_0 o) (p_0 o) 2 in
  let p_slope := p_theta_diff (V o) (param_dict o) (t_0 o) (p_0 o) 1 in
  let p_val := p_val o in
  (1 - bsf o) * I0 o * omega (V o) / 2
  * (exp (- (2 * tau (V o) / mu_0 o)) * (2 * tau (V o) / mu_0 o ^ 3)
     * (sin (t_0 o) ^ 2 + 1 - 2 * tau (V o) / mu_0 o * sin (t_0 o) ^ 2)
     * p_val
     + (exp (- (2 * tau (V o) / mu_0 o)) * 4 * tau (V o) / mu_0 o ^ 2 * sin (t_0 o)) * p_slope
     + (1 - exp (- (2 * tau (V o) / mu_0 o))) * p_curv).

(** rt1.py 1024-1124 *)
Definition volume_curv (dB sig0 : bool) (o : RT) : R :=
  let I_curv := volume_I_curv o in
  let I_slope := volume_slope false false o in
  let I_val := volume o in
  match sig0, dB with
  | false, false => I_curv
  | true, false => 4 * PI * (mu_0 o * I_curv - 2 * sin (t_0 o) * I_slope - mu_0 o * I_val)
  | false, true => 10 / ln 10 * (I_curv / I_val - I_slope ^ 2 / I_val ^ 2)
  | true, true => 10 / ln 10 * (I_curv / I_val - I_slope ^ 2 / I_val ^ 2 - / (mu_0 o ^ 2))
  end.

(** rt1.py 1126-1161 *)
Definition tot_slope (dB sig0 : bool) (o : RT) : R :=
  let I_slope := volume_slope false false o + surface_slope false false o in
  let I_val := volume o + surface o in
  match sig0, dB with
  | false, false => I_slope
  | true, false => 4 * PI * (mu_0 o * I_slope - sin (t_0 o) * I_val)
  | false, true => 10 / ln 10 * I_slope / I_val
  | true, true => 10 / ln 10 * (I_slope / I_val - tan (t_0 o))
  end.

(** rt1.py 1163-1213 *)
Definition tot_curv (dB sig0 : bool) (o : RT) : R :=
  let I_curv := volume_curv false false o + surface_curv false false o in
  let I_slope := volume_slope false false o + surface_slope false false o in
  let I_val := volume o + surface o in
  match sig0, dB with
  | false, false => I_curv
  | true, false => 4 * PI * (mu_0 o * I_curv - 2 * sin (t_0 o) * I_slope - mu_0 o * I_val)
  | false, true => 10 / ln 10 * (I_curv / I_val - I_slope ^ 2 / I_val ^ 2)
  | true, true => 10 / ln 10 * (I_curv / I_val - I_slope ^ 2 / I_val ^ 2 - / (mu_0 o ^ 2))
  end.

(** ** Jacobian *)

(** rt1.py 1363-1384; note [1.0 / self._mu_ex ** (-1)] in line 1378: Python's [**] binds
    tighter than [/], the term is 1 / (mu_ex^-1) *)
Definition dvolume_dtau (o : RT) : R :=
  let dvdt := I0 o * omega (V o) * (mu_0 o / (mu_0 o + mu_ex o))
              * ((1 / mu_0 o + 1 / (/ mu_ex o))
                 * exp (- tau (V o) / mu_0 o - tau (V o) / mu_ex o))
              * p_val o in
  (1 - bsf o) * dvdt.

(** rt1.py 1386-1402 *)
Definition dvolume_domega (o : RT) : R :=
  let dvdo := (I0 o * mu_0 o / (mu_0 o + mu_ex o))
              * (1 - exp (- (tau (V o) / mu_0 o) - (tau (V o) / mu_ex o)))
              * p_val o in
  (1 - bsf o) * dvdo.

(** rt1.py 1404-1426 *)
Definition dvolume_dbsf (o : RT) : R :=
  let vol := (I0 o * omega (V o) * mu_0 o / (mu_0 o + mu_ex o))
             * (1 - exp (- (tau (V o) / mu_0 o) - (tau (V o) / mu_ex o)))
             * p_val o in
  - vol.

(** rt1.py 1428-1441 *)
Definition dvolume_dR (o : RT) : R := 0.

(** rt1.py 1443-1464 *)
Definition dsurface_dtau (o : RT) : R :=
  let dsdt := I0 o * (- 1 / mu_0 o - 1 / mu_ex o)
              * exp (- tau (V o) / mu_0 o - tau (V o) / mu_ex o)
              * mu_0 o * brdf_val o in
  NormBRDF (SRF o) * (1 - bsf o) * dsdt.

(** rt1.py 1466-1478 *)
Definition dsurface_domega (o : RT) : R := 0.

(** rt1.py 1480-1505 *)
Definition dsurface_dR (o : RT) : R :=
  let I_bs := I0 o * mu_0 o * brdf_val o in
  let Isurf := exp (- (tau (V o) / mu_0 o) - (tau (V o) / mu_ex o)) * I_bs in
  (1 - bsf o) * Isurf + bsf o * I_bs.

(** rt1.py 1507-1537 *)
Definition dsurface_dbsf (o : RT) : R :=
  let I_bs := I0 o * mu_0 o * brdf_val o in
  let Isurf := exp (- (tau (V o) / mu_0 o) - (tau (V o) / mu_ex o)) * I_bs in
  NormBRDF (SRF o) * (I_bs - Isurf).

(** rt1.py 1539-1568: value of the lambdified derivative of the BRDF expression with respect
    to the symbol [key], evaluated at the current angles and parameters.  Simplified: the
    memoisation of the lambdified function is not modelled (it depends only on the
    expression). *)
Definition d_surface_dummy (key : string) (o : RT) : R :=
  match dget string_dec key (param_dict o) with
  | Some v => Derive (fun x => brdf (SRF o) (dset string_dec key x (param_dict o))
                                    (t_0 o) (t_ex o) (p_0 o) (p_ex o)) v
  | None => 0
  end.

(** rt1.py 1570-1585 *)
Definition d_volume_dummy (key : string) (o : RT) : R :=
  match dget string_dec key (param_dict o) with
  | Some v => Derive (fun x => p (V o) (dset string_dec key x (param_dict o))
                                 (t_0 o) (t_ex o) (p_0 o) (p_ex o)) v
  | None => 0
  end.

(** rt1.py 1587-1613 *)
Definition d_surface_ddummy (key : string) (o : RT) : R :=
  let dI_bs := I0 o * mu_0 o * d_surface_dummy key o in
  let dI_s := exp (- (tau (V o) / mu_0 o) - (tau (V o) / mu_ex o)) * dI_bs in
  NormBRDF (SRF o) * ((1 - bsf o) * dI_s + bsf o * dI_bs).

(** rt1.py 1615-1628 *)
Definition d_volume_ddummy (key : string) (o : RT) : R :=
  let dIvol := I0 o * omega (V o) * mu_0 o / (mu_0 o + mu_ex o)
               * (1 - exp (- (tau (V o) / mu_0 o) - (tau (V o) / mu_ex o)))
               * d_volume_dummy key o in
  (1 - bsf o) * dIvol.

(** rt1.py 1675-1680 *)
Definition jac_norm (dB sig0 : bool) (o : RT) : R :=
  if andb sig0 (negb dB) then 4 * PI * cos (t_0 o)
  else if dB then 10 / (ln 10 * (surface o + volume o))
  else 1.

(** rt1.py 1683-1701, one entry *)
Definition jac_entry (dB sig0 : bool) (o : RT) (key : string) : res R :=
  let norm := jac_norm dB sig0 o in
  if String.eqb key "omega" then Ok ((dsurface_domega o + dvolume_domega o) * norm)
  else if String.eqb key "tau" then Ok ((dsurface_dtau o + dvolume_dtau o) * norm)
  else if String.eqb key "NormBRDF" then Ok ((dsurface_dR o + dvolume_dR o) * norm)
  else if String.eqb key "bsf" then Ok ((dsurface_dbsf o + dvolume_dbsf o) * norm)
  else if dmem string_dec key (param_dict o)
       then Ok ((d_surface_ddummy key o + d_volume_ddummy key o) * norm)
  else Err AssertionError.

(** rt1.py 1630-1703 *)
Definition jacobian (dB sig0 : bool) (o : RT) (param_list : list string) : res (list R) :=
  mapM (jac_entry dB sig0 o) param_list.

(** ** calc, rt1.py 660-720 *)

(** A float that may be NaN ([None]). *)
Definition fl := option R.
(** NaN propagation through a binary operation (rt1.py 660-720) *)
Definition flift2 (f : R -> R -> R) (x y : fl) : fl :=
  match x, y with Some a, Some b => Some (f a b) | _, _ => None end.

(** rt1.py 1215-1240; the two factors [F1], [F2] are the results of [_calc_Fint_1] and
    [_calc_Fint_2] (modelled in Int_Model.v), possibly NaN. *)
Definition interaction (o : RT) (F1 F2 : fl) : fl :=
  flift2 (fun f1 f2 =>
    NormBRDF (SRF o) * (1 - bsf o)
    * (I0 o * mu_0 o * omega (V o)
       * (exp (- tau (V o) / mu_ex o) * f1 + exp (- tau (V o) / mu_0 o) * f2))) F1 F2.

(** the tuple returned by [calc]; the interaction entry is absent if [int_Q] is False *)
Record calc_out := mkOut { o_tot : fl; o_surf : R; o_vol : R; o_int : option fl }.

(** float addition with NaN (rt1.py 715) *)
Definition fadd (x y : fl) : fl := flift2 Rplus x y.

(** rt1.py 715-718 *)
Definition mk_calc (int_Q : bool) (Isurf Ivol : R) (Iint : fl) : calc_out :=
  if int_Q then mkOut (fadd (Some (Isurf + Ivol)) Iint) Isurf Ivol (Some Iint)
  else mkOut (Some (Isurf + Ivol)) Isurf Ivol None.

(** rt1.py 678-691: [tau] is a Python int or float *)
Definition calc_scalar (int_Q : bool) (o : RT) (F1 F2 : fl) : calc_out :=
  let Isurf := surface o in
  if Rlt_dec 0 (tau (V o)) then
    let Ivol := volume o in
    let Iint := if int_Q then interaction o F1 F2 else Some 0 in
    mk_calc int_Q Isurf Ivol Iint
  else mk_calc int_Q Isurf 0 (Some 0).

(** [np.isnan], rt1.py 704 *)
Definition is_nan (x : fl) : bool := match x with None => true | Some _ => false end.
(** [self.V.tau == 0.0], rt1.py 706 *)
Definition Reqb (x y : R) : bool := if Req_EM_T x y then true else false.

(** rt1.py 692-713: [tau] is an array.  Each element is given by its object (with the
    broadcast parameters) and its two factors.  [np.allclose] of two boolean arrays is
    equality. *)
Definition calc_array (int_Q : bool) (l : list (RT * (fl * fl))) : list calc_out :=
  let raw := map (fun x => interaction (fst x) (fst (snd x)) (snd (snd x))) l in
  let wherenan := map is_nan raw in
  let tau0 := map (fun x => Reqb (tau (V (fst x))) 0) l in
  let replace := andb (existsb (fun b => b) wherenan)
                      (if list_eq_dec bool_dec wherenan tau0 then true else false) in
  map (fun xi => let '(x, i) := xi in
                 let i' := if andb replace (is_nan i) then Some 0 else i in
                 mk_calc int_Q (surface (fst x)) (volume (fst x)) i')
      (combine l raw).

(** ** memoised cosine powers, rt1.py 1326-1338 ([property] + [lru_cache]) *)
Definition mu_powers (mu : R) (n : nat) : list R := map (fun k => mu ^ (k + 1)) (seq 0 n).

(** rt1.py 1326-1331 *)
Definition get_mu_0_x (o : RT) : list R * RT :=
  match cache_mu_0_x o with
  | Some l => (l, o)
  | None => let l := mu_powers (mu_0 o) (nmax o) in
            (l, mkRT (I0 o) (geometry o) (gt_0 o) (gp_0 o) (gt_ex o) (gp_ex o) (V o) (SRF o)
                     (bsf o) (param_dict o) (nmax o) (Some l) (cache_mu_ex_x o))
  end.
(** rt1.py 1333-1338 *)
Definition get_mu_ex_x (o : RT) : list R * RT :=
  match cache_mu_ex_x o with
  | Some l => (l, o)
  | None => let l := mu_powers (mu_ex o) (nmax o) in
            (l, mkRT (I0 o) (geometry o) (gt_0 o) (gp_0 o) (gt_ex o) (gp_ex o) (V o) (SRF o)
                     (bsf o) (param_dict o) (nmax o) (cache_mu_0_x o) (Some l))
  end.

(** [_clear_cache], rt1.py 235-239 *)
Definition clear_cache (o : RT) : RT :=
  mkRT (I0 o) (geometry o) (gt_0 o) (gp_0 o) (gt_ex o) (gp_ex o) (V o) (SRF o) (bsf o)
       (param_dict o) (nmax o) None None.

(** [__init__], rt1.py 124-200 (after the assertions): in monostatic geometry the exit angles
    are not stored (164-166); the slots hold an irrelevant value. *)
Definition init (i0 t0 tex p0 pex : R) (v : Vobj) (s : SRFobj) (geom : string) (b : R)
                (pd : pdict) (n : nat) : RT :=
  mkRT i0 geom t0 p0 (if String.eqb geom "mono" then 0 else tex)
       (if String.eqb geom "mono" then 0 else pex) v s b pd n None None.

(** geometry operations of a user; [OpInteraction] stands for an evaluation of
    [interaction()] (or [calc()]), which reads both memoised lists. *)
Inductive geo_op :=
| OpT0 (v : R) | OpTex (v : R) | OpP0 (v : R) | OpPex (v : R) | OpInteraction | OpClear.

(** effect of one user operation (setters 391-444, interaction 1215, _clear_cache 235 of rt1.py) *)
Definition geo_step (o : RT) (op : geo_op) : RT :=
  match op with
  | OpT0 v => set_t_0 o v
  | OpTex v => set_t_ex o v
  | OpP0 v => set_p_0 o v
  | OpPex v => set_p_ex o v
  | OpInteraction => snd (get_mu_ex_x (snd (get_mu_0_x o)))
  | OpClear => clear_cache o
  end.
(** a history of user operations on one RT1 object (rt1.py 388-444) *)
Definition geo_run (o : RT) (ops : list geo_op) : RT := fold_left geo_step ops o.
