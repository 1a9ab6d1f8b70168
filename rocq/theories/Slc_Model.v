(** Model of /repo/rt1/rtfits.py [_calc_slope_curv] (2003-2138) for one observation, and of the value
    [_calc_model] (1715-1791) returns for it. *)
From Coq Require Import Reals String List Bool.
From Verif Require Import Base RT_Model Par_Model.
Import ListNotations.
Local Open Scope list_scope.
Local Open Scope R_scope.

(** the RT1 object with the numbers assigned to it (rtfits.py 1666-1712, 2051-2114); the angles are those of the
    observation *)
Definition with_values (o : RT) (v : values R) : RT :=
  mkRT (I0 o) (geometry o) (gt_0 o) (gp_0 o) (gt_ex o) (gp_ex o)
    (mkV (v_tau v) (v_omega v) (p (V o))) (mkSRF (v_N v) (brdf (SRF o))) (v_bsf v) (v_param v)
    (nmax o) (cache_mu_0_x o) (cache_mu_ex_x o).

(** rtfits.py 2092-2109: the keys that are not handed to the scattering functions *)
Definition slope_exclude (m : model R) : list string :=
  ["omega"; "tau"; "NormBRDF"; "bsf"]%string ++
  minus (minus (symbs R (m_tau m) ++ symbs R (m_omega m) ++ symbs R (m_N m)) (minus (m_Vsymb m) angset)) (minus (m_Ssymb m) angset).

(** rtfits.py 2047-2114; [r]: the result of [_assignvals], [old]: the numbers before *)
Definition slope_values (m : model R) (old : values R) (r fixed : list (string * R)) : res (values R) :=
  let r := dupdate string_dec r fixed in                                                     (* 2048 *)
  do om <- new_value R "omega"%string r (m_omega m) (v_omega old);                                  (* 2052-2062 *)
  do ta <- new_value R "tau"%string r (m_tau m) (v_tau old);                                        (* 2063-2073 *)
  do n <- new_value R "NormBRDF"%string r (m_N m) (v_N old);                                        (* 2074-2084 *)
  let b := match dget string_dec "bsf"%string r with Some v => v | None => v_bsf old end in         (* 2086-2087 *)
  Ok (mkvalues om ta n b (filter (fun kv => negb (inb string_dec (fst kv) (slope_exclude m))) r)).   (* 2111-2116 *)

(** rtfits.py 2003-2138: slopes and curvatures for one observation.  The derivatives of the scattering functions are
    lambdified with the names in param_dict (volume.py 137-308, surface.py 272-443): NameError as in an evaluation *)
Definition calc_slope_curv (m : model R) (dB sig0 comps : bool) (o : RT) (old : values R) (r fixed : list (string * R)) : res (list R * list R) :=
  do v <- slope_values m old r fixed;
  if negb (evaluable R m v) then Err NameError else
  let o := with_values o v in
  Ok (if comps then [tot_slope dB sig0 o; surface_slope dB sig0 o; volume_slope dB sig0 o] else [tot_slope dB sig0 o],       (* 2119-2126 *)
      if comps then [tot_curv dB sig0 o; surface_curv dB sig0 o; volume_curv dB sig0 o] else [tot_curv dB sig0 o]).          (* 2129-2136 *)

(** rtfits.py 1776-1791: the total of R.calc() in the units of the fit; [F1], [F2]: see [interaction] *)
Definition model_value (dB sig0 int_Q : bool) (o : RT) (F1 F2 : fl) : fl :=
  match o_tot (calc_scalar int_Q o F1 F2) with
  | None => None
  | Some x =>
      let x := if sig0 then 4 * PI * cos (t_0 o) * x else x in
      Some (if dB then 10 * (ln x / ln 10) else x)
  end.
