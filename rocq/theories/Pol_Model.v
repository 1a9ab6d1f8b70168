(** Model of the polar plots of scattering functions: /repo/rt1/rtplots.py [polarplot] (37-262).
    What is drawn (the lines and the radial range) and what the call returns.  The scattering
    functions are those of Shp_Model with the expansions of Cvg_Model.  Not modelled: colours,
    labels, the legend, the arrows. *)
From Coq Require Import ZArith Reals List String Bool.
From Verif Require Import Base RT_Model Sca_Model Int_Model Shp_Model Cvg_Model Hem_Model.
Import ListNotations.
Local Open Scope R_scope.

(** the argument X with its [ncoefs]; [XOther]: a list or anything whose class is neither in
    rt1.surface nor in rt1.volume (125, 141) *)
Inductive plotted := XNone | XVol (N : nat) (v : vfun) | XSurf (N : nat) (s : sfun) | XOther.

(** the scattering angles that are shown (rtplots.py 135, 152) *)
Definition thetass (X : plotted) : list R :=
  match X with XSurf _ _ => arange (- PI / 2) (PI / 2) (1 / 100) | _ => arange 0 (2 * PI) (1 / 100) end.

(** [getattr(X, funcname)(t, ts, 0.0, 0.0, param_dict=params)] (rtplots.py 176-182, 193) *)
Definition value_at (X : plotted) (pd : pdict) (t ts : R) : R :=
  match X with
  | XVol _ v => vfun_func v pd t ts 0 0
  | XSurf _ s => sfun_func s pd t ts 0 0
  | _ => 0
  end.

(** the expansion at [angsub(ti)] (rtplots.py 131-133, 148-150, 160-165, 197-199) and phi_0 = phi_s = 0,
    for volumes as a function of (theta_0, theta_s), for surfaces of (theta_ex, theta_s);
    [LinCombV] objects have no [ncoefs] (volume.py 370, 500-504) *)
Definition approx_at (X : plotted) (pd : pdict) (ti ts : R) : res R :=
  match X with
  | XVol N (VOne e) => Ok (legexpansion_V (velem_coefs pd e) (velem_ncoefs N e) (velem_a e) (PI - ti) 0 ts 0)
  | XVol _ (VLin _) => Err AttributeError
  | XSurf N (SOne e) => Ok (legexpansion_S (selem_coefs pd e) (selem_ncoefs N e) (selem_a e) ts 0 ti 0)
  | XSurf N (SLin cs) => Ok (comb_legexpansion_S (map (schoice pd N) cs) ts 0 ti 0)
  | _ => Err UnboundLocalError
  end.

(** a line: incidence-angle (rad), angles, values, and the dashed line (rtplots.py 188-208) *)
Record line := mkline { l_inc : R; l_angles : list R; l_solid : list R; l_dashed : option (list R) }.
(** what is drawn: the lines and the upper end of the radial axis (rtplots.py 232) *)
Record drawn := mkdrawn { d_lines : list line; d_rmax : R }.

(** the ticks of the angular axis and their labels, in degrees (rtplots.py 221-230) *)
Definition angle_ticks : list (Z * Z) := combine [0; 45; 90; 125; 180]%Z [0; 45; 90; 135; 180]%Z.

(** [np.max] of the values of a function on the angles [np.arange(0, 2 pi, 0.01)] (rtplots.py 173-183) *)
Definition maxval (f : R -> R) : R :=
  match arange 0 (2 * PI) (1 / 100) with [] => 0 | t :: r => fold_left (fun m t => Rmax m (f t)) r (f t) end.

(** the lines for one incidence-angle (rtplots.py 190-208) *)
Definition draw_line (X : plotted) (aprox : bool) (pd : pdict) (ti : R) : res line :=
  do da <- (if aprox then do l <- mapM (approx_at X pd ti) (thetass X); Ok (Some l) else Ok None);
  Ok (mkline ti (thetass X) (map (value_at X pd ti) (thetass X)) da).

(** the body of the loop over param_dict (rtplots.py 158-235); [pmax] is the radial range so far *)
Definition draw_params (X : plotted) (aprox : bool) (multip : R) (inc : list R) (st : drawn * R) (pd : pdict) : res (drawn * R) :=
  let plottis := map deg2rad inc in
  do _ <- (if aprox then match approx_at X pd 0 0 with Ok _ => Ok tt | Err e => Err e end else Ok tt);     (* 160-165 *)
  let pmax := fold_left (fun p i => let p_i := multip * maxval (value_at X pd i) in if Rlt_dec p p_i then p_i else p) plottis (snd st) in
  do ls <- mapM (draw_line X aprox pd) plottis;
  Ok (mkdrawn (d_lines (fst st) ++ ls) (match plottis with [] => d_rmax (fst st) | _ => pmax * (12 / 10) end), pmax).

(** the loops (rtplots.py 156-235) *)
Fixpoint draw_all (X : plotted) (aprox : bool) (multip : R) (inc : list R) (st : drawn * R) (pds : list pdict) : res drawn :=
  match pds with
  | [] => Ok (fst st)
  | pd :: r => do st' <- draw_params X aprox multip inc st pd; draw_all X aprox multip inc st' r
  end.

(** the arguments: [axes] is None (no polarax) or whether the given axes are polar (116-120);
    [inc_list], [multip_float]: the checks of rtplots.py 103-108 *)
Record popts := mkopts { o_inc_list : bool; o_inc : list R; o_multip_float : bool; o_multip : R; o_aprox : bool;
  o_params : list pdict; o_axes : option bool }.

(** rtplots.py 103-262: what has been drawn before the call ends, and how it ends (Ok: the figure
    is returned).  Simplified: nothing counts as drawn if the loops fail *)
Definition polarplot (X : plotted) (o : popts) : option drawn * res unit :=
  if negb (o_inc_list o) then (None, Err AssertionError) else
  if negb (o_multip_float o) then (None, Err AssertionError) else
  match X, o_axes o with
  | XNone, _ => (None, Err AssertionError)                                  (* 110-111 *)
  | _, Some false => (None, Err AssertionError)                             (* 120 *)
  | _, _ =>
      match X, o_params o with
      | _, [] => (None, Err UnboundLocalError)                              (* 239: used_colors *)
      | XOther, _ => (None, Err UnboundLocalError)                          (* 160: angs, or 176: funcname *)
      | _, _ =>
          match draw_all X (o_aprox o) (o_multip o) (o_inc o) (mkdrawn [] 0, 0) (o_params o) with
          | Err e => (None, Err e)
          | Ok d => (Some d, match o_axes o with None => Ok tt | Some _ => Err UnboundLocalError end)   (* 262: fig *)
          end
      end
  end.
