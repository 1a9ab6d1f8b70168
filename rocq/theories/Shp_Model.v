(** Model of RT1 objects built from the scattering functions shipped with the package
    (rt1/volume.py: Rayleigh, HenyeyGreenstein, HGRayleigh, LinCombV; rt1/surface.py: Isotropic,
    CosineLobe, HenyeyGreenstein, HG_nadirnorm, LinCombSRF) whose parameters are numbers or
    symbols. *)
From Coq Require Import Reals List String Bool.
From Verif Require Import Base RT_Model Sca_Model.
Import ListNotations.
Local Open Scope R_scope.

(** a parameter of a scattering function: a number or a [sp.Symbol] (volume.py 685-700,
    surface.py 738-752, 804-822); rt1.py 137, 149: the value of a symbol is an entry of
    [param_dict] *)
Inductive par := Num (x : R) | Sym (k : string).

(** value of a parameter, volume.py 123-135, surface.py 126-138 ([pfunc] is called with
    [**param_dict]); [None]: the symbol has no value, the call raises TypeError *)
Definition pval (pd : pdict) (q : par) : option R :=
  match q with Num x => Some x | Sym k => dget string_dec k pd end.

(** the same as a number.  Simplified: 0 for a symbol without value (TypeError in the code); every
    statement about it demands that [pval] is [Some _] *)
Definition pnum (pd : pdict) (q : par) : R := match pval pd q with Some x => x | None => 0 end.

(** elementary phase functions: volume.py 597-845 *)
Inductive velem := VRay (a : avec) | VHG (t : par) (a : avec) | VHGR (t : par) (a : avec).

(** elementary BRDFs: surface.py 578-913 *)
Inductive selem :=
  SIso (a : avec) | SCos (i : nat) (a : avec) | SHG (t : par) (a : avec) | SHGN (t : par) (a : avec).

(** [_func] with the values of the parameters, as a function of the scattering-angle cosine:
    volume.py 628-637, 707-720, 792-810 *)
Definition velem_x (pd : pdict) (e : velem) (x : R) : R :=
  match e with
  | VRay _ => rayleigh_func x
  | VHG t _ => hgV_func (pnum pd t) x
  | VHGR t _ => hgray_func (pnum pd t) x
  end.

(** surface.py 602-610, 690-709, 754-765, 824-855 *)
Definition selem_x (pd : pdict) (e : selem) (x : R) : R :=
  match e with
  | SIso _ => iso_func x
  | SCos i _ => coslobe_func i x
  | SHG t _ => hgS_func (pnum pd t) x
  | SHGN t a => hgnadir_func (pnum pd t) a x
  end.

(** the generalisation parameter of an element (attribute [a]), volume.py 24, 685-700 *)
Definition velem_a (e : velem) : avec := match e with VRay a | VHG _ a | VHGR _ a => a end.
(** surface.py 22, 640-665, 738-752, 804-822 *)
Definition selem_a (e : selem) : avec :=
  match e with SIso a | SCos _ a | SHG _ a | SHGN _ a => a end.

(** value of the elementary function for a geometry, volume.py 636, 716, 799 *)
Definition velem_func (pd : pdict) (e : velem) (t_0 t_ex p_0 p_ex : R) : R :=
  velem_x pd e (scat_angle t_0 t_ex p_0 p_ex (velem_a e)).
(** surface.py 708, 763, 832 *)
Definition selem_func (pd : pdict) (e : selem) (t_0 t_ex p_0 p_ex : R) : R :=
  selem_x pd e (scat_angle t_0 t_ex p_0 p_ex (selem_a e)).

(** a single element or a linear combination (volume.py 449-595, surface.py 446-575) of
    elements; the weighting-factors are numbers or symbols *)
Inductive vfun := VOne (e : velem) | VLin (cs : list (par * velem)).
(** surface.py 446-575 *)
Inductive sfun := SOne (e : selem) | SLin (cs : list (par * selem)).

(** volume.py 586-590: [Vcomb._func = Vcomb._func + V[1]._func * V[0]] *)
Definition vfun_func (v : vfun) (pd : pdict) (t_0 t_ex p_0 p_ex : R) : R :=
  match v with
  | VOne e => velem_func pd e t_0 t_ex p_0 p_ex
  | VLin cs => fold_left (fun acc c => acc + velem_func pd (snd c) t_0 t_ex p_0 p_ex
                                              * pnum pd (fst c)) cs 0
  end.
(** surface.py 571-574 *)
Definition sfun_func (s : sfun) (pd : pdict) (t_0 t_ex p_0 p_ex : R) : R :=
  match s with
  | SOne e => selem_func pd e t_0 t_ex p_0 p_ex
  | SLin cs => fold_left (fun acc c => acc + selem_func pd (snd c) t_0 t_ex p_0 p_ex
                                              * pnum pd (fst c)) cs 0
  end.

(** the volume object with these functions: volume.py 16-28, 87-135 *)
Definition mkVolume (ta om : R) (v : vfun) : Vobj := mkV ta om (vfun_func v).
(** surface.py 17-30, 89-138 *)
Definition mkSurface (N : R) (s : sfun) : SRFobj := mkSRF N (sfun_func s).
