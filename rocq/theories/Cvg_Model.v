(** Model of the Legendre expansions of the shipped scattering functions as they enter the
    interaction term: the objects of Shp_Model with their argument [ncoefs]. *)
From Coq Require Import Reals List.
From Verif Require Import Base RT_Model Sca_Model Int_Model Shp_Model.
Import ListNotations.
Local Open Scope R_scope.

(** [legcoefs] with the values of the parameters: volume.py 639-655, 728-737, 812-845 *)
Definition velem_coefs (pd : pdict) (e : velem) : nat -> R :=
  match e with
  | VRay _ => rayleigh_coefs
  | VHG t _ => hgV_coefs (pnum pd t)
  | VHGR t _ => hgray_coefs (pnum pd t)
  end.
(** surface.py 604-612, 667-688, 767-775, 888-913 *)
Definition selem_coefs (pd : pdict) (e : selem) : nat -> R :=
  match e with
  | SIso _ => iso_coefs
  | SCos i _ => coslobe_coefs i
  | SHG t _ => hgS_coefs (pnum pd t)
  | SHGN t a => hgnadir_coefs (pnum pd t) a
  end.

(** [ncoefs]: fixed for Rayleigh (volume.py 622-626), otherwise the argument of the constructor
    (volume.py 685-698, 775-788).  Simplified: all elements of a combination get the same one *)
Definition velem_ncoefs (N : nat) (e : velem) : nat :=
  match e with VRay _ => rayleigh_ncoefs | _ => N end.
(** fixed for Isotropic (surface.py 595-600), otherwise the argument of the constructor (surface.py
    640-665, 738-752, 804-822) *)
Definition selem_ncoefs (N : nat) (e : selem) : nat :=
  match e with SIso _ => iso_ncoefs | _ => N end.

(** an element of a combination as seen by volume.py 493-591 *)
Definition vchoice (pd : pdict) (N : nat) (c : par * velem) : choice :=
  Choice (pnum pd (fst c)) (velem_a (snd c)) (velem_ncoefs N (snd c)) (velem_coefs pd (snd c))
         (velem_func pd (snd c)).
(** surface.py 476-575 *)
Definition schoice (pd : pdict) (N : nat) (c : par * selem) : choice :=
  Choice (pnum pd (fst c)) (selem_a (snd c)) (selem_ncoefs N (snd c)) (selem_coefs pd (snd c))
         (selem_func pd (snd c)).

(** the object as used by rt1.py 517-573: volume.py 439-446 and 561-584 (after
    [_set_legexpansion], see C72) *)
Definition v_obj (pd : pdict) (N : nat) (v : vfun) : sobj :=
  match v with
  | VOne e => plain_obj (velem_ncoefs N e) (velem_coefs pd e) (velem_a e)
  | VLin cs => comb_obj (map (vchoice pd N) cs) default_a_V
  end.
(** surface.py 266-270, 545-569 *)
Definition s_obj (pd : pdict) (N : nat) (s : sfun) : sobj :=
  match s with
  | SOne e => plain_obj (selem_ncoefs N e) (selem_coefs pd e) (selem_a e)
  | SLin cs => comb_obj (map (schoice pd N) cs) default_a_S
  end.
