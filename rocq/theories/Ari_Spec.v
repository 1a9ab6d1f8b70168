(** Specification for C217. *)
From Coq Require Import Reals List.
From Verif Require Import Base RT_Model Int_Model Arr_Model Arr_Spec.
Import ListNotations.
Local Open Scope R_scope.

(** the shapes of everything the interaction term depends on *)
Definition interaction_shapes (o : aobj) : list (list nat) :=
  map shape ([a_I0 o; a_N o; a_bsf o; a_omega o; a_tau o; a_t0 o; a_tex o; a_p0 o; a_pex o] ++ map snd (a_params o)).
(** the compiled coefficients are those of the scattering functions [V], [S] of each element (C22, C23), evaluated with the
    parameters of this element *)
Definition coefficients (o : aobj) (fn : list func) (V S : list nat -> sobj) (g : geom) : Prop :=
  List.Forall respects fn /\
  forall ix, (ncoefs (V ix) + ncoefs (S ix) - 1)%nat = List.length fn /\
    forall t1 p1 t2 p2, fnevals (V ix) (S ix) g t1 p1 t2 p2 = Ok (map (fun f => f_val f (t1 :: p1 :: t2 :: p2 :: map (fun a => element (snd a) ix) (a_params o))) fn).
(** the coefficients of two scattering functions as functions of the angles *)
Definition coef (V S : sobj) (g : geom) (k : nat) : func :=
  mkfunc (fun l => match fnevals V S g (nth 0 l 0) (nth 1 l 0) (nth 2 l 0) (nth 3 l 0) with Ok c => nth k c 0 | Err _ => 0 end) [true; true; true; true].
