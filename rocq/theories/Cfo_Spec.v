(** Specification vocabulary for C159 *)
From Coq Require Import ZArith QArith Bool String Ascii List Permutation.
From Verif Require Import Base Con_Model Cfg_Model Ids_Model Mf_Model Mf_Spec Cfo_Model.
Import ListNotations.
Local Open Scope string_scope.
Local Open Scope list_scope.

(** the value of an entry of fits_kwargs, or the documented default *)
Definition setting (kw : dict string val) (k : string) (d v : val) : Prop :=
  (In k (keys kw) -> dget string_dec k kw = Some v) /\ (~ In k (keys kw) -> v = d).

(** [f] is the fit described by a configuration *)
Record configured (backend : val) (cfg : config) (f : fits) : Prop := mkcd {
  cd_sig0 : setting (c_fits cfg) "sig0" (VBool false) (o_sig0 f);
  cd_dB : setting (c_fits cfg) "dB" (VBool false) (o_dB f);
  cd_intQ : setting (c_fits cfg) "int_Q" (VBool true) (o_int_Q f);
  cd_verbose : setting (c_fits cfg) "verbose" (VNum 2) (o_verbose f);
  cd_fnevals : setting (c_fits cfg) "_fnevals_input" VNone (o_fnevals f);
  cd_backend : exists b, setting (c_fits cfg) "lambda_backend" VNone b /\ (b <> VNone -> o_lambda f = b) /\ (b = VNone -> o_lambda f = backend);
  cd_ID : exists s, setting (c_fits cfg) "ID" (VStr "RT1_fit") s /\ forall t, s = VStr t -> isidentifier t = true -> o_ID f = t;
  cd_model : o_V f = c_V cfg /\ o_SRF f = c_SRF cfg /\ o_lsq f = c_lsq cfg;
  cd_defdict : from_dict (c_defdict cfg) = Ok (o_defdict f);
  cd_dataset : o_dataset f = VNone }.

(** a traversal of sets: every element once *)
Definition traversal (order : list string -> list string) : Prop := forall l, NoDup l -> Permutation (order l) l.

(** parameters of Fits that can be set in the section fits_kwargs *)
Definition known : list string := ["sig0"; "dB"; "int_Q"; "lambda_backend"; "_fnevals_input"; "verbose"; "ID"].
