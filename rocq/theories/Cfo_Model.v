(** Model of /repo/rt1/rtparse.py RT1_configparser.[get_fitobject] (434-478) and of the
    constructor of Fits as it is used there (/repo/rt1/rtfits.py 280-323).

    Simplifications: a Fits object is the record of the attributes that the constructor sets
    (without its plot-accessor and without caches); the deep copies of set_V_SRF and lsq_kwargs are
    the identity on values.  The order in which a Python set is traversed is a parameter. *)
From Coq Require Import ZArith QArith Bool Arith String Ascii List.
From Verif Require Import Base Str_Model Con_Model Cfg_Model Ids_Model Mf_Model.
Import ListNotations.
Local Open Scope string_scope.
Local Open Scope list_scope.

(** rtfits.py:296-323: the attributes set by Fits.__init__ *)
Record fits : Type := mkfits {
  o_sig0 : val; o_dB : val; o_dataset : val; o_defdict : defdict;
  o_V : dict string val; o_SRF : dict string val; o_lsq : dict string val;
  o_int_Q : val; o_lambda : val; o_fnevals : val; o_verbose : val; o_ID : string }.

(** rtfits.py:280-294: the parameters of Fits.__init__ that are passed explicitly by get_fitobject
    (and the bound one): a second value is a TypeError *)
Definition passed : list string := ["self"; "dataset"; "defdict"; "set_V_SRF"; "lsq_kwargs"].

(** an optional keyword argument *)
Definition arg (kw : dict string val) (k : string) (default : val) : val :=
  match dget string_dec k kw with Some v => v | None => default end.

(** str(ID), rtfits.py:423: an entry of the file is a string or None *)
Definition str_of (v : val) : string := match v with VStr s => s | _ => "None" end.

Section Cfo.
(** Python's float(s) and int(s), rt1._init_lambda_backend, and the traversal of a set *)
Variable pfloat : string -> option Q.
Variable pint : string -> option Z.
Variable backend : val.
Variable order : list string -> list string.

(** rtparse.py:442-448 with rtfits.py:280-323: Fits(dataset=None, defdict=cfg["defdict"], ..., **cfg["fits_kwargs"]);
    any other keyword is collected in **kwargs and not used *)
Definition make_fits (cfg : config) : res fits :=
  let kw := c_fits cfg in
  if existsb (fun k => dmem string_dec k kw) passed then Err TypeError else
  do dd <- from_dict (c_defdict cfg);                                   (* 322-323, 329-341 *)
  Ok (mkfits (arg kw "sig0" (VBool false)) (arg kw "dB" (VBool false)) VNone dd
             (c_V cfg) (c_SRF cfg) (c_lsq cfg) (arg kw "int_Q" (VBool true))
             (match arg kw "lambda_backend" VNone with VNone => backend | b => b end)   (* 306-309 *)
             (arg kw "_fnevals_input" VNone) (arg kw "verbose" (VNum 2))
             (get_ID (str_of (arg kw "ID" (VStr "RT1_fit"))))).          (* 421-428 *)

(** the returned object: a Fits object, or a MultiFits object whose fit objects are the numbers in the list [heap] *)
Inductive fitobject : Type := Single (f : fits) | Multi (m : multi) (heap : list fits).

(** rtparse.py:438-449: the loop over the configurations *)
Fixpoint build (ini : inifile) (names : list string) (m : multi) (heap : list fits) : res fitobject :=
  match names with
  | [] => Ok (Multi m heap)
  | n :: r =>
      do cfg <- get_config pfloat pint ini (Some n);
      do f <- make_fits cfg;
      do m' <- add_config m n (List.length heap);
      build ini r m' (heap ++ [f])
  end.

(** rtparse.py:434-478 [get_fitobject]; config_names is a set (409-432) *)
Definition get_fitobject (ini : inifile) : res fitobject :=
  do names <- config_names ini;
  match nodup string_dec names with
  | [] => do cfg <- get_config pfloat pint ini None; do f <- make_fits cfg; Ok (Single f)
  | l => build ini (order l) new_multi []
  end.

(** fitobject.configs[name] for a MultiFits object (rtfits.py:3142-3149) *)
Definition config_of (o : fitobject) (n : string) : res fits :=
  match o with
  | Single _ => Err AttributeError
  | Multi m heap => do x <- getitem_str m n;
      match x with Some i => match nth_error heap i with Some f => Ok f | None => Err AttributeError end | None => Err AttributeError end
  end.
(** fitobject.configs[k] (rtfits.py:3150-3158) *)
Definition config_nr (o : fitobject) (k : Z) : res fits :=
  match o with
  | Single _ => Err AttributeError
  | Multi m heap => do x <- getitem_int m k;
      match x with Some i => match nth_error heap i with Some f => Ok f | None => Err AttributeError end | None => Err AttributeError end
  end.
End Cfo.
