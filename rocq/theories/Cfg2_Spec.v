(** Specification vocabulary for the checks and conversions of the
    configuration files (C104, C105). *)
From Coq Require Import List Arith ZArith QArith Bool String Ascii.
From Verif Require Import Base Str_Model Con_Model Cfg_Model Cfg_Spec.
Import ListNotations.
Open Scope string_scope.

(** what a usable configuration file contains *)
Definition required_sections : list string :=
  ["PROCESS_SPECS"; "CONFIGFILES"; "fits_kwargs"; "least_squares_kwargs"; "defdict"; "RT1_V"; "RT1_SRF"].
Definition has_entry (ini : inifile) (sec key : string) (v : option string) : Prop :=
  exists s, dget string_dec sec ini = Some s /\ dget string_dec key s = Some v.
Definition lacks_entry (ini : inifile) (sec key : string) : Prop :=
  forall v, ~ has_entry ini sec key v.

Inductive usable (ini : inifile) : Prop :=
| usable_intro : forall module v v1 v2,
    (forall s, In s required_sections -> In s (keys ini)) ->
    has_entry ini "PROCESS_SPECS" "path__save_path" v1 ->
    has_entry ini "PROCESS_SPECS" "dumpfolder" v2 ->
    (* the module whose location must be given: the one named, else processing_cfg *)
    has_entry ini "CONFIGFILES" "processing_cfg_module" (Some module) \/
      (lacks_entry ini "CONFIGFILES" "processing_cfg_module" /\ module = "processing_cfg") ->
    has_entry ini "CONFIGFILES" ("module__" ++ module) v ->
    usable ini.

(** [s] is the word [w] in any mixture of lower and upper case letters *)
Fixpoint spells (w s : string) : Prop :=
  match w, s with
  | EmptyString, EmptyString => True
  | String d w', String c s' =>
      (c = d \/ exists k, (k < 26)%nat /\ c = ascii_of_nat (65 + k) /\ d = ascii_of_nat (97 + k)) /\ spells w' s'
  | _, _ => False
  end.

(** the truth values of a configuration file *)
Definition true_words : list string := ["1"; "yes"; "true"; "on"].
Definition false_words : list string := ["0"; "no"; "false"; "off"].
Definition means (s : string) (b : bool) : Prop :=
  exists w, In w (if b then true_words else false_words) /\ spells w s.

(** how the values of the two argument sections are to be read *)
Record kinds : Type := mkkinds { ints : list string; floats : list string; bools : list string }.
Definition argument_kinds : list (string * (config -> dict string val) * kinds) :=
  [("least_squares_kwargs", c_lsq, mkkinds ["verbose"; "max_nfev"] ["ftol"; "gtol"; "xtol"] []);
   ("fits_kwargs", c_fits, mkkinds ["verbose"] [] ["sig0"; "dB"; "int_Q"])].

Inductive argument (pfloat : string -> option Q) (pint : string -> option Z) (kd : kinds)
  : string -> option string -> val -> Prop :=
| arg_int : forall k s z, In k (ints kd) -> pint s = Some z ->
    argument pfloat pint kd k (Some s) (VNum (inject_Z z))
| arg_float : forall k s q, In k (floats kd) -> pfloat s = Some q ->
    argument pfloat pint kd k (Some s) (VNum q)
| arg_bool : forall k s b, In k (bools kd) -> means s b ->
    argument pfloat pint kd k (Some s) (VBool b)
| arg_text : forall k s, ~ In k (ints kd ++ floats kd ++ bools kd) -> s <> "None" ->
    argument pfloat pint kd k (Some s) (VStr s)
| arg_none : forall k s, ~ In k (ints kd ++ floats kd ++ bools kd) -> s = None \/ s = Some "None" ->
    argument pfloat pint kd k s VNone.
