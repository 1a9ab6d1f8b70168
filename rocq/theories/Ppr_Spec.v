(** Specification: the final output of a feature *)
From Coq Require Import String List Bool.
From Verif Require Import Base Ppr_Model.
Import ListNotations.

Section PprSpec.
Context {F N T : Type}.
(** the result has exactly these configs, each with the return of the function for the fit of this config, and the reader_arg *)
Definition output_of (p : pfunc F N T) (cfgs : list (string * fit F N)) (ret : dict string (entry T)) : Prop :=
  (forall n, In n (keys ret) <-> In n (map fst cfgs) \/ n = "const__reader_arg"%string) /\
  (forall n f, In (n, f) cfgs -> exists v, p_one p f = Ok v /\ dget string_dec n ret = Some (ByConfig v)) /\
  dget string_dec "const__reader_arg"%string ret = Some ReaderArg.
(** the function succeeds for these fits *)
Definition works (p : pfunc F N T) (cfgs : list (string * fit F N)) : Prop := forall n f, In (n, f) cfgs -> exists v, p_one p f = Ok v.
(** no config is called like the table of the arguments *)
Definition plain (cfgs : list (string * fit F N)) : Prop := ~ In "const__reader_arg"%string (map fst cfgs).
End PprSpec.
