(** Specification: which fits keep their groups of observations when the dataset is not stored. *)
From Coq Require Import ZArith String List.
From Verif Require Import Base Fit_Model Hds_Model.
Import ListNotations.
Local Open Scope string_scope.
Local Open Scope list_scope.

(** a variability that refers to the column "<name>_dyn" of the dataset ("manual", "30D + manual", "4 + manual") *)
Definition uses_column (pint : string -> option Z) (v : fval) : Prop :=
  match v with
  | VStr s => parse_freq pint s = Ok FManual
              \/ (exists t, parse_freq pint s = Ok (FOffset t true))
              \/ (exists n, parse_freq pint s = Ok (FInt n true))
  | _ => False
  end.

(** no parameter is fitted, or some parameter is fitted with "manual" and no other variability refers to a column *)
Definition keeps_groups (pint : string -> option Z) (d : defs) : Prop :=
  (forall k v, ~ In (k, (true, v)) d)
  \/ ((exists k, In (k, (true, VStr "manual")) d)
      /\ forall k v, In (k, (true, v)) d -> uses_column pint v -> v = VStr "manual").
