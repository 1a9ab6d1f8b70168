(** Specification: the interaction term uses every parameter's own value. *)
From Coq Require Import String List.
From Verif Require Import Base Par_Model Par_Spec.
Import ListNotations.

(** [env]: what the names stand for in the interaction term *)
Definition own_values {Val} (m : model Val) (frame : bool) (d : defdict) (r fixed env : list (string * Val)) : Prop :=
  forall s, provided frame d s -> routed m s -> given r fixed s <> None /\ dget string_dec s env = given r fixed s.
