(** Specification: which results an export is about *)
From Coq Require Import String Ascii List Arith Bool.
From Verif Require Import Base Str_Model Rdr_Model Rdr_Spec Fol_Model.
Import ListNotations.
Local Open Scope string_scope.

(** the results in a folder can be told apart: names are different and have no dots, there are not too many entries *)
Definition clear_names (l : list (string * node)) : Prop :=
  NoDup (map fst l) /\ small l /\ (forall m, result_folder l m -> has_char "." m = false).
(** a folder that holds results but is none itself *)
Definition collection (l : list (string * node)) : Prop := clear_names l /\ ~ complete l.
(** a call that exports the fits of the folder of the configuration, in one mode *)
Definition plain_call (u : bool) (c : call) : Prop := c = Finalout u \/ c = Export None u.
