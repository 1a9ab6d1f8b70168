(** Specification for C208-C210. *)
From Coq Require Import List ZArith Bool String.
From Verif Require Import Base Str_Model Rdr_Model Ids_Model Dmf_Model.
Import ListNotations.
Local Open Scope string_scope.

(** the file that belongs to a feature *)
Definition own_file (dumppath : path) (ID : string) : path := Path (absolute dumppath) (parts dumppath ++ ["dumps"; (ID ++ ".dump")%string])%list.
(** the index under which the tables of an argument are to be stored *)
Definition index_of {X} (a : rarg X) : key := match a_num a with Some z => KNum z | None => KName (a_ID a) end.
(** reading and fitting works for all of the arguments, whatever files there are *)
Definition all_fitted {X Ds R} (reader : files (X:=X) (R:=R) -> rarg X -> Ds + list exarg) (perform : Ds -> R + list exarg) (l : list (rarg X)) : Prop :=
  forall fs a, In a l -> exists ds r, reader fs a = inl ds /\ perform ds = inl r.
(** the folder for the dumps exists *)
Definition prepared (dirs : path -> bool) (dumppath : path) : Prop :=
  dirs (Path (absolute dumppath) (parts dumppath ++ ["dumps"])%list) = true /\ forall ID, dirs (own_file dumppath ID) = false.
