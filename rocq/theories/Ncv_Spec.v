(** Specification for C227 *)
From Coq Require Import String List.
From Verif Require Import Base Rdr_Model Ldr_Spec Ncv_Model.
Import ListNotations.

(** [files] lists every NetCDF-file of the folder once *)
Definition nc_files (l : list (string * node)) (files : list string) : Prop :=
  NoDup files /\ forall f, In f files <-> file_in l f /\ exists a, f = (a ++ ".nc")%string.
(** the files are shown one after the other: name and contents *)
Inductive overview {D} (open : string -> res D) : list string -> list (line D) -> option pyerr -> Prop :=
| ov_end : overview open [] [] None
| ov_file f d files out e : open f = Ok d -> overview open files out e -> overview open (f :: files) (Title f :: Shown d :: out) e
| ov_unreadable f files e : open f = Err e -> overview open (f :: files) [Title f] (Some e).
