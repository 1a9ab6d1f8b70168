(** Specification of the modules of a run. *)
From Coq Require Import String Arith Bool List.
From Verif Require Import Base Imp_Model.
Import ListNotations.
Local Open Scope string_scope.
Local Open Scope list_scope.

(** the section [CONFIGFILES] with the given modules (name and file) and other entries in between *)
Inductive lists : configfiles -> list (string * path) -> Prop :=
| lists_nil : lists [] []
| lists_module m p sec ms : lists sec ms -> lists ((("module__" ++ m)%string, p) :: sec) ((m, p) :: ms)
| lists_other k p sec ms : String.prefix "module__" k = false -> lists sec ms -> lists ((k, p) :: sec) ms.

(** the modules can be imported: python files that exist and run *)
Definition importable {Source} (exec : Source -> option pyerr) (d : disc Source) (p : path) : Prop :=
  is_py (snd p) = true /\ exists s, dget path_dec p d = Some s /\ exec s = None.
(** the file names are different *)
Definition distinct_files (ms : list (string * path)) : Prop := NoDup (map (fun x => snd (snd x)) ms).
(** the event does not touch the folder of the run *)
Definition outside {Source} (cfgdir : string) (e : event Source) : Prop :=
  match e with Edit p _ => fst p <> cfgdir | Setup _ _ => True end.
