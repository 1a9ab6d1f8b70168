(** Specification: what the folders and files of processed results contain *)
From Coq Require Import ZArith Arith Bool String Ascii List.
From Verif Require Import Base Str_Model Rdr_Model.
Import ListNotations.
Local Open Scope string_scope.
Local Open Scope list_scope.

(** a folder with the three sub-folders of a result *)
Definition complete (l : list (string * node)) : Prop :=
  forall f, In f ["cfg"; "results"; "dumps"] -> exists s, In (f, Dir s) l.
(** [n] is the name of a result in the folder *)
Definition result_folder (l : list (string * node)) (n : string) : Prop := exists s, In (n, Dir s) l /\ complete s.
(** few enough entries, here and in the folders below *)
Definition small (l : list (string * node)) : Prop :=
  length l <= 100 /\ forall n s, In (n, Dir s) l -> length s <= 100.

(** a name of a file or folder *)
Definition file_name (n : string) : Prop := n <> "" /\ n <> "." /\ has_char "/" n = false.
(** a path that names a file or folder *)
Definition proper (p : path) : Prop := parts p <> [] /\ Forall file_name (parts p).

(** the fit of the feature [ID] is in the folder *)
Definition has_dump (l : list (string * node)) (ID : string) : Prop := In ((ID ++ ".dump")%string, File) l.
(** exactly the files of the folder can be loaded; [g]: the fit in a file, by name *)
Definition dumps_of {F} (file : path -> option F) (dump_path : path) (l : list (string * node)) (g : string -> F) : Prop :=
  forall p, file p = if existsb (fun e => negb (is_dir (snd e)) &&
                         (Bool.eqb (absolute p) (absolute dump_path) &&
                          (if list_eq_dec string_dec (parts p) (parts dump_path ++ [fst e]) then true else false))) l
                     then Some (g (pname p)) else None.

(** the tables of a HDF file: one table, or a table of a config *)
Inductive table := Const (t : string) | OfCfg (c t : string).
(** its key in the file *)
Definition key_of (k : table) : string :=
  match k with Const t => ("/" ++ t)%string | OfCfg c t => ("/" ++ c ++ "/" ++ t)%string end.
(** names of tables and configs have no slash; no table is named meta *)
Definition table_ok (k : table) : Prop :=
  match k with
  | Const t => has_char "/" t = false /\ t <> "meta"
  | OfCfg c t => has_char "/" c = false /\ has_char "/" t = false /\ t <> "meta"
  end.
