(** Model of a whole processing run on an HDF container: /repo/rt1/_rtprocess_writer.py [run_starmap] (556-641: select the
    features that are not yet stored, process them, append the results) and /repo/rt1/rtresults.py HDFaccessor
    ([__init__] 487-520, [get_id] 769-793), composed of the models of the parts: Ids_Model ([_check_IDs]), Pip_Model (the
    processes) and Pag_Model (reading).

    Simplifications: a container is the sequence of the rows that have been appended to it, each with the name of its
    table; the tables created by HDFStore for its own purposes (.../meta) are not modelled. *)
From Coq Require Import String List ZArith Bool.
From Verif Require Import Base Ids_Model Pip_Model Pag_Model.
Import ListNotations.

Section E2e.
(** the contents of a row (without the ID) *)
Context {V : Type}.
(** the column "ID" of a row of the table "reader_arg" *)
Variable name_of : V -> string.

(** the HDF container; None: the file does not exist *)
Definition container : Type := option (list (string * prow V)).
(** all rows of the container *)
Definition rows (c : container) : list (string * prow V) := match c with Some l => l | None => [] end.

(** rtresults.py 689-709: the rows of one table *)
Definition table (k : string) (c : container) : list (prow V) :=
  map snd (filter (fun x => String.eqb (fst x) k) (rows c)).

(** rtresults.py 500-517: what is read when the container is opened: numbers and IDs in the table "reader_arg" (a table
    without rows is not written, so it does not exist) *)
Definition file_of (c : container) : file :=
  match c with
  | None => NoFile
  | Some _ =>
      match table "reader_arg" c with
      | [] => NoTable
      | l => Table (map (fun r => (name_of (p_val r), p_id r)) l)
      end
  end.
(** rtresults.py 504-512 [HDFaccessor.IDs]: numbers and names *)
Definition ids_frame (c : container) : list (Z * string) :=
  match file_of c with Table l => map (fun r => (snd r, get_ID (fst r))) l | _ => [] end.

(** rtresults.py 769-793 [get_id] of a table for a number, with the index of the opened container *)
Definition read_number (multi sid : bool) (c : container) (k : string) (n : Z) : res (list (prow V)) :=
  get_id multi sid (table k c) (map fst (ids_frame c)) n.
(** the same for a name *)
Definition read_name (multi sid : bool) (c : container) (k : string) (ID : string) : res (list (prow V)) :=
  get_id_named multi sid (table k c) (ids_frame c) ID.

(** _rtprocess_writer.py 408-446: the container after a run that appended [new]; the writers create the file when they
    get the first batch ([created]: a batch without any row) *)
Definition append_run (created : bool) (c : container) (new : list (string * prow V)) : container :=
  match c, new with
  | None, [] => if created then Some [] else None
  | _, _ => Some (rows c ++ new)%list
  end.
End E2e.
