(** Model of the log-handlers when an existing dump-folder is removed: /repo/rt1/rtprocess.py [_remove_dumpfolder] (245-260),
    called by [setup] (308-322) after a confirmation, and [_make_folderstructure] (64-76) that follows it.

    Simplifications: handlers as in Log_Model; a closed file-handler stays usable, since the logging module opens the file again
    for the next message (mode "a", __init__.py 89), so [h.close()] itself has no effect on what is written. *)
From Coq Require Import String List Arith Bool.
From Verif Require Import Base Log_Model.
Import ListNotations.
Local Open Scope list_scope.

Section Rmd.
(** Path(file).parent.samefile(dumppath / "cfg"); False also stands for an exception, 252-256 *)
Variable in_cfg : string -> bool.

(** rtprocess.py 252-256: is the handler removed? only file-handlers have a baseFilename *)
Definition doomed (h : handler) : bool := match h_sink h with File p => in_cfg p | _ => false end.

(** rtprocess.py 250-256: [for h in log.handlers: ... log.removeHandler(h)]: the list that is iterated is the one that is
    changed; Python's list-iterator has a position [i] and ends when it is not below the length; [fuel] bounds the steps *)
Fixpoint loop (fuel i : nat) (hs : list handler) : list handler :=
  match fuel with
  | O => hs
  | S fuel =>
      match nth_error hs i with
      | None => hs
      | Some h => loop fuel (S i) (if doomed h then filter (fun k => negb (h_id k =? h_id h)) hs else hs)
      end
  end.
(** rtprocess.py 245-260 [_remove_dumpfolder]: the handlers afterwards; there are at most as many steps as handlers *)
Definition remove_dumpfolder (st : lst) : lst :=
  mklst (root_level st) (root_handlers st) (level st) (loop (S (List.length (handlers st))) 0 (handlers st)) (next st) (out st).
End Rmd.

(** rtprocess.py 64-76, 326-329: the folders below save_path / dumpfolder afterwards (names of existing ones [fs]; True: the folder
    itself was there) *)
Definition make_folderstructure (there : bool) (fs subfolders : list string) : list string :=
  fold_left (fun fs f => if inb string_dec f fs then fs else (fs ++ [f])%list) subfolders (if there then fs else []).
(** rtprocess.py 326-329 *)
Definition subfolders : list string := ["results"; "cfg"; "dumps"]%string.
(** rtprocess.py 245-260, 326-329: remove and set up again *)
Definition remove_and_make (fs : list string) : list string := make_folderstructure false fs subfolders.
