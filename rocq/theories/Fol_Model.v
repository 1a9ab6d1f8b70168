(** Model of which folder an export reads from and writes to: /repo/rt1/rtprocess.py [export_data_to_HDF] (1489-1556),
    [run_finaloutput] (1061-1132), [_get_files] (1324-1336), the parts of [setup] (263-329) and [override_config] (236-243) that
    set the dump-folder.

    Simplifications: all dump-folders are below one save_path [base]; the .ini file is valid and the copy of it that is made in
    the folder names the same dump-folder; setup raises nothing; only the name of the dump-folder is overridden; the processing
    class is the one of the configuration; the lists of files, the processing itself and the logs are left out. *)
From Coq Require Import String List Arith Bool.
From Verif Require Import Base Str_Model Rdr_Model.
Import ListNotations.
Local Open Scope string_scope.
Local Open Scope list_scope.

(** the folders below save_path (name and entries), and the attributes of the object: the overridden dump-folder
    (self.init_kwargs), the one of self.cfg (None: no attribute cfg), self._useres (folder and use_dumps) *)
Record fstate := mkf { disk : dict string (list (string * node)); over : option string; cfg : option string; useres : option (path * bool) }.

(** rtprocess.py 1389-1402, 992-1008: the calls; [None]: dumpfolder=None *)
Inductive call := Override (d : string) | Finalout (use_dumps : bool) | Export (dumpfolder : option string) (use_dumps : bool).
(** what a call does: the fits of a folder are read (in the mode use_dumps) and the results written to a folder; nothing (1508-1513);
    an exception *)
Inductive effect := Written (src : path) (mode : bool) (dst : path) | Nothing | Raised (e : pyerr).

(** rtprocess.py 64-76: the missing ones of the sub-folders are made *)
Definition make_subfolders (l : list (string * node)) : list (string * node) :=
  fold_left (fun l f => if existsb (fun e => String.eqb (fst e) f) l then l else l ++ [(f, Dir [])]) ["results"; "cfg"; "dumps"] l.

Section Fol.
(** save_path and the dump-folder of the .ini file (specs of rtprocess.py 293) *)
Variable base : path.
Variable ini : string.
(** loading the first fit of a folder (rtprocess.py 1519-1540), an exception if it is not possible *)
Variable fit0 : path -> bool -> res unit.

(** rtprocess.py 293-294: the dump-folder after setup *)
Definition target (st : fstate) : string := match over st with Some d => d | None => ini end.
(** rtprocess.py 263-329 [setup] *)
Definition setup (st : fstate) : fstate :=
  let d := target st in
  let l := match dget string_dec d (disk st) with Some l => l | None => [] end in
  mkf (dset string_dec d (make_subfolders l) (disk st)) (over st) (Some d) (useres st).
(** rtprocess.py 1061-1132 [run_finaloutput] with 1324-1336 [_get_files]; the exceptions are raised again (1129-1131) *)
Definition finalout (st : fstate) (use_dumps : bool) : fstate * effect :=
  let st := setup st in
  let d := target st in
  let l := match dget string_dec d (disk st) with Some l => l | None => [] end in
  match get_useres (useres st) (sub base d) l d use_dumps with
  | Ok (p, m) => (mkf (disk st) (over st) (cfg st) (Some (p, m)), Written p m (sub (sub base d) "results"))
  | Err e => (st, Raised e)
  end.
(** rtprocess.py 1496-1503: [hasattr(self, "cfg")]: without it the file is read, without the overrides *)
Definition specs (st : fstate) : string := match cfg st with Some d => d | None => ini end.
(** rtprocess.py 1506-1518: the folder to use; [Ok None]: the message of 1508-1513 *)
Definition choose (r : dict string path) (dumpfolder : option string) : res (option path) :=
  let by_name n := match getattr_result r n with Ok p => Ok (Some p) | Err e => Err e end in
  match dumpfolder with
  | Some (String c n) => by_name (String c n)
  | _ => if Nat.ltb 1 (List.length r) then Ok None
         else match keys r with [] => Err IndexError | k :: _ => by_name k end
  end.
(** rtprocess.py 1489-1556 [export_data_to_HDF] *)
Definition export (st : fstate) (dumpfolder : option string) (use_dumps : bool) : fstate * effect :=
  match dget string_dec (specs st) (disk st) with
  | None => (st, Raised RuntimeError)                        (* os.scandir: FileNotFoundError *)
  | Some l =>
      match choose (RTresults (sub base (specs st)) l) dumpfolder with
      | Err e => (st, Raised e)
      | Ok None => (st, Nothing)
      | Ok (Some p) =>
          let st := mkf (disk st) (over st) (cfg st) (Some (p, use_dumps)) in
          match fit0 p use_dumps with
          | Err e => (st, Raised e)
          | Ok tt => finalout st use_dumps
          end
      end
  end.
(** rtprocess.py 188-243 [override_config], 992 [run_finaloutput], 1389 [export_data_to_HDF] *)
Definition do_call (st : fstate) (c : call) : fstate * effect :=
  match c with
  | Override d => (mkf (disk st) (Some d) (cfg st) (useres st), Nothing)
  | Finalout u => finalout st u
  | Export n u => export st n u
  end.
(** a sequence of calls on one object (rtprocess.py 78) and what they did *)
Fixpoint do_calls (st : fstate) (l : list call) : fstate * list effect :=
  match l with
  | [] => (st, [])
  | c :: r => let (st1, e) := do_call st c in let (st2, es) := do_calls st1 r in (st2, e :: es)
  end.
End Fol.
(** a new object (rtprocess.py 133-158) *)
Definition new_object (d : dict string (list (string * node))) : fstate := mkf d None None None.
