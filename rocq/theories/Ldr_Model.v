(** Model of how files of a result-folder are found and opened: /repo/rt1/rtresults.py [_get_results] (212-226), [load_hdf]
    (228-253), [load_nc] (255-300), [load_cfg] (386-416), [rescan] (175-192), [fit_db] (193-200), [_reset_fit_db_cache]
    (202-207), [_load_fit_from_HDF] (302-307), [_RT1_fitresult.__init__] (149-160).
    Simplified: paths are names of files in the folder; the contents of HDF-files are opaque. *)
From Coq Require Import Arith Bool String Ascii List.
From Verif Require Import Base Str_Model Rdr_Model.
Import ListNotations.
Local Open Scope string_scope.
Local Open Scope list_scope.

(** rtresults.py 218-221: a file with this ending.  [i.path] ends with [ending] iff the name does: the separator in front of
    the name is not part of an ending *)
Definition has_ending (ending : string) (e : string * node) : bool := negb (is_dir (snd e)) && endswith ending (fst e).
(** rtresults.py 212-226 [_get_results]: the entries of the results-folder by their stem; [None]: there is no such folder *)
Definition get_results (ending : string) (folder : option (list (string * node))) : res (dict string string) :=
  match folder with
  | None => Err AssertionError
  | Some l => Ok (fold_left (fun d e => if has_ending ending e then dset string_dec (stem (fst e)) (fst e) d else d) l [])
  end.
(** rtresults.py 247-264 [load_hdf], 284-299 [load_nc]: which file is opened *)
Definition load_named (ending : string) (folder : option (list (string * node))) (result_name : option string) : res string :=
  do results <- get_results ending folder;
  if Nat.eqb (List.length results) 0 then Err AssertionError else
  if Nat.eqb (List.length results) 1 || match result_name with Some n => inb string_dec n (keys results) | None => false end then
    let name := match result_name with Some n => n | None => hd "" (keys results) end in
    match dget string_dec name results with Some f => Ok f | None => Err KeyError end
  else Err AssertionError.
(** rtresults.py 401-416 [load_cfg]: which file is read.  RT1_configparser of a file that does not exist: rtparse.py 146
    (ConfigParser.read ignores it), 175-178 (no sections) *)
Definition load_cfg (l : list (string * node)) (cfg_name : option string) : res string :=
  let cfgfiles := map fst (filter (fun e => endswith ".ini" (fst e)) l) in
  if Nat.eqb (List.length cfgfiles) 0 then Err AssertionError else
  match cfg_name with
  | None => match cfgfiles with [f] => Ok f | _ => Err AssertionError end
  | Some n => if existsb (fun e => String.eqb (fst e) n && negb (is_dir (snd e))) l then Ok n else Err AssertionError
  end.

(** ** the handler of fit_db.h5 *)
Section Db.
(** contents of a HDF-file; the object [load_fit] makes from it *)
Context {C F : Type}.
Variable fit_of : C -> string -> res F.

(** rtresults.py 149-160: a result [r]: was fit_db.h5 there when the folder was scanned; handler in the cache of the class:
    the contents that were opened and whether the store is still open (pd.HDFStore.is_open) *)
Record db : Type := mkdb {
  d_file : nat -> option C;            (* results/fit_db.h5 at present (not part of the object) *)
  d_scan : nat -> bool;                (* "fit_db" in self._hdf_paths *)
  d_handler : nat -> option (C * bool) }.
(** change of one entry (no /repo code) *)
Definition upd {A} (f : nat -> A) (r : nat) (x : A) : nat -> A := fun q => if Nat.eqb q r then x else f q.
(** rtresults.py 193-200 [fit_db] (cached) *)
Definition fit_db (s : db) (r : nat) : res (C * bool) * db :=
  match d_handler s r with
  | Some h => (Ok h, s)
  | None =>
      if negb (d_scan s r) then (Err AssertionError, s) else
      match d_file s r with
      | None => (Err AssertionError, s)              (* load_hdf 247-254; KeyError if there is exactly one other file *)
      | Some c => (Ok (c, true), mkdb (d_file s) (d_scan s) (upd (d_handler s) r (Some (c, true))))
      end
  end.
(** rtresults.py 202-207: the cache of the class is cleared (the handlers are closed by __del__, 546-548) *)
Definition reset_cache (s : db) : db := mkdb (d_file s) (d_scan s) (fun _ => None).
(** rtresults.py 302-307 [_load_fit_from_HDF]; [load_fit] of a closed store fails (pandas ClosedFileError) *)
Definition load_from_hdf (s : db) (r : nat) (ID : string) : res F * db :=
  match fit_db s r with
  | (Err e, s) => (Err e, s)
  | (Ok (_, is_open), s) =>
      let s := if is_open then s else reset_cache s in
      match fit_db s r with
      | (Err e, s) => (Err e, s)
      | (Ok (c, true), s) => (fit_of c ID, s)
      | (Ok (_, false), s) => (Err RuntimeError, s)
      end
  end.
(** what happens in a session: loading, closing the store, re-scanning (175-192), and changes of the file by another process
    (a new export, deletion; an open handler keeps the old contents) *)
Inductive dop : Type := DLoad (r : nat) (ID : string) | DClose (r : nat) | DRescan (r : nat) | DWrite (r : nat) (c : option C).
(** the effect of one of these; closing: [fit.fit_db.close()] (565-567) opens a handler if there is none *)
Definition dstep (s : db) (a : dop) : db :=
  match a with
  | DLoad r ID => snd (load_from_hdf s r ID)
  | DClose r => match fit_db s r with
                | (Ok (c, _), s) => mkdb (d_file s) (d_scan s) (upd (d_handler s) r (Some (c, false)))
                | (Err _, s) => s
                end
  | DRescan r => reset_cache (mkdb (d_file s) (upd (d_scan s) r (match d_file s r with Some _ => true | None => false end)) (d_handler s))
  | DWrite r c => mkdb (upd (d_file s) r c) (d_scan s) (d_handler s)
  end.
(** RTresults(path) (149-160): the folders are scanned, nothing is opened *)
Definition dinit (file : nat -> option C) : db := mkdb file (fun r => match file r with Some _ => true | None => false end) (fun _ => None).
(** a session *)
Definition drun (file : nat -> option C) (ops : list dop) : db := fold_left dstep ops (dinit file).
End Db.
Arguments dop : clear implicits.
Arguments db : clear implicits.
