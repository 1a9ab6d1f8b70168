(** Model of how the modules of a config-file are copied and imported:
    /repo/rt1/rtparse.py [get_all_modules] (480-508), [get_module] (510-571),
    /repo/rt1/rtprocess.py [_copy_cfg_and_modules] (412-439) and the calls in [setup] (332-344). *)
From Coq Require Import String Ascii Arith Bool List.
From Verif Require Import Base Str_Model.
Import ListNotations.
Local Open Scope string_scope.
Local Open Scope list_scope.

(** a path: folder and name of the file.  Simplified: the values of the section are
    already stripped and split *)
Definition path : Type := string * string.
(** equality of paths (no /repo code) *)
Definition path_dec : forall a b : path, {a = b} + {a <> b}.
Proof. decide equality; apply string_dec. Defined.
(** the section [CONFIGFILES] (modules and other files) *)
Definition configfiles : Type := list (string * path).

Section Code.
(** source files, and what is raised (if anything) when a file is executed *)
Variable Source : Type.
Variable exec : Source -> option pyerr.

(** the files on the disc *)
Definition disc : Type := list (path * Source).
(** what sys.modules has under a name: a module of someone else, a module imported from a file,
    or one whose import failed *)
Inductive modul := Foreign (n : nat) | Loaded (p : path) (s : Source) | Broken (p : path).
(** sys.modules *)
Definition sysmodules : Type := list (string * modul).

(** python source files; the stem is the name without ".py" (pathlib) *)
Definition is_py (n : string) : bool := endswith ".py" n && Nat.ltb 3 (String.length n).
(** Path.stem of such a file *)
Definition stem (n : string) : string := String.substring 0 (String.length n - 3) n.

(** rtparse.py 563-571: import from a path (an OSError is written RuntimeError); other files than
    python sources have no spec, which is an AttributeError in module_from_spec *)
Definition import_file (d : disc) (p : path) (sys : sysmodules) : sysmodules * res modul :=
  if negb (is_py (snd p)) then (sys, Err AttributeError)
  else
    match dget path_dec p d with
    | None => (dset string_dec (stem (snd p)) (Broken p) sys, Err RuntimeError)              (* 568-569 *)
    | Some s =>
        match exec s with
        | Some e => (dset string_dec (stem (snd p)) (Broken p) sys, Err e)
        | None => (dset string_dec (stem (snd p)) (Loaded p s) sys, Ok (Loaded p s))
        end
    end.

(** rtparse.py 510-571 [get_module]; [cfgdir]: save_path/dumpfolder/cfg *)
Definition get_module (cfgdir : string) (sec : configfiles) (d : disc) (load_copy : bool) (m : string) (sys : sysmodules) : sysmodules * res modul :=
  match dget string_dec ("module__" ++ m)%string sec with
  | None => (sys, Err AssertionError)                                                        (* 531-541 *)
  | Some p =>
      if load_copy then
        match dget path_dec (cfgdir, snd p) d with
        | None => (sys, Err AssertionError)                                                  (* 553-557 *)
        | Some _ => import_file d (cfgdir, snd p) sys
        end
      else import_file d p sys
  end.

(** rtparse.py 498-508 [get_all_modules] *)
Fixpoint get_all (cfgdir : string) (sec items : configfiles) (d : disc) (load_copy : bool) (acc : list (string * modul)) (sys : sysmodules)
    : sysmodules * res (list (string * modul)) :=
  match items with
  | [] => (sys, Ok acc)
  | (k, _) :: r =>
      if negb (startswith "module__" k) then get_all cfgdir sec r d load_copy acc sys
      else
        match get_module cfgdir sec d load_copy (drop 8 k) sys with
        | (sys, Err e) => (sys, Err e)
        | (sys, Ok m) => get_all cfgdir sec r d load_copy (dset string_dec (drop 8 k) m acc) sys
        end
  end.
(** see [get_all] *)
Definition get_all_modules (cfgdir : string) (sec : configfiles) (d : disc) (load_copy : bool) (sys : sysmodules) : sysmodules * res (list (string * modul)) :=
  get_all cfgdir sec sec d load_copy [] sys.

(** rtprocess.py 412-439: copying of the modules (no file is overwritten) *)
Fixpoint copy_modules (cfgdir : string) (items : configfiles) (d : disc) : disc * res unit :=
  match items with
  | [] => (d, Ok tt)
  | (k, p) :: r =>
      if negb (startswith "module__" k) then copy_modules cfgdir r d
      else
        match dget path_dec (cfgdir, snd p) d with
        | Some _ => copy_modules cfgdir r d                                                  (* 425-434 *)
        | None =>
            match dget path_dec p d with
            | None => (d, Err RuntimeError)                                                  (* 438 *)
            | Some s => copy_modules cfgdir r (dset path_dec (cfgdir, snd p) s d)
            end
        end
  end.

(** the part of [setup] about modules in the MainProcess, rtprocess.py 332-344 *)
Definition setup_modules (cfgdir : string) (copy : bool) (sec : configfiles) (d : disc) (sys : sysmodules) : disc * sysmodules * res (list (string * modul)) :=
  let '(d, r) := if copy then copy_modules cfgdir sec d else (d, Ok tt) in
  match r with
  | Err e => (d, sys, Err e)
  | Ok _ => let '(sys, ms) := get_all_modules cfgdir sec d copy sys in (d, sys, ms)
  end.

(** what happens to the files: the user edits (or adds) a file, a run is set up *)
Inductive event := Edit (p : path) (s : Source) | Setup (copy : bool) (sec : configfiles).
(** the disc after an event *)
Definition happens (cfgdir : string) (d : disc) (e : event) : disc :=
  match e with
  | Edit p s => dset path_dec p s d
  | Setup copy sec => fst (fst (setup_modules cfgdir copy sec d []))
  end.
End Code.
Arguments Foreign {Source}. Arguments Loaded {Source}. Arguments Broken {Source}. Arguments Edit {Source}. Arguments Setup {Source}.
