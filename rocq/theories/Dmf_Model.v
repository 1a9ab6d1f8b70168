(** Model of the dump-files of a processing run and of the processing class:
    /repo/rt1/rtprocess.py [_evalfunc] (444-556) with dump_fit,
    /repo/rt1/processing_config.py [__init__] (64-81), [get_names_ids] (83-111)
    and [exceptfunc] (174-261), /repo/rt1/rtfits.py Fits.[dump] (2395-2434) and
    [_get_fit_to_hdf_dict] (2877-3027).

    Simplifications: Fits objects (not MultiFits, for which the same lines are
    repeated at 484-513); paths are compared as pathlib does (".." is a name);
    writing to an existing folder succeeds; loading a dump-file gives the object
    that was dumped (see C121); the processing class is created with save_path
    and dumpfolder. *)
From Coq Require Import List ZArith Bool String.
From Verif Require Import Base Str_Model Rdr_Model Ids_Model.
Import ListNotations.
Local Open Scope string_scope.
Local Open Scope list_scope.

(** equality of pathlib-paths *)
Definition path_dec : forall p q : path, {p = q} + {p <> q}.
Proof. decide equality; [apply list_eq_dec, string_dec|apply bool_dec]. Defined.
(** Path.parent: the folder in which open(path, "wb") creates a file (rtfits.py 2433) *)
Definition parent (p : path) : path := Path (absolute p) (removelast (parts p)).

Section Dmf.
(** other reader arguments, datasets, results *)
Context {X Ds R : Type}.
(** rtprocess.py 444: a reader_arg with str(reader_arg["ID"]), the number that
    [_check_IDs] has assigned (_rtprocess_writer.py 345-357) and anything else *)
Record rarg : Type := mka { a_ID : string; a_num : option Z; a_more : X }.
(** a fit: rtprocess.py 516-528: ID, reader_arg, results *)
Record fit : Type := mkfit { f_ID : string; f_arg : rarg; f_res : R }.
(** rtprocess.py 512, 544: hdf_export_kwargs: what is to be exported *)
Definition opts : Type := dict string bool.
(** the index of the exported tables: a number or a name (rtfits.py 2911-2915) *)
Inductive key : Type := KNum (z : Z) | KName (s : string).
(** the exported tables (rtfits.py 2916-3027): index, reader_arg, options, results *)
Record row : Type := mkrow { r_key : key; r_arg : rarg; r_opts : opts; r_res : R }.

(** rtfits.py 2877-3027 [_get_fit_to_hdf_dict]: without a number the ID of the
    fit is used (the attribute _RT1_ID_num is set by run_finaloutput only,
    rtprocess.py 1245) *)
Definition to_hdf (f : fit) (ID : option Z) (kw : opts) : row :=
  mkrow (match ID with Some z => KNum z | None => KName (f_ID f) end) (f_arg f) kw (f_res f).

(** processing_config.py 83-111 [get_names_ids] *)
Definition feature_id (a : rarg) : string := a_ID a.
(** processing_config.py 106 *)
Definition filename (a : rarg) : string := feature_id a ++ ".dump".

(** the files that were dumped, by path *)
Definition files : Type := dict path fit.
(** existing folders *)
Variable dirs : path -> bool.
(** rtprocess.py 298: save_path / dumpfolder *)
Variable dumppath : path.
(** processing_config.py 68, rtprocess.py 504-506, 536-538: dumppath / "dumps" / filename *)
Definition dump_path : path := sub dumppath "dumps".
(** rtprocess.py 536-538 *)
Definition dump_file (a : rarg) : path := pjoin dump_path (parse (filename a)).
(** rtfits.py 2433-2434 [dump]: open(path, "wb") fails if the path is a folder
    or the folder does not exist (OSError, no arguments that are strings of the
    policy of [exceptfunc]) *)
Definition dump (fs : files) (p : path) (f : fit) : option files :=
  if dirs p then None else if dirs (parent p) then Some (dset path_dec p f fs) else None.

(** the reader (may look at the files), rtprocess.py 459: a dataset or ex.args *)
Variable reader : files -> rarg -> Ds + list exarg.
(** rtprocess.py 524 [performfit]: results or ex.args *)
Variable perform : Ds -> R + list exarg.
(** rtprocess.py 544 *)
Variable kwargs : opts.

(** processing_config.py 174-261 [exceptfunc]; 224-226: the dump-file is loaded
    and exported without arguments *)
Definition except_row (fs : files) (a : rarg) (ex : list exarg) : handled row :=
  exceptfunc None true (option_map (fun f => to_hdf f None []) (dget path_dec (dump_file a) fs)) ex.

(** rtprocess.py 444-556 [_evalfunc]: the files afterwards and what is returned
    (None: the feature is skipped) *)
Definition evalfunc (dump_fit : bool) (fs : files) (a : rarg) : files * handled row :=
  match reader fs a with
  | inr ex => (fs, except_row fs a ex)
  | inl ds =>
    match perform ds with
    | inr ex => (fs, except_row fs a ex)
    | inl r =>
      let f := mkfit (feature_id a) a r in
      if dump_fit
      then match dump fs (dump_file a) f with
           | Some fs' => (fs', RetFit (to_hdf f (a_num a) kwargs))
           | None => (fs, except_row fs a [XOther])
           end
      else (fs, RetFit (to_hdf f (a_num a) kwargs))
    end
  end.
(** rtprocess.py 583-760: the arguments in the order in which they are processed *)
Fixpoint process (dump_fit : bool) (fs : files) (l : list rarg) : files * list (handled row) :=
  match l with
  | [] => (fs, [])
  | a :: r => let (fs, x) := evalfunc dump_fit fs a in let (fs, xs) := process dump_fit fs r in (fs, x :: xs)
  end.
End Dmf.
Arguments rarg X : clear implicits.
Arguments fit X R : clear implicits.
Arguments row X R : clear implicits.

(** ** the processing class: processing_config.py 64-81 *)
Section Cls.
(** opaque values of process-specs; methods of the (derived) class *)
Context {O M : Type}.
(** values of attributes *)
Inductive aval : Type := ANo | AStr (s : string) | APath (p : path) | AObj (o : O) | AMethod (m : M).
(** Path(x), x / y for a string or a path *)
Definition as_path (v : aval) : res path := match v with AStr s => Ok (parse s) | APath p => Ok p | _ => Err TypeError end.
(** processing_config.py 68-70: the spelling is that of the code *)
Definition path_attrs : list (string * string) :=
  [("rt1_procsesing_dumppath", "dumps"); ("rt1_procsesing_respath", "results"); ("rt1_procsesing_cfgpath", "cfg")].
(** processing_config.py 64-81 [__init__]: the attributes of the object *)
Definition config_init (kw : dict string aval) : res (dict string aval) :=
  if inb string_dec "self" (keys kw) then Err TypeError else
  do base <- match dget string_dec "save_path" kw, dget string_dec "dumpfolder" kw with
             | Some s, Some d =>
                 do p <- as_path s; do q <- as_path d;
                 Ok (map (fun e => (fst e, APath (sub (pjoin p q) (snd e)))) path_attrs)
             | _, _ => Ok (map (fun e => (fst e, ANo)) path_attrs)
             end;
  Ok (fold_left (fun d e => dset string_dec (fst e) (snd e) d) kw base).
(** getattr: attributes of the object before those of the class (there are no properties) *)
Definition config_get (cls obj : dict string aval) (k : string) : res aval :=
  match dget string_dec k obj with Some v => Ok v | None => match dget string_dec k cls with Some v => Ok v | None => Err AttributeError end end.
(** calling proc_cls.reader, .preprocess, ...: rtprocess.py 459, 495, 549, 655 *)
Definition call (cls obj : dict string aval) (k : string) : res M :=
  do v <- config_get cls obj k; match v with AMethod m => Ok m | _ => Err TypeError end.
End Cls.
Arguments aval O M : clear implicits.
