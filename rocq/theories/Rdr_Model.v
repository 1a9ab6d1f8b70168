(** Model of the access to processed results: /repo/rt1/rtresults.py [RTresults], [_RT1_fitresult], [HDFaccessor.__init__];
    /repo/rt1/rtprocess.py [_get_files], [_finalout_reader]; /repo/rt1/_rtprocess_writer.py [create_index], [get_data].
    What pathlib, os.scandir and pandas do is plain library semantics. *)
From Coq Require Import ZArith Arith Bool String Ascii List.
From Verif Require Import Base Str_Model.
Import ListNotations.
Local Open Scope string_scope.
Local Open Scope list_scope.

(** ** paths (pathlib.PurePosixPath), used throughout rtresults.py *)
Record path := Path { absolute : bool; parts : list string }.
(** [p / q]: an absolute [q] replaces [p] (rtresults.py 153-155, 357) *)
Definition pjoin (p q : path) : path := if absolute q then q else Path (absolute p) (parts p ++ parts q).
(** [p / name] for a single name (rtresults.py 153-155) *)
Definition sub (p : path) (n : string) : path := pjoin p (Path false [n]).
(** [p.name] (rtresults.py 141) *)
Definition pname (p : path) : string := last (parts p) "".
(** [str(p)]; entry.path (rtresults.py 438) *)
Definition show (p : path) : string := (if absolute p then "/" else "") ++ join_char "/" (parts p).
(** [Path(s)] (rtresults.py 350, 357) *)
Definition parse (s : string) : path :=
  Path (startswith "/" s) (filter (fun n => negb (String.eqb n "" || String.eqb n ".")) (split_char "/" s)).
(** position of the last dot in a name (pathlib, used by [path.stem], rtresults.py 141) *)
Fixpoint last_dot (s : string) : option nat :=
  match s with
  | EmptyString => None
  | String c r => match last_dot r with
                  | Some i => Some (S i)
                  | None => if Ascii.eqb c "." then Some O else None
                  end
  end.
(** [path.stem]: without the last suffix, if there is one after a non-empty name (rtresults.py 141) *)
Definition stem (n : string) : string :=
  match last_dot n with
  | Some i => if Nat.ltb 0 i && Nat.ltb i (String.length n - 1) then String.substring 0 i n else n
  | None => n
  end.

(** ** folders: rtresults.py 96-147 *)
(** an entry of a folder, in the order of os.scandir *)
Inductive node := File | Dir (l : list (string * node)).
(** [i.is_dir()], rtresults.py 107, 131 *)
Definition is_dir (n : node) : bool := match n with Dir _ => true | File => false end.
(** rtresults.py 128-137 [_check_folderstructure]: the first 100 entries *)
Definition check_folderstructure (l : list (string * node)) : bool :=
  forallb (fun folder => existsb (fun e => String.eqb (fst e) folder && is_dir (snd e)) (firstn 100 l))
          ["cfg"; "results"; "dumps"].
(** rtresults.py 139-147 [_addresult]: [_paths] and the attribute have the same key and the same path.  Folders named
    like an attribute of the object itself ("_paths", ...) are not modelled. *)
Definition addresult (d : dict string path) (p : path) (n : node) : dict string path :=
  match n with
  | Dir l => if check_folderstructure l then dset string_dec (stem (pname p)) p d else d
  | File => d
  end.
(** rtresults.py 96-109 [RTresults.__init__] *)
Definition RTresults (parent : path) (l : list (string * node)) : dict string path :=
  if check_folderstructure l then addresult [] parent (Dir l)
  else fold_left (fun d e => addresult d (sub parent (fst e)) (snd e)) (firstn 100 l) [].
(** rtresults.py 114-119 [results[key]] *)
Definition getitem (r : dict string path) (key : string) : res path :=
  match dget string_dec key r with Some p => Ok p | None => Err AssertionError end.
(** [getattr(results, key)], rtprocess.py 1326-1328 *)
Definition getattr_result (r : dict string path) (key : string) : res path :=
  match dget string_dec key r with Some p => Ok p | None => Err AttributeError end.
(** [list(results)], rtresults.py 111-112 *)
Definition iter_results (r : dict string path) : list path := map snd r.

(** ** dump-files: rtresults.py 312-376, 418-461 *)
(** rtresults.py 432-437, 451-456: the condition on an entry *)
Definition is_dump (e : string * node) : bool :=
  endswith ".dump" (fst e) && negb (is_dir (snd e)) && negb (contains "error" (fst e)).
(** rtresults.py 430-438 [dump_files] with use_dumps *)
Definition dump_files (dump_path : path) (l : list (string * node)) : list path :=
  map (fun e => sub dump_path (fst e)) (filter is_dump l).

(** the argument [ID] of [load_fit] (rtresults.py 312-333) *)
Inductive fid := INone | IInt (z : Z) | IStr (s : string) | IPath (p : path).

Section Load.
Context {F : Type}.
(** what a call of [load_fit] does: the fit (and the ID if return_ID, 373-374), the value None (356), an exception of
    opening the file (367), another exception *)
Inductive outcome := Loaded (f : F) (ID : option string) | ReturnsNone | FileNotFound | Raises (e : pyerr).
(** the files that can be loaded: [rtfits.load], rtresults.py 366 *)
Variable file : path -> option F.

(** rtresults.py 366, 373-376 *)
Definition load_path (return_ID : bool) (p : path) : outcome :=
  match file p with
  | Some f => Loaded f (if return_ID then Some (stem (pname p)) else None)
  | None => FileNotFound
  end.
(** rtresults.py 361-364 *)
Definition dump_name (ID : string) : string := if endswith ".dump" ID then ID else (ID ++ ".dump")%string.
(** rtresults.py 341-366, 373-376 [load_fit] with use_dumps; [rnd]: the index drawn by numpy.random.choice (from the files
    present at the first call: 344-345; the folder is assumed not to change) *)
Definition load_fit_dumps (rnd : nat) (dump_path : path) (l : list (string * node)) (ID : fid) (return_ID : bool) : outcome :=
  match ID with
  | IPath p => load_path return_ID p
  | INone => match nth_error (dump_files dump_path l) rnd with
             | Some p => load_path return_ID p
             | None => Raises ValueError                     (* choice of an empty list *)
             end
  | IInt z => if (z <? 0)%Z then Raises ValueError           (* islice, 354 *)
              else match nth_error (dump_files dump_path l) (Z.to_nat z) with
                   | Some p => load_path return_ID p
                   | None => ReturnsNone                     (* 355-357 *)
                   end
  | IStr s => load_path return_ID (pjoin dump_path (parse (dump_name s)))
  end.
(** rtresults.py 440-459 [dump_fits] with use_dumps *)
Definition dump_fits (dump_path : path) (l : list (string * node)) : list outcome :=
  map (fun e => load_fit_dumps 0 dump_path l (IStr (fst e)) false) (filter is_dump l).

(** *** the HDF container: rtresults.py 304-310, 367-376, 587-598, 766-790.  [names]: the rows of IDs (number, name) in
    the order of storage; [stored n]: the fit that is stored with this number, if its tables can be read. *)
(** rtresults.py 766-767 *)
Definition num_of (names : list (Z * string)) (ID : string) : res Z :=
  match filter (fun p => String.eqb (snd p) ID) names with [] => Err IndexError | p :: _ => Ok (fst p) end.
(** rtresults.py 587-681 [_load_fit]: an exception while reading init_dict is caught (596-600) *)
Definition load_num (names : list (Z * string)) (stored : Z -> option F) (n : Z) : option F :=
  if existsb (Z.eqb n) (map fst names) then stored n else None.
(** rtresults.py 367-376 [load_fit] without use_dumps: [filepath] is not bound (374) *)
Definition load_fit_hdf (rnd : nat) (names : list (Z * string)) (stored : Z -> option F) (ID : fid) (return_ID : bool) : outcome :=
  let finish (o : option F) := if return_ID then Raises UnboundLocalError
                               else match o with Some f => Loaded f None | None => ReturnsNone end in
  match ID with
  | IPath p => load_path return_ID p                         (* 341-343 *)
  | INone => match nth_error names rnd with
             | Some p => match num_of names (snd p) with Ok n => finish (load_num names stored n) | Err e => Raises e end
             | None => Raises ValueError
             end
  | IInt z => finish (load_num names stored z)
  | IStr s => match num_of names s with Ok n => finish (load_num names stored n) | Err e => Raises e end
  end.

(** ** final output: rtprocess.py 1210-1253, 1324-1336 *)
(** rtprocess.py 1324-1336 [_get_files] with use_dumps: the IDs of the list are the paths as strings *)
Definition get_files_dumps (dump_path : path) (l : list (string * node)) (use_N : option nat) : list string :=
  let ids := map show (dump_files dump_path l) in
  match use_N with Some n => firstn n ids | None => ids end.
(** rtprocess.py 1210-1216, 1249-1253 [_finalout_reader]: every exception is caught and logged, the feature is skipped *)
Definition finalout_read (dump_path : path) (l : list (string * node)) (ID : string) : option F :=
  match load_fit_dumps 0 dump_path l (IStr ID) false with Loaded f _ => Some f | _ => None end.
(** the fits that [run_finaloutput(use_dumps=True)] hands to the postprocess function (rtprocess.py 1106-1110, 1186-1200) *)
Definition finalout_fits (dump_path : path) (l : list (string * node)) (use_N : option nat) : list F :=
  flat_map (fun ID => match finalout_read dump_path l ID with Some f => [f] | None => [] end)
           (get_files_dumps dump_path l use_N).
End Load.

(** rtprocess.py 1325-1328: [_useres] is kept; [None]: not yet present.  The results object is that of the folder
    [dumppath] (a complete folder, entries [l]), looked up by the name [dumpfolder] *)
Definition get_useres (useres : option (path * bool)) (dumppath : path) (l : list (string * node)) (dumpfolder : string) (use_dumps : bool)
  : res (path * bool) :=
  match useres with
  | Some u => Ok u
  | None => do p <- getattr_result (RTresults dumppath l) dumpfolder; Ok (p, use_dumps)
  end.
(** a sequence of calls of [run_finaloutput] (with the given values of use_dumps) on one processing object: the modes in
    which the fits are read (rtprocess.py 1106-1110, 1325-1328) *)
Fixpoint finalout_modes (useres : option (path * bool)) (dumppath : path) (l : list (string * node)) (dumpfolder : string) (calls : list bool)
  : list (res bool) :=
  match calls with
  | [] => []
  | u :: r => match get_useres useres dumppath l dumpfolder u with
              | Ok s => Ok (snd s) :: finalout_modes (Some s) dumppath l dumpfolder r
              | Err e => Err e :: finalout_modes useres dumppath l dumpfolder r
              end
  end.

(** ** tables of a HDF file *)
(** what an attribute of [datasets] gives: a table, or the tables of a config by name *)
Inductive selector := Tbl (key : string) | Cfg (tables : list (string * string)).
(** [key.lstrip("/").split("/")] for the keys of a store, which begin with one "/" (rtresults.py 511, writer 767) *)
Definition keysplit (key : string) : list string := split_char "/" (drop 1 key).
(** [cfgkeys[cfg].append(table)], rtresults.py 506, 513 *)
Definition add_cfg (cfg tbl : string) (d : dict string (list string)) : dict string (list string) :=
  dset string_dec cfg (match dget string_dec cfg d with Some l => l ++ [tbl] | None => [tbl] end) d.
(** rtresults.py 507-517: one key *)
Definition read_key (st : dict string (list string) * dict string selector) (key : string) : dict string (list string) * dict string selector :=
  let '(cfgs, attrs) := st in
  if endswith "/meta" key then (cfgs, attrs)
  else match keysplit key with
       | [c; t] => (add_cfg c t cfgs, attrs)
       | [t] => (cfgs, dset string_dec t (Tbl key) attrs)
       | _ => (cfgs, dset string_dec key (Tbl key) attrs)
       end.
(** rtresults.py 900-910 [_cfgselector.__init__]: the attributes of a config *)
Definition cfgselector (cfg : string) (tbls : list string) : selector :=
  Cfg (fold_left (fun d t => dset string_dec t (cfg ++ "/" ++ t)%string d) tbls []).
(** rtresults.py 504-520: the attributes of [datasets] *)
Definition datasets (store : list string) : dict string selector :=
  let '(cfgs, attrs) := fold_left read_key store ([], []) in
  fold_left (fun a c => dset string_dec (fst c) (cfgselector (fst c) (snd c)) a) cfgs attrs.
(** [hdf.datasets.a] and [hdf.datasets.a.b] (the key of the table that is read), rtresults.py 504-520, 900-910 *)
Definition access (store : list string) (a : string) (b : option string) : res string :=
  match dget string_dec a (datasets store), b with
  | Some (Tbl key), None => Ok key
  | Some (Cfg tbls), Some b => match dget string_dec b tbls with Some k => Ok ("/" ++ k)%string | None => Err AttributeError end
  | _, _ => Err AttributeError
  end.

(** _rtprocess_writer.py 749-788 [get_data]: the key of the table that is read; a key that is not in the store is a
    KeyError of [store.select] *)
Definition get_data (store : list string) (key : string) (config : option string) : res string :=
  let const_keys := flat_map (fun k => match keysplit k with [t] => [t] | _ => [] end) store in
  let usekey := (match config with Some c => c | None => "None" end ++ "/" ++ key)%string in   (* 786 *)
  let select := if existsb (String.eqb ("/" ++ usekey)%string) store then Ok ("/" ++ usekey)%string else Err KeyError in
  match config with
  | None => if existsb (String.eqb key) const_keys then select else Err AssertionError         (* 777-784 *)
  | Some _ => select
  end.

(** [storer.levels]: 1 for a table with a single index, the names otherwise (_rtprocess_writer.py 719-720) *)
Inductive levels := Single | Multi (l : list string).
(** the argument [idx_levels] (_rtprocess_writer.py 669-690) *)
Inductive idx_arg := ArgNone | ArgAll | ArgList (l : list string).
(** _rtprocess_writer.py 722-745: the columns for which an index is created; [None]: the table is skipped.  The order of
    [set(idx_levels) & set(s_levels)] is arbitrary in Python, here that of the table. *)
Definition use_levels (a : idx_arg) (s : levels) : res (option (list string)) :=
  match a, s with
  | ArgNone, Single => Ok (Some ["1"])                                   (* 726-728, [str(1)] *)
  | ArgNone, Multi l => match l with [] => Err IndexError | x :: _ => Ok (Some [x]) end
  | ArgAll, Single => Err TypeError                                      (* len(1), 740 *)
  | ArgAll, Multi l => Ok (match l with [] => None | _ => Some l end)
  | ArgList _, Single => Err TypeError                                   (* set(1), 738 *)
  | ArgList il, Multi l => Ok (match filter (fun x => existsb (String.eqb x) il) l with [] => None | u => Some u end)
  end.
(** _rtprocess_writer.py 709-747 [create_index]: the tables (name, levels) are processed in order; the first component are
    the indexes created so far when an exception ends it *)
Fixpoint create_index (a : idx_arg) (store : list (string * levels)) : list (string * list string) * option pyerr :=
  match store with
  | [] => ([], None)
  | (key, s) :: r =>
      if endswith "/meta" key then create_index a r
      else match use_levels a s with
           | Err e => ([], Some e)
           | Ok u => let '(done, e) := create_index a r in
                     (match u with Some ls => (key, ls) :: done | None => done end, e)
           end
  end.
