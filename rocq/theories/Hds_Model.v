(** Model of the dataset of a stored fit: /repo/rt1/rtfits.py Fits.[_get_fit_to_hdf_dict] (2951-2983, the part that
    saves the dataset), MultiFits.[apply] (3306-3337), the writer /repo/rt1/_rtprocess_writer.py (432-440) and
    /repo/rt1/rtresults.py HDFaccessor.[_load_fit] (602-606, 650-651, 666-667), together with the groups of observations
    [param_dyn_dict] (rtfits.py 580-682) and [_manual_dyn_df] (1222-1271) that the results of a fit refer to.

    Simplifications: timestamps of the index are integers (as in Fit_Model), a column is given by its values printed
    with astype(str); the index of a dataset is sorted (the dataset setter sorts it); group numbers are evaluated parameter by
    parameter (with several invalid definitions another exception may come first). *)
From Coq Require Import ZArith Arith Bool Ascii String List.
From Verif Require Import Base Str_Model Fit_Model.
Import ListNotations.
Local Open Scope string_scope.
Local Open Scope list_scope.

(** a pandas.DataFrame: index and columns *)
Record frame : Type := mkframe { f_index : list Z; f_cols : dict string (list (list ch)) }.
(** [DataFrame.empty]: an axis has length 0 *)
Definition empty (f : frame) : bool :=
  match f_index f, f_cols f with [], _ => true | _, [] => true | _, _ => false end.

(** the temporal variability val[2] of a definition (rtfits.py 145-172) *)
Inductive fval : Type := VNo | VStr (s : string) | VInt (z : Z).
(** a definition: is it fitted (val[0]), and its variability (val[2]) *)
Definition defs : Type := dict string (bool * fval).
(** the definitions of fitted parameters, rtfits.py 588, 1231 *)
Definition fitted (d : defs) : defs := filter (fun kv => fst (snd kv)) d.

Section Hds.
(** [int(s)] on strings, and the bins of an offset string (Fit_Model) *)
Variable pint : string -> option Z.
Variable bins : string -> option (nat * (Z -> nat)).
(** does this version of pandas accept a set as indexer of columns?  (yes before 1.5, a FutureWarning in 1.5,
    a TypeError since 2.0) *)
Variable set_indexer : bool.

(** rtfits.py 1190-1221, 1224-1256: the meaning of a variability *)
Definition meaning (v : fval) : res freq :=
  match v with VNo => Ok FNone | VStr s => parse_freq pint s | VInt z => Ok (FInt z false) end.

(** rtfits.py 580-682, 1222-1271: the group numbers of one fitted parameter of a fit with this dataset *)
Definition group (f : frame) (kv : string * (bool * fval)) : res (string * list Z) :=
  do m <- meaning (snd (snd kv));
  do g <- param_dyn bins (f_index f) m (dget string_dec (fst kv ++ "_dyn")%string (f_cols f));
  Ok (fst kv, g).
(** rtfits.py 580-682 [param_dyn_dict]; an empty dict without a dataset (585-586) *)
Definition param_dyn_dict (d : defs) (ds : option frame) : res (list (string * list Z)) :=
  match ds with None => Ok [] | Some f => mapM (group f) (fitted d) end.

(** rtfits.py 2972-2976: names of the columns that are kept with save_data=False *)
Definition dynkeys (d : defs) : list string :=
  map (fun kv => (fst kv ++ "_dyn")%string)
    (filter (fun kv => fst (snd kv) && match snd (snd kv) with VStr s => String.eqb s "manual" | _ => false end) d).

(** [df[names]] where names is a set *)
Definition getitem_set (f : frame) (names : list string) : res frame :=
  if set_indexer then
    do cols <- mapM (fun n => match dget string_dec n (f_cols f) with Some c => Ok (n, c) | None => Err KeyError end) names;
    Ok (mkframe (f_index f) cols)
  else Err TypeError.

(** a Fits object or a MultiFits object: its definitions (per configuration) *)
Inductive fitobj : Type := Single (d : defs) | Multi (cfgs : list (string * defs)).
(** rtfits.py 2964-2976: the names of the columns.  For a MultiFits object [self.defdict] is evaluated on the
    MultiFits object, which has no such attribute; the generator [apply] evaluates it once per configuration *)
Definition dynkeys_of (o : fitobj) : res (list string) :=
  match o with Single d => Ok (dynkeys d) | Multi [] => Ok [] | Multi (_ :: _) => Err AttributeError end.

(** rtfits.py 2951-2983: the entry "dataset" of the exported dict; exceptions are caught (the entry is missing then) *)
Definition export (save_data save_results : bool) (o : fitobj) (ds : option frame) : option frame :=
  if save_data then ds
  else if save_results then
    match (do names <- dynkeys_of o;
           match ds with None => Err TypeError | Some f => getitem_set f names end) with
    | Ok f => Some f
    | Err _ => None
    end
  else None.

(** _rtprocess_writer.py 432-440: HDFStore.append returns without writing anything if the frame is empty *)
Definition write (e : option frame) : option frame :=
  match e with Some f => if empty f then None else Some f | None => None end.
(** rtresults.py 602-606, 650-651, 666-667: the dataset of the loaded fit (None if there is no such table) *)
Definition load (e : option frame) : option frame := e.

(** the dataset of a fit that has been stored and loaded again *)
Definition reload (save_data save_results : bool) (o : fitobj) (ds : option frame) : option frame :=
  load (write (export save_data save_results o ds)).
End Hds.
