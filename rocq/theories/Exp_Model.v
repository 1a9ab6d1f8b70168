(** Model of the export of results: /repo/rt1/rtprocess.py
    [RTprocess._defdict_parser], [_postprocess_getparams],
    [_HDF_export_postprocess], [export_data_to_HDF], and of the way the
    exported fits share one export function.

    Time series (pandas columns) and single values are abstract; joining the
    columns on their index and the index of the static table are pandas'
    (not modelled): the table of the dynamic values is the list of its named
    columns, the table of the static values a dictionary. *)
From Coq Require Import String ZArith QArith Bool List.
From Verif Require Import Base.
Import ListNotations.
Local Open Scope list_scope.

(** the Python values that occur in a definition list (bool is a subclass of int) *)
Inductive pyv : Type :=
| PNone | PBool (b : bool) | PInt (z : Z) | PFloat (q : Q) | PStr (s : string).

(** the first three properties [fitQ, val, freq] of a definition, as yielded
    by _containers.py:196-197 [items] (to_dict with lists, 345-361) *)
Record defn : Type := mkdefn { n_fitQ : pyv; n_val : pyv; n_freq : pyv }.

(** [v is True] *)
Definition is_true (v : pyv) : bool := match v with PBool true => true | _ => false end.
(** [v is None] *)
Definition is_none (v : pyv) : bool := match v with PNone => true | _ => false end.
(** [v == s] for a string s *)
Definition eq_str (v : pyv) (s : string) : bool := match v with PStr t => String.eqb t s | _ => false end.

(** rtprocess.py:1353-1363: the dictionary of lists *)
Record specs : Type := mkspecs {
  fitted : list string;
  fitted_const : list string;
  fitted_dynamic : list string;
  fitted_dynamic_manual : list string;
  fitted_dynamic_index : list string;
  fitted_dynamic_datetime : list (string * pyv);
  fitted_dynamic_integer : list (string * pyv);
  constant : list string;
  auxiliary : list string
}.

(** rtprocess.py:1365-1385: one iteration of the loop *)
Definition parse_step (s : specs) (kv : string * defn) : specs :=
  let '(key, v) := kv in
  let '(mkspecs f fc fd fm fi ft fz c a) := s in
  if is_true (n_fitQ v) then                                                     (* 1366 *)
    let f := f ++ [key] in
    if is_none (n_freq v) then mkspecs f (fc ++ [key]) fd fm fi ft fz c a        (* 1368-1369 *)
    else
      let fd := fd ++ [key] in                                                   (* 1371 *)
      if eq_str (n_freq v) "manual" then mkspecs f fc fd (fm ++ [key]) fi ft fz c a
      else if eq_str (n_freq v) "index" then mkspecs f fc fd fm (fi ++ [key]) ft fz c a
      else match n_freq v with
           | PStr _ => mkspecs f fc fd fm fi (ft ++ [(key, n_freq v)]) fz c a    (* 1376-1377 *)
           | PInt _ | PBool _ => mkspecs f fc fd fm fi ft (fz ++ [(key, n_freq v)]) c a   (* 1378-1379 *)
           | _ => mkspecs f fc fd fm fi ft fz c a
           end
  else if eq_str (n_val v) "auxiliary" then mkspecs f fc fd fm fi ft fz c (a ++ [key])    (* 1381-1382 *)
  else mkspecs f fc fd fm fi ft fz (c ++ [key]) a.                               (* 1383-1384 *)

(** rtprocess.py:1338-1387 [_defdict_parser] *)
Definition defdict_parser (d : dict string defn) : specs :=
  fold_left parse_step d (mkspecs [] [] [] [] [] [] [] [] []).

Section Export.
(** a time series, a single value *)
Variables Col Val : Type.
(** 10 * log10 and rad2deg of a time series *)
Variables to_dB to_degree : Col -> Col.
(** does this pandas accept a set as indexer ([df[set]])?  (up to 1.4 yes, from 1.5 on TypeError) *)
Variable set_indexer : bool.

(** what the export reads from a Fits object (rtfits.py): the definitions,
    whether the data are in dB, the columns of dataset and res_df, res_dict,
    reader_arg, the columns returned by calc_model(return_components=True)
    and the metrics (fit.metric.P1.P2.NAME) *)
Record fitobj : Type := mkfit {
  f_defdict : dict string defn;
  f_dB : bool;
  f_dataset : dict string Col;
  f_res_df : dict string Col;
  f_res_dict : dict string (list Val);
  f_reader_arg : dict string Val;
  f_model : res (dict string Col);
  f_metric : string -> string -> string -> res Val
}.

(** [d[key]] of a DataFrame or dict *)
Definition item {A} (key : string) (d : dict string A) : res A :=
  match dget string_dec key d with Some a => Ok a | None => Err KeyError end.

(** what has been collected: [usedfs] (named columns) and [staticlayers] *)
Definition layers : Type := list (string * Col) * dict string Val.

(** rtprocess.py:1712-1744: one iteration of the loop over saveparams.
    1728: [fit.defdict[key].val] is already the value of the definition
    (_containers.py:257-259), which has no attribute [value]. *)
Definition get_param_step (fit : fitobj) (sig_to_dB inc_to_degree : bool) (key : string) (l : layers) : res layers :=
  let '(dyn, stat) := l in
  let defs := defdict_parser (f_defdict fit) in                                  (* 1709 *)
  if String.eqb key "sig" then                                                   (* 1713-1717 *)
    match dget string_dec "sig"%string (f_dataset fit) with
    | None => Err AttributeError
    | Some c => Ok (dyn ++ [(key, if negb (f_dB fit) && sig_to_dB then to_dB c else c)], stat)
    end
  else if String.eqb key "inc" && inc_to_degree then                             (* 1718-1719 *)
    match dget string_dec "inc"%string (f_dataset fit) with
    | None => Err AttributeError
    | Some c => Ok (dyn ++ [(key, to_degree c)], stat)
    end
  else if dmem string_dec key (f_defdict fit) then                               (* 1721 *)
    if inb string_dec key (fitted_dynamic defs) then
      do c <- item key (f_res_df fit); Ok (dyn ++ [(key, c)], stat)
    else if inb string_dec key (fitted_const defs) then
      do vs <- item key (f_res_dict fit);
      match vs with [] => Err IndexError | v :: _ => Ok (dyn, dset string_dec key v stat) end
    else if inb string_dec key (constant defs) then Err AttributeError           (* 1727 *)
    else if inb string_dec key (auxiliary defs) then
      do c <- item key (f_dataset fit); Ok (dyn ++ [(key, c)], stat)
    else Ok l
  else match dget string_dec key (f_dataset fit) with
       | Some c =>                                                               (* 1730-1738 *)
           Ok (dyn ++ [(key, if inb string_dec key ["tot"; "surf"; "vol"; "inter"]%string && negb (f_dB fit) && sig_to_dB
                             then to_dB c else c)], stat)
       | None =>
           match dget string_dec key (f_reader_arg fit) with                     (* 1739-1740 *)
           | Some v => Ok (dyn, dset string_dec key v stat)
           | None => Ok l                                                        (* 1741-1745: a warning *)
           end
       end.

(** rtprocess.py:1711-1745: the loop *)
Fixpoint get_params (fit : fitobj) (sig_to_dB inc_to_degree : bool) (saveparams : list string) (l : layers) : res layers :=
  match saveparams with
  | [] => Ok l
  | key :: r => do l' <- get_param_step fit sig_to_dB inc_to_degree key l; get_params fit sig_to_dB inc_to_degree r l'
  end.

(** rtprocess.py:1650-1782 [_postprocess_getparams]; [saveparams]: the set in
    the order of its iteration, [auxdata]: the columns that are appended
    (1747-1748; simplification: they have at least one row) *)
Definition postprocess_getparams (fit : fitobj) (saveparams : list string) (staticlayers : dict string Val)
    (auxdata : dict string Col) (sig_to_dB inc_to_degree : bool) : res layers :=
  do l <- get_params fit sig_to_dB inc_to_degree saveparams ([], staticlayers);
  Ok (fst l ++ auxdata, snd l).

(** what an export function returns: a number or a time series (1615-1619) *)
Inductive exported : Type := XVal (v : Val) | XCol (c : Col).
(** the export functions (None: no dictionary has been passed) *)
Definition xfuncs : Type := dict string (fitobj -> res exported).

(** [parameters.remove(key)] *)
Definition set_remove (key : string) (s : list string) : list string :=
  filter (fun k => negb (String.eqb k key)) s.

(** rtprocess.py:1611-1619: the loop over the export functions; the state is
    (the set [parameters], staticlayers, auxdata), where [parameters] is the
    object owned by the caller.  The set as left behind is returned also when
    a function raises. *)
Fixpoint run_xfuncs (fit : fitobj) (fs : xfuncs) (ps : list string) (stat : dict string Val) (aux : dict string Col)
  : list string * res (dict string Val * dict string Col) :=
  match fs with
  | [] => (ps, Ok (stat, aux))
  | (key, f) :: r =>
      if inb string_dec key ps then
        match f fit with
        | Err e => (ps, Err e)
        | Ok (XVal v) => run_xfuncs fit r (set_remove key ps) (dset string_dec key v stat) aux
        | Ok (XCol c) => run_xfuncs fit r ps stat (dset string_dec key c aux)
        end
      else run_xfuncs fit r ps stat aux
  end.

(** [a ^ b] of sets without duplicates *)
Definition sym_diff (a b : list string) : list string :=
  filter (fun k => negb (inb string_dec k b)) a ++ filter (fun k => negb (inb string_dec k a)) b.

(** a requested metric (1446-1456): (metric, parameter 1, parameter 2) or "custom" *)
Inductive metric : Type := MThree (m p1 p2 : string) | MCustom.

(** str.lower *)
Variable lower : string -> string.
(** rtprocess.py:1634-1641: one metric; "custom" without a function is
    indexed as a string: p[1] = "u", p[2] = "s", p[0] = "c" *)
Definition metric_value (fit : fitobj) (fs : xfuncs) (name : string) (p : metric) : res exported :=
  match p with
  | MCustom =>
      match dget string_dec name fs with
      | Some f => f fit
      | None => do v <- f_metric fit "u"%string "s"%string (lower "c"%string); Ok (XVal v)
      end
  | MThree m p1 p2 => do v <- f_metric fit p1 p2 (lower m); Ok (XVal v)
  end.

(** the exported tables of one fit: dynamic, static, metrics *)
Record tables : Type := mktables {
  t_dynamic : list (string * Col);
  t_static : dict string Val;
  t_metrics : dict string exported
}.

(** the model contributions that are asked for, rtprocess.py:1607-1609:
    [calc_model(...)[model_keys]] with a set *)
Definition model_columns (fit : fitobj) (model_keys : list string) : res (dict string Col) :=
  match model_keys with
  | [] => Ok []
  | _ => do m <- f_model fit;
         if set_indexer then mapM (fun k => do c <- item k m; Ok (k, c)) model_keys else Err TypeError
  end.

(** rtprocess.py:1561-1648 [_HDF_export_postprocess]: the set [parameters] it
    leaves behind and the tables.  (Not modelled: 1599-1605, handing on
    pre-evaluated coefficients.) *)
Definition hdf_export (model_keys : list string) (metrics : dict string metric) (fs : xfuncs)
    (sig_to_dB inc_to_degree : bool) (parameters : list string) (fit : fitobj) : list string * res tables :=
  match model_columns fit model_keys with
  | Err e => (parameters, Err e)
  | Ok aux0 =>
      let '(ps, r) := run_xfuncs fit fs parameters [] aux0 in                    (* 1611-1619 *)
      (ps,
       do sa <- r;
       let '(stat, aux) := sa in
       do l <- postprocess_getparams fit (sym_diff (sym_diff ps (keys aux)) model_keys) stat aux sig_to_dB inc_to_degree;
       do ms <- mapM (fun nm => do v <- metric_value fit fs (fst nm) (snd nm); Ok (fst nm, v)) metrics;
       Ok (mktables (fst l) (snd l) ms))
  end.

(** a result file holds one fit or (MultiFits) the fits of several
    configurations, by name; rtprocess.py:1255-1322 [_run_postprocess] with
    rtfits.py:3306-3343 [apply] and use_config=None: all fits of the file are
    passed to the same function object; an exception loses the whole file *)
Fixpoint export_file (model_keys : list string) (metrics : dict string metric) (fs : xfuncs)
    (sig_to_dB inc_to_degree : bool) (parameters : list string) (file : list (string * fitobj))
  : list string * res (list (string * tables)) :=
  match file with
  | [] => (parameters, Ok [])
  | (name, fit) :: r =>
      let '(ps, t) := hdf_export model_keys metrics fs sig_to_dB inc_to_degree parameters fit in
      match t with
      | Err e => (ps, Err e)
      | Ok t =>
          let '(ps', ts) := export_file model_keys metrics fs sig_to_dB inc_to_degree ps r in
          (ps', do ts <- ts; Ok ((name, t) :: ts))
      end
  end.

(** the files that one process (or, with several processes, one chunk) works
    on, one after the other, with the same function object *)
Fixpoint export_files (model_keys : list string) (metrics : dict string metric) (fs : xfuncs)
    (sig_to_dB inc_to_degree : bool) (parameters : list string) (files : list (list (string * fitobj)))
  : list (res (list (string * tables))) :=
  match files with
  | [] => []
  | f :: r =>
      let '(ps, t) := export_file model_keys metrics fs sig_to_dB inc_to_degree parameters f in
      t :: export_files model_keys metrics fs sig_to_dB inc_to_degree ps r
  end.

(** rtprocess.py:1491-1492 and 1539-1546: [model_keys] and the remaining
    parameters; the partial is built without sig_to_dB and inc_to_degree, so
    that [_HDF_export_postprocess] uses its defaults False (1567-1568).
    [parameters]: the requested names (any order, duplicates allowed) *)
Definition export_data_to_HDF (parameters : list string) (metrics : dict string metric) (fs : xfuncs)
    (sig_to_dB inc_to_degree : bool) (files : list (list (string * fitobj))) : list (res (list (string * tables))) :=
  let ps := nodup string_dec parameters in
  let model_keys := filter (fun k => inb string_dec k ["tot"; "surf"; "vol"; "inter"]%string) ps in
  let ps := sym_diff ps model_keys in
  export_files model_keys metrics fs false false ps files.
End Export.
