(** Model of loading a fit from a container that processing runs have written: /repo/rt1/rtfits.py
    Fits.[_get_fit_to_hdf_dict] (2877-3027), [_get_init_dict] (2784-2793), [_get_res_dict_df] (2831-2868), MultiFits
    [_get_init_dict] (3220-3222), and /repo/rt1/rtresults.py HDFaccessor.[_load_fit] (587-681), composed of E2e_Model (the
    container), Pag_Model ([get_id]), Mf_Model (the table "res_dict") and Ids_Model.

    Simplifications: rows of "dataset" and "aux_data" are opaque (which columns of the dataset are stored: Hds_Model; the
    stored dataset is sorted, so that the setter of the loaded fit leaves it alone); printed values are strings; the table
    "res_df" is not used by [_load_fit] and left out; [Fits( **attrs)] keeps its arguments. *)
From Coq Require Import String List ZArith Bool.
From Verif Require Import Base Ids_Model Pip_Model Pag_Model E2e_Model Mf_Model.
Import ListNotations.
Open Scope string_scope.

Section Lof.
(** arguments of [Fits], numbers of results, rows of datasets *)
Context {A V D : Type}.
(** [str] of an argument (2936, 2929), and ast.literal_eval (rtresults.py 626, 656) *)
Variable print : A -> string.
Variable literal_eval : string -> res A.

(** the contents of a row of one of the tables: "init_dict" (rtfits.py 2919-2940; the name of the configuration for
    MultiFits), "reader_arg" (2945-2955), "dataset" / "aux_data" (2957-2992), "res_dict" (2994-3007, 2851-2867) *)
Inductive content : Type :=
| CInit (cfg : option string) (attrs : dict string string)
| CArg (args : dict string string)
| CData (d : D)
| CRes (cfg : option string) (cells : list (string * cell V)).

(** rtresults.py 504-512: the column "ID" of a row of "reader_arg" *)
Definition name_of (x : content) : string :=
  match x with CArg args => match dget string_dec "ID" args with Some s => s | None => "" end | _ => "" end.

(** a fit: arguments and results (rtfits.py 227; None: no attribute res_dict) of one or several configurations *)
Inductive confs : Type :=
| Single (attrs : dict string A) (results : option (resdict V))
| Multi (cfgs : list (string * (dict string A * option (resdict V)))).
(** a fit with the data to be stored and its reader_arg *)
Record fit : Type := mkfit { f_confs : confs; f_data : option (list D); f_aux : option (list D); f_arg : dict string string }.

(** rtfits.py 2936, 2929: the arguments as text *)
Definition printed (attrs : dict string A) : dict string string := map (fun kv => (fst kv, print (snd kv))) attrs.
(** rtfits.py 2919-2942: rows of "init_dict"; pd.concat of nothing raises, the entry is missing then *)
Definition init_rows (c : confs) : list content :=
  match c with
  | Single attrs _ => [CInit None (printed attrs)]
  | Multi l => map (fun x => CInit (Some (fst x)) (printed (fst (snd x)))) l
  end.
(** rtfits.py 2994-3007: rows of "res_dict"; without the attribute res_dict (of any configuration), or without parameters,
    an exception is caught and the entry is missing *)
Definition res_rows (n : Z) (c : confs) : list content :=
  match c with
  | Single _ None => []
  | Single _ (Some rd) => match res_frame n "" rd with Ok l => map (fun r => CRes None (r_cells r)) l | Err _ => [] end
  | Multi l =>
      match mapM (fun x => match snd (snd x) with Some rd => Ok (fst x, rd) | None => Err AttributeError end) l with
      | Err _ => []
      | Ok l => match multi_frame n l with Ok rs => map (fun r => CRes (Some (r_cfg r)) (r_cells r)) rs | Err _ => [] end
      end
  end.
(** rtfits.py 2957-2992: rows of "dataset" and "aux_data" *)
Definition data_rows (d : option (list D)) : list content := match d with Some l => map CData l | None => [] end.

(** rtfits.py 2877-3027 [_get_fit_to_hdf_dict] with the ID number [n], as the tables that are written
    (_rtprocess_writer.py 264-271: the prefix "const__" is removed) *)
Definition export (n : Z) (f : fit) : list (string * list (prow content)) :=
  map (fun t => (fst t, map (Pag_Model.mkrow n false) (snd t)))
    [("init_dict", init_rows (f_confs f)); ("reader_arg", [CArg (f_arg f)]); ("dataset", data_rows (f_data f));
     ("aux_data", data_rows (f_aux f)); ("res_dict", res_rows n (f_confs f))].

(** the fit that is loaded *)
Inductive lconfs : Type :=
| LSingle (attrs : dict string A) (results : option (dict string (list V)))
| LMulti (cfgs : list (string * (dict string A * option (dict string (list V))))).
(** its ID, configurations, data and reader_arg *)
Record loaded : Type := mkloaded { l_ID : string; l_confs : lconfs; l_data : option (list content); l_aux : option (list content); l_arg : dict string string }.

(** rtresults.py 602-624: [try: self.datasets.KEY.get_id(ID) except: None]; a table without rows does not exist (then
    [datasets] has no such attribute).  [multi]: the table has a MultiIndex *)
Definition part (multi : bool) (c : @container content) (k : string) (n : Z) : option (list content) :=
  match table k c with
  | [] => None
  | _ => match read_number name_of multi false c k n with Ok page => Some (map p_val page) | Err _ => None end
  end.
(** [df.loc[ID]]: a KeyError if there are no rows *)
Definition loc (page : list content) : res (list content) := match page with [] => Err KeyError | _ => Ok page end.
(** rtresults.py 650-653, 666-670: the loaded dataset / aux_data *)
Definition load_data (p : option (list content)) : res (option (list content)) :=
  match p with None => Ok None | Some page => do l <- loc page; Ok (Some l) end.

(** self.IDs.loc[ID].values[0] *)
Definition id_of (c : @container content) (n : Z) : res string :=
  match filter (fun x => Z.eqb (fst x) n) (ids_frame name_of c) with x :: _ => Ok (snd x) | [] => Err KeyError end.
(** rtresults.py 614-621: the loaded reader_arg *)
Definition load_arg (c : @container content) (n : Z) (ID : string) : dict string string :=
  match part false c "reader_arg" n with
  | Some [CArg d] => if dmem string_dec "ID" d then d else dset string_dec "ID" ID d
  | _ => [("ID", ID)]
  end.

(** rows of the table "res_dict" with their columns, as in Mf_Model *)
Definition to_row (x : content) : Mf_Model.row V :=
  match x with CRes cfg cells => Mf_Model.mkrow 0 (match cfg with Some s => s | None => "" end) cells | _ => Mf_Model.mkrow 0 "" [] end.
(** {key: val.dropna().to_list() for key, val in rows.items()}; [cols]: the columns of the table *)
Definition values (cols : list string) (rows : list (Mf_Model.row V)) : dict string (list V) :=
  map (fun k => (k, dropna (map (fun r => cell_at r k) rows))) cols.
(** rtresults.py 626, 656: the arguments *)
Definition read_attrs (attrs : dict string string) : res (dict string A) :=
  mapM (fun kv => do a <- literal_eval (snd kv); Ok (fst kv, a)) attrs.

(** rtresults.py 627-646: one configuration of a MultiFits object; 3345-3373 add_config accepts the name *)
Definition load_cfg (cols : list string) (results : option (list content)) (x : content)
  : res (string * (dict string A * option (dict string (list V)))) :=
  match x with
  | CInit (Some cfg) attrs =>
      do a <- read_attrs attrs;
      do r <- match results with
              | None => Ok None
              | Some page =>
                  do p <- loc page;
                  match filter (fun r => String.eqb (r_cfg r) cfg) (map to_row p) with
                  | [] => Err KeyError
                  | rs => Ok (Some (filter (fun kv => match snd kv with [] => false | _ => true end) (values cols rs)))
                  end
              end;
      if str_isidentifier cfg && negb (inb string_dec cfg mf_dict) then Ok (cfg, (a, r)) else Err AssertionError
  | _ => Err AttributeError
  end.
(** is "cfg" a level of the index of the table "init_dict" (it is the same for all rows) *)
Definition has_cfg (c : @container content) : bool :=
  match table "init_dict" c with r :: _ => match p_val r with CInit (Some _) _ => true | _ => false end | [] => false end.

(** rtresults.py 587-681 [_load_fit] for an ID number; 541-543: without the table "init_dict" there is no [load_fit];
    600-603: None if the ID is not known *)
Definition load_number (c : @container content) (n : Z) : res (option loaded) :=
  match table "init_dict" c with
  | [] => Err AttributeError
  | _ =>
  match part (has_cfg c) c "init_dict" n with
  | None => Ok None
  | Some init =>
      let dataset := part true c "dataset" n in
      let aux := part true c "aux_data" n in
      let results := part true c "res_dict" n in
      let cols := columns (map to_row (map p_val (table "res_dict" c))) in
      do ID <- id_of c n;
      let arg := load_arg c n ID in
      if has_cfg c then
        do rows <- loc init;
        do cs <- mapM (load_cfg cols results) rows;
        do d <- load_data dataset;
        do x <- load_data aux;
        Ok (Some (mkloaded (get_ID ID) (LMulti cs) d x arg))
      else
        do rows <- loc init;
        match rows with
        | [CInit None attrs] =>
            do a <- read_attrs attrs;
            do d <- load_data dataset;
            do x <- load_data aux;
            do r <- match results with None => Ok None | Some page => do p <- loc page; Ok (Some (values cols (map to_row p))) end;
            Ok (Some (mkloaded (get_ID ID) (LSingle a r) d x arg))
        | _ => Err AttributeError
        end
  end
  end.
(** rtresults.py 592-593: the same for a name *)
Definition load_name (c : @container content) (ID : string) : res (option loaded) :=
  do n <- ID_to_IDnum (ids_frame name_of c) ID; load_number c n.
End Lof.
Arguments content : clear implicits.
Arguments fit : clear implicits.
Arguments loaded : clear implicits.
