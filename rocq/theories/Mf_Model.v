(** Model of the container for several configurations and of storing and
    loading results: /repo/rt1/rtfits.py MultiFits.[add_config], [_FitContainer],
    [_MultiAccessors], Fits.[_get_res_dict_df]; /repo/rt1/rtresults.py
    HDFaccessor.[_load_fit] *)
From Coq Require Import String Ascii List Arith ZArith Bool.
From Verif Require Import Base Ids_Model.
Import ListNotations.
Open Scope string_scope.

(** str.isidentifier (keywords count as identifiers); ASCII only *)
Definition str_isidentifier (s : string) : bool :=
  match list_ascii_of_string s with
  | [] => false
  | c :: r => is_letter c && forallb (fun d => is_letter d || is_digit d) r
  end.

(** rtfits.py:3196-3214, 3376-3384: the names in MultiFits.__dict__ ("_RT1_version"
    only after a dump; included) *)
Definition mf_dict : list string :=
  ["config_names"; "configs"; "_accessor"; "_dataset"; "_aux_data"; "_reader_arg"; "_RT1_version"].

(** rtfits.py:3194-3214: a MultiFits object: the list config_names and the
    attributes of its _FitContainer (fit objects are numbers); 3124-3126: one of
    them is "_parent", which is the MultiFits object itself ([None]).  The
    attribute config_name of the fit objects is kept here, too.
    Simplification: names with special meaning for Python ("__class__", ...)
    are not modelled. *)
Record multi : Type := mkmulti { m_names : list string; m_attrs : dict string (option nat); m_cname : dict nat string }.
(** rtfits.py:3194-3214 [__init__] *)
Definition new_multi : multi := mkmulti [] [("_parent", None)] [].

(** rtfits.py:3345-3373 [add_config] *)
Definition add_config (m : multi) (name : string) (fit : nat) : res multi :=
  if negb (str_isidentifier name) then Err AssertionError else
  if inb string_dec name mf_dict then Err AssertionError else
  Ok (mkmulti (m_names m ++ [name])                                 (* 3368 *)
              (dset string_dec name (Some fit) (m_attrs m))         (* 3373 *)
              (dset Nat.eq_dec fit name (m_cname m))).              (* 3372 *)
(** a sequence of calls; a call that raises changes nothing *)
Definition add_configs (m : multi) (l : list (string * nat)) : multi :=
  fold_left (fun m x => match add_config m (fst x) (snd x) with Ok m' => m' | Err _ => m end) l m.

(** getattr(container, name) for a configuration *)
Definition get_attr (m : multi) (name : string) : res (option nat) :=
  match dget string_dec name (m_attrs m) with Some x => Ok x | None => Err AttributeError end.
(** self._parent.config_names: fails if "_parent" has been replaced by a Fits object *)
Definition parent_names (m : multi) : res (list string) :=
  do p <- get_attr m "_parent"; match p with None => Ok (m_names m) | Some _ => Err AttributeError end.

(** rtfits.py:3139-3140 [__iter__] (for a name that is "_parent": not a fit) *)
Definition iter_configs (m : multi) : res (list nat) :=
  do ns <- parent_names m;
  mapM (fun n => do x <- get_attr m n; match x with Some f => Ok f | None => Err AttributeError end) ns.
(** rtfits.py:3087-3088 [config_fits] *)
Definition config_fits (m : multi) : res (dict string nat) :=
  do fs <- iter_configs m;
  do l <- mapM (fun f => match dget Nat.eq_dec f (m_cname m) with Some n => Ok (n, f) | None => Err AttributeError end) fs;
  Ok (dupdate string_dec [] l).
(** rtfits.py:3142-3151 [__getitem__] with a string *)
Definition getitem_str (m : multi) (name : string) : res (option nat) :=
  do ns <- parent_names m; if inb string_dec name ns then get_attr m name else Err AssertionError.
(** rtfits.py:3152-3158 [__getitem__] with an integer (negative ones count from the end) *)
Definition getitem_int (m : multi) (k : Z) : res (option nat) :=
  do ns <- parent_names m;
  let n := Z.of_nat (length ns) in
  if negb (k <? n)%Z then Err AssertionError else
  let k := if (k <? 0)%Z then (n + k)%Z else k in
  if (k <? 0)%Z then Err IndexError else
  match nth_error ns (Z.to_nat k) with Some name => get_attr m name | None => Err IndexError end.

(** ** lazy callbacks *)
Section Lazy.
Context {A : Type}.
(** rtfits.py:3097-3115 [lazy]: the remembered arguments (a tuple) and keywords of one callback *)
Record callback : Type := mkcb { cb_args : list A; cb_kwargs : dict string A }.
(** 3102-3113: one call [cb( *args, **kwargs)]: what is handed to the method,
    and the callback afterwards.  A tuple supports neither item assignment nor append. *)
Definition call (c : callback) (args : list A) (kwargs : dict string A) : res (list A * dict string A) * callback :=
  match args with
  | _ :: _ => (Err (match cb_args c with [] => AttributeError | _ :: _ => TypeError end), c)
  | [] => let kw := dupdate string_dec (cb_kwargs c) kwargs in (Ok (cb_args c, kw), mkcb (cb_args c) kw)
  end.
(** several calls of the same callback *)
Fixpoint calls (c : callback) (l : list (list A * dict string A)) : list (res (list A * dict string A)) :=
  match l with
  | [] => []
  | (a, k) :: r => let (x, c) := call c a k in x :: calls c r
  end.
End Lazy.

(** ** storing results *)
Section Store.
Context {V : Type}.
(** a cell of a table: [None] is NaN *)
Definition cell : Type := option V.
(** res_dict: the values of every parameter *)
Definition resdict : Type := list (string * list cell).
(** a row of the table "res_dict" in the HDF file: ID, cfg, cells *)
Record row : Type := mkrow { r_id : Z; r_cfg : string; r_cells : list (string * cell) }.

(** max(len(val)) *)
Definition height (rd : resdict) : nat := fold_right (fun kv n => Nat.max (length (snd kv)) n) 0 rd.
(** rtfits.py:2831-2868 [_get_res_dict_df]: one column per parameter, joined on
    the row number (missing rows of shorter columns: NaN); pd.concat of no frames raises *)
Definition res_frame (id : Z) (cfg : string) (rd : resdict) : res (list row) :=
  match rd with
  | [] => Err ValueError
  | _ => Ok (map (fun n => mkrow id cfg (map (fun kv => (fst kv, nth n (snd kv) None)) rd)) (seq 0 (height rd)))
  end.
(** rtfits.py:2989-3002: the frames of all configurations are concatenated *)
Definition multi_frame (id : Z) (cfgs : list (string * resdict)) : res (list row) :=
  match cfgs with
  | [] => Err ValueError
  | _ => do l <- mapM (fun c => res_frame id (fst c) (snd c)) cfgs; Ok (List.concat l)
  end.
(** columns of a table: all columns that occur, in the order of appearance
    (pd.concat: outer join of the columns, not sorted) *)
Definition columns (t : list row) : list string :=
  fold_left (fun acc k => if inb string_dec k acc then acc else (acc ++ [k])%list) (flat_map (fun r => map fst (r_cells r)) t) [].
(** a cell of the table; NaN if the row has no such column *)
Definition cell_at (r : row) (k : string) : cell := match dget string_dec k (r_cells r) with Some c => c | None => None end.
(** val.dropna().to_list() *)
Definition dropna (l : list cell) : list V := flat_map (fun c => match c with Some v => [v] | None => [] end) l.

(** rtresults.py:670-681 and get_id: the rows of this ID (a KeyError if there
    are none); all columns of the table *)
Definition load_single (t : list row) (id : Z) : res (list (string * list V)) :=
  let rs := filter (fun r => Z.eqb (r_id r) id) t in
  match rs with
  | [] => Err KeyError
  | _ => Ok (map (fun k => (k, dropna (map (fun r => cell_at r k) rs))) (columns t))
  end.
(** rtresults.py:629-646: the rows of this ID and configuration; columns
    without any value are dropped (dropna(how="all", axis=1)) *)
Definition load_config (t : list row) (id : Z) (cfg : string) : res (list (string * list V)) :=
  let rs := filter (fun r => Z.eqb (r_id r) id && String.eqb (r_cfg r) cfg) t in
  match rs with
  | [] => Err KeyError
  | _ => Ok (filter (fun kv => match snd kv with [] => false | _ => true end)
               (map (fun k => (k, dropna (map (fun r => cell_at r k) rs))) (columns t)))
  end.
End Store.
Arguments row : clear implicits.
Arguments cell : clear implicits.
Arguments resdict : clear implicits.
Arguments callback : clear implicits.
