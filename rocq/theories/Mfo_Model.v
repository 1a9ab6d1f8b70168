(** Model of loading dumped MultiFits objects:
    /repo/rt1/rtfits.py [load] (51-78), [_MultiAccessors.config_fits] (3088-3091), [_FitContainer] (3126-3163),
    [MultiFits.__setstate__] (3213-3218), [ID] (3237-3242), [set_dataset], [set_aux_data], [set_reader_arg], [set_ID]
    (3278-3301) and [add_config] (3345-3373).

    Simplifications: fit objects are numbers, their attributes are in a heap; datasets, auxiliary data and reader-args
    are values of one type [D] (or None); pickling itself is C121 (Dmp_Model). *)
From Coq Require Import Arith Bool String List.
From Verif Require Import Base Ids_Model Mf_Model.
Import ListNotations.
Local Open Scope string_scope.
Local Open Scope list_scope.

Section Mfo.
Variable D : Type.
(** rtfits.py:444-449: [dataset.sort_index()] if the index is not monotonic, else the dataset *)
Variable sort : D -> D.

(** the attributes of a Fits object that matter here: _dataset, aux_data, reader_arg, _ID and config_name ([None]: None,
    for the last two also: no such attribute) *)
Record fitobj : Type := mkfit { f_data : option D; f_aux : option D; f_reader : option D; f_id : option string; f_name : option string }.
(** all Fits objects *)
Definition heap : Type := nat -> fitobj.
(** the heap with another object at [o] *)
Definition upd (h : heap) (o : nat) (f : fitobj) : heap := fun x => if Nat.eqb x o then f else h x.

(** rtfits.py:438-449 [_check_monotonic_dataset_index] *)
Definition check (d : option D) : option D := option_map sort d.

(** The pickled state of a MultiFits object: config_names, _dataset, _aux_data, _reader_arg and the Fits objects in the
    [__dict__] of its container; [s_old]: the dict of the container has no "_parent" (3131-3132; dumps of old versions) *)
Record state : Type := mkstate { s_names : list string; s_data : option D; s_aux : option D; s_reader : option D; s_cfg : dict string nat; s_old : bool }.
(** A MultiFits object after unpickling; [m_parent]: config_names of container._parent ([None]: this is the object itself) *)
Record mobj : Type := mkmobj { m_names : list string; m_data : option D; m_aux : option D; m_reader : option D; m_cfg : dict string nat; m_parent : option (list string) }.

(** rtfits.py:3201-3211: the names in [MultiFits().__dict__] *)
Definition fresh_dict : list string := ["config_names"; "configs"; "_accessor"; "_dataset"; "_aux_data"; "_reader_arg"].
(** rtfits.py:3358-3366: the checks of [add_config] *)
Definition valid_name (reserved : list string) (n : string) : bool := str_isidentifier n && negb (inb string_dec n reserved).
(** rtfits.py:3369-3371: what [add_config] does to the fit *)
Definition attach (d a : option D) (n : string) (f : fitobj) : fitobj := mkfit (check d) a (f_reader f) (f_id f) (Some n).

(** rtfits.py:3133-3136: [parent = MultiFits()] and [parent.add_config(key, val)] for all items: the names of the
    parent, and the heap afterwards (dataset and aux_data of the parent are None) *)
Fixpoint adopt (h : heap) (ns : list string) (l : dict string nat) : res (list string * heap) :=
  match l with
  | [] => Ok (ns, h)
  | (n, o) :: l => if valid_name fresh_dict n then adopt (upd h o (attach None None n (h o))) (ns ++ [n]) l else Err AssertionError
  end.

(** names that the container iterates over: [self._parent.config_names] *)
Definition iter_names (m : mobj) : list string := match m_parent m with None => m_names m | Some ns => ns end.
(** rtfits.py:3142-3143 [_FitContainer.__iter__] *)
Definition iter (m : mobj) : res (list nat) :=
  mapM (fun n => match dget string_dec n (m_cfg m) with Some o => Ok o | None => Err AttributeError end) (iter_names m).
(** rtfits.py:3088-3091 [config_fits] *)
Definition config_fits (h : heap) (m : mobj) : res (dict string nat) :=
  do os <- iter m;
  do l <- mapM (fun o => match f_name (h o) with Some n => Ok (n, o) | None => Err AttributeError end) os;
  Ok (dupdate string_dec [] l).
(** rtfits.py:3145-3152 [_FitContainer.__getitem__] with a string *)
Definition getitem (m : mobj) (n : string) : res nat :=
  if inb string_dec n (iter_names m) then match dget string_dec n (m_cfg m) with Some o => Ok o | None => Err AttributeError end
  else Err AssertionError.

(** Unpickling: [_FitContainer.__setstate__] (3130-3139), then [MultiFits.__setstate__] (3213-3218; all that its loop can
    do is raise: a fit without config_name fails in [config_fits] already) *)
Definition unpickle (h : heap) (s : state) : res (mobj * heap) :=
  do p <- (if s_old s then do x <- adopt h [] (s_cfg s); Ok (Some (fst x), snd x) else Ok (None, h));
  let m := mkmobj (s_names s) (s_data s) (s_aux s) (s_reader s) (s_cfg s) (fst p) in
  do fs <- config_fits (snd p) m;
  Ok (m, snd p).

(** [for name in self.config_names: getattr(self.configs, name).attr = value] (3278-3301) *)
Fixpoint set_all (g : fitobj -> fitobj) (h : heap) (c : dict string nat) (ns : list string) : res heap :=
  match ns with
  | [] => Ok h
  | n :: ns => match dget string_dec n c with Some o => set_all g (upd h o (g (h o))) c ns | None => Err AttributeError end
  end.
(** rtfits.py:3278-3284 [set_dataset] *)
Definition set_dataset (d : option D) (x : mobj * heap) : res (mobj * heap) :=
  let '(m, h) := x in
  do h' <- set_all (fun f => mkfit (check d) (f_aux f) (f_reader f) (f_id f) (f_name f)) h (m_cfg m) (m_names m);
  Ok (mkmobj (m_names m) (check d) (m_aux m) (m_reader m) (m_cfg m) (m_parent m), h').
(** rtfits.py:3286-3289 [set_aux_data] *)
Definition set_aux_data (a : option D) (x : mobj * heap) : res (mobj * heap) :=
  let '(m, h) := x in
  do h' <- set_all (fun f => mkfit (f_data f) a (f_reader f) (f_id f) (f_name f)) h (m_cfg m) (m_names m);
  Ok (mkmobj (m_names m) (m_data m) a (m_reader m) (m_cfg m) (m_parent m), h').
(** rtfits.py:3291-3294 [set_reader_arg] *)
Definition set_reader_arg (r : option D) (x : mobj * heap) : res (mobj * heap) :=
  let '(m, h) := x in
  do h' <- set_all (fun f => mkfit (f_data f) (f_aux f) r (f_id f) (f_name f)) h (m_cfg m) (m_names m);
  Ok (mkmobj (m_names m) (m_data m) (m_aux m) r (m_cfg m) (m_parent m), h').
(** rtfits.py:3296-3298 [set_ID], with the setter of Fits.ID (421-427) *)
Definition set_ID (i : string) (x : mobj * heap) : res (mobj * heap) :=
  let '(m, h) := x in
  do h' <- set_all (fun f => mkfit (f_data f) (f_aux f) (f_reader f) (Some (get_ID i)) (f_name f)) h (m_cfg m) (m_names m);
  Ok (m, h').

(** rtfits.py:66: [not hasattr(fit, "ID") or fit.ID is None] for a MultiFits object (3237-3242): hasattr catches an
    AttributeError only, not the AssertionError *)
Definition no_ID (x : mobj * heap) : res bool :=
  let '(m, h) := x in
  match m_names m with
  | [] => Err AssertionError
  | n :: _ => match dget string_dec n (m_cfg m) with
              | Some o => Ok (match f_id (h o) with None => true | Some _ => false end)
              | None => Ok true
              end
  end.
(** rtfits.py:51-78 [load]: [stem] of the path *)
Definition load (stem : string) (h : heap) (s : state) : res (mobj * heap) :=
  do x <- unpickle h s;
  do b <- no_ID x;
  do x <- (if b then set_ID stem x else Ok x);
  do x <- set_dataset (m_data (fst x)) x;
  do x <- set_aux_data (m_aux (fst x)) x;
  set_reader_arg (m_reader (fst x)) x.

(** rtfits.py:3345-3373 [add_config] of a loaded object (its [__dict__] also has "_RT1_version", 3381) *)
Definition add_config (n : string) (o : nat) (x : mobj * heap) : res (mobj * heap) :=
  let '(m, h) := x in
  if valid_name mf_dict n then
    Ok (mkmobj (m_names m ++ [n]) (m_data m) (m_aux m) (m_reader m) (dset string_dec n o (m_cfg m)) (m_parent m),
        upd h o (attach (m_data m) (m_aux m) n (h o)))
  else Err AssertionError.
End Mfo.
Arguments mkfit {D}. Arguments f_data {D}. Arguments f_aux {D}. Arguments f_reader {D}. Arguments f_id {D}. Arguments f_name {D}.
Arguments mkstate {D}. Arguments s_names {D}. Arguments s_data {D}. Arguments s_aux {D}. Arguments s_reader {D}. Arguments s_cfg {D}. Arguments s_old {D}.
Arguments mkmobj {D}. Arguments m_names {D}. Arguments m_data {D}. Arguments m_aux {D}. Arguments m_reader {D}. Arguments m_cfg {D}. Arguments m_parent {D}.
Arguments upd {D}. Arguments check {D}. Arguments attach {D}. Arguments adopt {D}. Arguments iter_names {D}. Arguments iter {D}.
Arguments config_fits {D}. Arguments getitem {D}. Arguments unpickle {D}. Arguments set_all {D}. Arguments set_dataset {D}.
Arguments set_aux_data {D}. Arguments set_reader_arg {D}. Arguments set_ID {D}. Arguments no_ID {D}. Arguments load {D}. Arguments add_config {D}.
