(** Model of the processing of one feature: /repo/rt1/rtprocess.py
    RTprocess.[_evalfunc], and the functions of /repo/rt1/rtfits.py it uses:
    Fits.[__init__], [_reinit_object], [reinit_object],
    [_get_fit_to_hdf_dict], MultiFits.[set_dataset], [set_aux_data],
    [set_reader_arg], [set_ID].

    Simplifications: values are opaque except for the distinctions the code
    makes; the least-squares fit is an arbitrary function of the definition,
    the dataset and the functions of the interaction term (performfit clears
    all caches first, rtfits.py:2277-2287, see Ses_Model.v); dumps are not
    modelled. *)
From Coq Require Import String List Arith Bool.
From Verif Require Import Base.
Import ListNotations.

Section Evf.
(** opaque contents: datasets, other objects, results *)
Context {Ds Obj : Type}.

(** Python values that occur as attributes and arguments *)
Inductive val : Type := VNone | VBool (b : bool) | VNum (n : nat) | VStr (s : string) | VFrame (d : Ds) | VSeq (l : list val) | VObj (x : Obj).

(** rtfits.py:438-447 [_check_monotonic_dataset_index] of a frame *)
Variable sorted : Ds -> Ds.
(** len(dataset) == 0 *)
Variable is_empty : Ds -> bool.
(** rtfits.py:303-308, 319-322: the values stored for lsq_kwargs=None,
    lambda_backend=None and defdict=None *)
Variables no_lsq backend no_defs : val.
(** rtfits.py:1358-1359: the functions of the interaction term of a definition (attributes of the fit without dataset) *)
Variable fnevals : list val -> val.
(** rtfits.py:2281-2390: res_dict of the fit, or an exception *)
Variable lsq_fit : list val -> val -> val -> res val.

(** the attributes of an object *)
Definition obj := dict string val.
(** getattr *)
Definition getattr (k : string) (o : obj) : res val := match dget string_dec k o with Some v => Ok v | None => Err AttributeError end.
(** value of a keyword argument with its default *)
Definition arg (k : string) (d : val) (kw : dict string val) : val := match dget string_dec k kw with Some v => v | None => d end.
(** [x if x is not None else d] *)
Definition if_none (d v : val) : val := match v with VNone => d | _ => v end.
(** rtfits.py:438-447 [_check_monotonic_dataset_index] *)
Definition check (v : val) : val := match v with VFrame d => VFrame (sorted d) | _ => v end.

(** rtfits.py:279-322 [Fits.__init__]; unknown keyword arguments are ignored
    (the argument **kwargs is not used); deep copies are equal values *)
Definition init (kw : dict string val) : obj :=
  [("sig0", arg "sig0" (VBool false) kw); ("dB", arg "dB" (VBool false) kw); ("dataset", check (arg "dataset" VNone kw));
   ("set_V_SRF", arg "set_V_SRF" VNone kw); ("lsq_kwargs", if_none no_lsq (arg "lsq_kwargs" VNone kw));
   ("int_Q", arg "int_Q" (VBool true) kw); ("lambda_backend", if_none backend (arg "lambda_backend" VNone kw));
   ("_fnevals_input", arg "_fnevals_input" VNone kw); ("verbose", arg "verbose" (VNum 2) kw); ("ID", arg "ID" (VStr "RT1_fit") kw);
   ("defdict", if_none no_defs (arg "defdict" VNone kw))]%string.

(** the attributes collected by [_reinit_object], rtfits.py:2750-2759, besides
    [_fnevals_input]; [self.defdict.to_dict()] is read back by [__init__] (see C35) and modelled as the same value *)
Definition shared : list string := ["sig0"; "dB"; "dataset"; "defdict"; "set_V_SRF"; "lsq_kwargs"; "int_Q"; "lambda_backend"]%string.

(** rtfits.py:2723-2770 [_reinit_object] *)
Definition reinit_ (self : obj) (share_fnevals share_auxdata : bool) (kw : dict string val) : res obj :=
  do fn <- (if share_fnevals then getattr "_fnevals_input" self else Ok VNone);
  do args <- mapM (fun k => do v <- getattr k self; Ok (k, v)) shared;
  let args := dupdate string_dec (args ++ [("_fnevals_input"%string, fn)]) kw in
  let fit := init args in
  Ok (if share_auxdata then match dget string_dec "aux_data"%string self with Some a => dset string_dec "aux_data"%string a fit | None => fit end else fit).

(** rtfits.py:2795-2829 [reinit_object]: the two options are not passed on *)
Definition reinit_object (self : obj) (share_fnevals share_auxdata : bool) (kw : dict string val) : res obj :=
  reinit_ self false true kw.

(** the attributes that define a fit *)
Definition definition : list string := ["sig0"; "dB"; "set_V_SRF"; "lsq_kwargs"; "int_Q"; "lambda_backend"; "defdict"]%string.

(** rtfits.py:2250-2390 [performfit], 1337-1367 [R]: the functions of the
    interaction term are evaluated and kept if they are needed and not given;
    the results are kept in [res_dict].  Returns the new attributes and whether an exception is raised *)
Definition performfit (o : obj) : obj * res unit :=
  match mapM (fun k => getattr k o) definition, getattr "_fnevals_input" o, getattr "dataset" o with
  | Ok df, Ok fn, Ok ds =>
    let fn := match dget string_dec "int_Q"%string o, fn with Some (VBool true), VNone => fnevals df | _, _ => fn end in
    let o := dset string_dec "_fnevals_input"%string fn o in
    match lsq_fit df fn ds with
    | Ok r => (dset string_dec "res_dict"%string r o, Ok tt)
    | Err e => (o, Err e)
    end
  | Err e, _, _ | _, Err e, _ | _, _, Err e => (o, Err e)
  end.

(** What the reader did: returned a value, or raised. *)
Definition read := res val.

(** why a feature is not fitted: an exception, or Exception("rt1_skip"), rtprocess.py:482 *)
Inductive failure : Type := Raised (e : pyerr) | Skip.

(** rtprocess.py:459-482: dataset and aux_data from the return-value of the
    reader (tuples and lists are one constructor; an empty one raises
    IndexError, one with a single element leaves [dataset] undefined) *)
Definition split (r : read) : (Ds * val) + failure :=
  match r with
  | Err e => inr (Raised e)
  | Ok v =>
    match (match v with
           | VFrame d => inl (d, VNone)
           | VSeq [] => inr (Raised IndexError)
           | VSeq (VFrame d :: l) => match l with [] => inr (Raised UnboundLocalError) | [a] => inl (d, a) | _ => inl (d, VSeq l) end
           | _ => inr (Raised TypeError)
           end) with
    | inl (d, a) => if is_empty d then inr Skip else inl (d, a)
    | inr f => inr f
    end
  end.

(** rtfits.py:2870-2875 [_prepend_ID_to_index]: works for frames only *)
Definition storable (v : val) : bool := match v with VFrame _ => true | _ => false end.
(** rtfits.py:2877-3027 [_get_fit_to_hdf_dict]: the keyword arguments *)
Definition hdf_args : list string := ["save_results"; "save_res_df"; "save_data"; "save_auxdata"]%string.
(** rtfits.py:2877-2884, 3224-3226: called with an unknown keyword argument *)
Definition unknown (names : list string) (kw : dict string bool) : bool := existsb (fun k => negb (inb string_dec k names)) (keys kw).
(** the value of an option (default True) *)
Definition opt (k : string) (kw : dict string bool) : bool := match dget string_dec k kw with Some b => b | None => true end.

(** rtfits.py:2950-2990: the entry "aux_data" of the exported dict (an
    exception while it is prepared is caught, the entry is missing then) *)
Definition hdf_aux (kw : dict string bool) (a : option val) : option val :=
  if opt "save_auxdata" kw then match a with Some v => if storable v then Some v else None | None => None end else None.

(** The exported dict of one feature: name, reader_arg, dataset, aux_data,
    results per configuration.  Simplified: the ID is the name
    given to the fit; the dataset is the one used (also for save_data=False, where the code keeps some columns);
    the tables res_dict and res_df of all configurations are present iff requested *)
Record hdf : Type := mkhdf { h_ID : val; h_reader_arg : val; h_dataset : val; h_aux : option val; h_res_dict : option (list val); h_res_df : option (list val) }.

(** attribute or None: getattr(o, k, None) *)
Definition getn (k : string) (o : obj) : val := match dget string_dec k o with Some v => v | None => VNone end.

(** rtfits.py:2877-3027 for a Fits object *)
Definition hdf_fit (kw : dict string bool) (o : obj) : res hdf :=
  if unknown hdf_args kw then Err TypeError else
  Ok (mkhdf (getn "ID" o) (getn "reader_arg" o) (getn "dataset" o) (hdf_aux kw (dget string_dec "aux_data"%string o))
        (if opt "save_results" kw then Some [getn "res_dict" o] else None) (if opt "save_res_df" kw then Some [getn "res_dict" o] else None)).

(** rtprocess.py:515-546: one feature, parent_fit is a Fits object *)
Definition eval_fit (kw : dict string bool) (parent : obj) (ra ID : val) (r : read) : hdf + failure :=
  match split r with
  | inr f => inr f
  | inl (d, a) =>
    match reinit_object parent true true [("dataset"%string, VFrame d); ("ID"%string, ID)] with
    | Err e => inr (Raised e)
    | Ok fit =>
      let fit := dset string_dec "reader_arg"%string ra fit in
      match performfit fit with
      | (_, Err e) => inr (Raised e)
      | (fit, Ok tt) =>
        let fit := match a with VNone => fit | _ => dset string_dec "aux_data"%string a fit end in
        match hdf_fit kw fit with Ok h => inl h | Err e => inr (Raised e) end
      end
    end
  end.

(** rtfits.py:3195-3213: a MultiFits object: the objects of the configurations
    (different names and objects, see C62) and its own attributes *)
Record multi : Type := mkmulti { m_cfg : list (string * obj); m_dataset : val; m_aux : val; m_reader_arg : val }.
(** set an attribute of all configurations *)
Definition set_all (k : string) (v : val) (l : list (string * obj)) : list (string * obj) := map (fun c => (fst c, dset string_dec k v (snd c))) l.
(** rtfits.py:3281-3286 [set_dataset] *)
Definition set_dataset (v : val) (m : multi) : multi := mkmulti (set_all "dataset" (check v) (m_cfg m)) (check v) (m_aux m) (m_reader_arg m).
(** rtfits.py:3288-3291 [set_aux_data] *)
Definition set_aux_data (v : val) (m : multi) : multi := mkmulti (set_all "aux_data" v (m_cfg m)) (m_dataset m) v (m_reader_arg m).
(** rtfits.py:3293-3296 [set_reader_arg] *)
Definition set_reader_arg (v : val) (m : multi) : multi := mkmulti (set_all "reader_arg" v (m_cfg m)) (m_dataset m) (m_aux m) v.
(** rtfits.py:3298-3300 [set_ID] *)
Definition set_ID (v : val) (m : multi) : multi := mkmulti (set_all "ID" v (m_cfg m)) (m_dataset m) (m_aux m) (m_reader_arg m).

(** rtprocess.py:498-499: performfit of all configurations, ends at the first exception *)
Fixpoint perform_all (l : list (string * obj)) : list (string * obj) * res unit :=
  match l with
  | [] => ([], Ok tt)
  | (n, o) :: r =>
    match performfit o with
    | (o, Err e) => ((n, o) :: r, Err e)
    | (o, Ok tt) => let (r, x) := perform_all r in ((n, o) :: r, x)
    end
  end.

(** rtfits.py:3224-3233, 2877-3027 for a MultiFits object: the argument
    save_res_df does not exist; the ID is the one of the first configuration *)
Definition hdf_multi (kw : dict string bool) (m : multi) : res hdf :=
  if unknown ["save_results"; "save_data"; "save_auxdata"]%string kw then Err TypeError else
  Ok (mkhdf (match m_cfg m with c :: _ => getn "ID" (snd c) | [] => VNone end) (m_reader_arg m) (m_dataset m) (hdf_aux kw (Some (m_aux m)))
        (if opt "save_results" kw then Some (map (fun c => getn "res_dict" (snd c)) (m_cfg m)) else None)
        (Some (map (fun c => getn "res_dict" (snd c)) (m_cfg m)))).

(** rtprocess.py:484-513: one feature, parent_fit is a MultiFits object that is changed *)
Definition eval_multi (kw : dict string bool) (m : multi) (ra ID : val) (r : read) : multi * (hdf + failure) :=
  match split r with
  | inr f => (m, inr f)
  | inl (d, a) =>
    let m := set_dataset (VFrame d) m in
    let m := match a with VNone => m | _ => set_aux_data a m end in
    let m := set_ID ID (set_reader_arg ra m) in
    let (l, x) := perform_all (m_cfg m) in
    let m := mkmulti l (m_dataset m) (m_aux m) (m_reader_arg m) in
    match x with
    | Err e => (m, inr (Raised e))
    | Ok tt => match hdf_multi kw m with Ok h => (m, inl h) | Err e => (m, inr (Raised e)) end
    end
  end.

(** _rtprocess_writer.py:456-476, 617-622, rtprocess.py:741-751: the features of
    one chunk, one after the other (reader_arg, feature_id, what the reader
    did).  starmap_async hands out chunks, the object is pickled once per
    chunk, so the MultiFits object is shared within a chunk.  A failure is
    passed to exceptfunc (rtprocess.py:547-553), whose return-value is up to the user *)
Fixpoint run_multi (kw : dict string bool) (m : multi) (l : list (val * val * read)) : multi * list (hdf + failure) :=
  match l with
  | [] => (m, [])
  | (ra, ID, r) :: l => let (m, h) := eval_multi kw m ra ID r in let (m, hs) := run_multi kw m l in (m, h :: hs)
  end.
(** the same for a Fits object: parent_fit is not changed *)
Definition run_fit (kw : dict string bool) (parent : obj) (l : list (val * val * read)) : list (hdf + failure) :=
  map (fun x => eval_fit kw parent (fst (fst x)) (snd (fst x)) (snd x)) l.
End Evf.
Arguments val Ds Obj : clear implicits.
Arguments read Ds Obj : clear implicits.
Arguments obj Ds Obj : clear implicits.
Arguments hdf Ds Obj : clear implicits.
Arguments multi Ds Obj : clear implicits.
