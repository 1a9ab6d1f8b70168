(** Model of the access to metrics of a fit during a session:
    fit.metric.KEY1.KEY2.<metric>.  /repo/rt1/rtmetrics.py [_metric_keys]
    (17-87), [_RTmetrics1] (136-201), /repo/rt1/rtfits.py [Fits.metric]
    (3029-3050), [__setattr__] (404-413), [_clear_cache] (486-498),
    [performfit] (2250-2390), MultiFits.[set_dataset] (3281-3286).

    Simplifications: one Fits object (what is done with other objects only
    matters as it clears or evicts the caches of the class); the names are
    strings; the arguments d1, d2, auxdat of [_metric_keys] (never used by
    Fits.metric) are left out; the pair of series handed to the metric
    functions is the result of an access. *)
From Coq Require Import List Arith Bool String.
From Verif Require Import Base Met_Model.
Import ListNotations.
Local Open Scope string_scope.
Local Open Scope list_scope.

Section Mky.
(** datasets, results (res_dict), the other attributes (set_V_SRF, defdict,
    sig0, dB) and series *)
Context {Ds Rs Df D : Type}.

(** rtfits.py:276-320: the attributes of the Fits object; [a_res] is None as
    long as there is no attribute res_dict *)
Record att : Type := mkatt { a_ds : Ds; a_res : option Rs; a_def : Df; a_int : bool }.

(** rtmetrics.py:24: the names of the numeric columns of a dataset *)
Variable ds_names : Ds -> list string.
(** rtmetrics.py:26: the names of the retrieved parameters *)
Variable res_names : Rs -> list string.
(** rtmetrics.py:160, 162-165, 167: fit.dataset[key],
    fit.calc_model(return_components=...)[key], fit.res_df[key]; functions of
    the attributes (see C61, C97 and C156 for the model evaluations) *)
Variables ds_col calc_col res_col : att -> string -> res D.
(** rtmetrics.py:183-201: the pair of series on a common index *)
Variable unify : D -> D -> res (D * D).
(** the attributes of a new [_metric_keys] object (rtmetrics.py:17-36: _datakeys,
    _modelkeys, _retrievalkeys, _auxkeys, _all_keys, _check_keys and those of
    every python object) *)
Variable reserved : string -> bool.

(** rtmetrics.py:24-35: the names by source *)
Definition sources_of_fit (f : att) (r : Rs) : sources := mksources (ds_names (a_ds f)) (a_int f) (res_names r) [].

(** rtmetrics.py:169-201: what lru_cache keeps of an [_RTmetrics1] object: d1,
    d2 and the unified pair *)
Record cell : Type := mkcell { c_d1 : option D; c_d2 : option D; c_u : option (D * D) }.
(** nothing evaluated yet (rtmetrics.py:137-155) *)
Definition newcell : cell := mkcell None None None.

(** rtmetrics.py:17-87: a [_metric_keys] object: [_all_keys] at the time it was
    made, and its [_RTmetrics1] objects *)
Record mobj : Type := mkmobj { o_keys : dict string string; o_cell : string -> string -> cell }.

(** rtmetrics.py:23-87 [_metric_keys.__init__] with d1 = None.  fit.res_dict
    (26) does not exist before a fit: AttributeError.  Simplified: a variable
    named like an attribute of the object (72, 76) raises an AttributeError. *)
Definition build (f : att) : res mobj :=
  match a_res f with
  | None => Err AttributeError
  | Some r => let ks := all_keys (sources_of_fit f r) in
              if existsb reserved (keys ks) then Err AttributeError
              else Ok (mkmobj ks (fun _ _ => newcell))
  end.

(** rtmetrics.py:157-167 [_get_data] *)
Definition get_data (f : att) (sn : string * string) : res D :=
  if String.eqb (fst sn) "dataset" then ds_col f (snd sn)
  else if String.eqb (fst sn) "calc_model" then calc_col f (snd sn)
  else res_col f (snd sn).

(** rtmetrics.py:169-179 [d1], [d2] with lru_cache: a cached series is used,
    otherwise it is read now; exceptions are not cached *)
Definition cached (c : option D) (f : att) (sn : string * string) : res D :=
  match c with Some d => Ok d | None => get_data f sn end.

(** rtmetrics.py:181-201 [_unify_idx_data] with lru_cache; result and the new
    content of the caches *)
Definition eval_cell (f : att) (sn1 sn2 : string * string) (c : cell) : res (D * D) * cell :=
  match c_u c with
  | Some u => (Ok u, c)
  | None =>
      match cached (c_d1 c) f sn1 with
      | Err e => (Err e, c)
      | Ok x =>
          let c := mkcell (Some x) (c_d2 c) None in
          match cached (c_d2 c) f sn2 with
          | Err e => (Err e, c)
          | Ok y =>
              let c := mkcell (Some x) (Some y) None in
              match unify x y with
              | Err e => (Err e, c)
              | Ok u => (Ok u, mkcell (Some x) (Some y) (Some u))
              end
          end
      end
  end.

(** functools.lru_cache (128 entries for each of d1, d2, _unify_idx_data): the
    oldest entry is dropped *)
Definition evict (e1 e2 eu : bool) (c : cell) : cell :=
  mkcell (if e1 then None else c_d1 c) (if e2 then None else c_d2 c) (if eu then None else c_u c).

(** replace the caches of one [_RTmetrics1] object *)
Definition put_cell (o : mobj) (k1 k2 : string) (c : cell) : mobj :=
  mkmobj (o_keys o) (fun a b => if String.eqb a k1 && String.eqb b k2 then c else o_cell o a b).

(** m.KEY1.KEY2.<metric> for a [_metric_keys] object m: rtmetrics.py:71-87 (the
    attributes exist for each ordered pair of different keys), 137-151
    [_RTmetrics1.__init__] (source and name of a key) *)
Definition lookup (f : att) (o : mobj) (k1 k2 : string) : res (D * D) * mobj :=
  match resolve_key (o_keys o) k1, resolve_key (o_keys o) k2 with
  | Ok sn1, Ok sn2 =>
      if String.eqb k1 k2 then (Err AttributeError, o)
      else let (r, c) := eval_cell f sn1 sn2 (o_cell o k1 k2) in (r, put_cell o k1 k2 c)
  | _, _ => (Err AttributeError, o)
  end.

(** the attributes of the fit, all [_metric_keys] objects made so far, and the
    one that Fits.metric has cached *)
Record mstate : Type := mkms { m_att : att; m_heap : list mobj; m_cur : option nat }.

(** replace an element of a list *)
Fixpoint upd {A} (l : list A) (j : nat) (x : A) : list A :=
  match l, j with
  | [], _ => []
  | _ :: l, O => x :: l
  | y :: l, S j => y :: upd l j x
  end.

(** an access through object number [j] *)
Definition held (s : mstate) (j : nat) (k1 k2 : string) : res (D * D) * mstate :=
  match nth_error (m_heap s) j with
  | None => (Err NameError, s)
  | Some o => let (r, o) := lookup (m_att s) o k1 k2 in (r, mkms (m_att s) (upd (m_heap s) j o) (m_cur s))
  end.

(** rtfits.py:3029-3050: fit.metric.KEY1.KEY2.<metric> *)
Definition access (s : mstate) (k1 k2 : string) : res (D * D) * mstate :=
  match m_cur s with
  | Some j => held s j k1 k2
  | None =>
      match build (m_att s) with
      | Err e => (Err e, s)
      | Ok o => held (mkms (m_att s) (m_heap s ++ [o]) (Some (List.length (m_heap s)))) (List.length (m_heap s)) k1 k2
      end
  end.

(** what is done in a session *)
Inductive mop : Type :=
| MAccess (k1 k2 : string)                (* fit.metric.KEY1.KEY2.<metric> *)
| MHeld (j : nat) (k1 k2 : string)        (* the same with an earlier result of fit.metric *)
| MDataset (d : Ds)                       (* fit.dataset = ... *)
| MDef (d : Df)                           (* fit.defdict = ..., set_V_SRF, sig0, dB *)
| MFit (r : option Rs)                    (* fit.performfit(), None: it raised before res_dict was set *)
| MOther                                  (* an assignment or a fit of another Fits object *)
| MEvict (j : nat) (k1 k2 : string) (e1 e2 eu : bool) (* more than 128 _RTmetrics1 objects: entries are dropped *)
| MDrop                                   (* more than 128 Fits objects: the entry of metric is dropped *)
| MFitKeep (r : Rs)                       (* fit.performfit(clear_cache=False) *)
| MRes (r : Rs)                           (* fit.res_dict = ... *)
| MInt (b : bool)                         (* fit.int_Q = ... *)
| MMulti (d : Ds).                        (* MultiFits.set_dataset *)

(** rtfits.py:486-498 [_clear_cache]: the entry of metric is dropped (the guard
    in line 489 counts it, so it is passed whenever there is one) *)
Definition uncache (s : mstate) (f : att) : mstate := mkms f (m_heap s) None.

(** rtfits.py:404-413 [__setattr__], 2278-2279 and 2383-2387 [performfit],
    3281-3286 [set_dataset] (which assigns the attribute _dataset) *)
Definition mstep (s : mstate) (a : mop) : mstate :=
  let f := m_att s in
  match a with
  | MAccess k1 k2 => snd (access s k1 k2)
  | MHeld j k1 k2 => snd (held s j k1 k2)
  | MDataset d => uncache s (mkatt d (a_res f) (a_def f) (a_int f))
  | MDef d => uncache s (mkatt (a_ds f) (a_res f) d (a_int f))
  | MFit (Some r) => uncache s (mkatt (a_ds f) (Some r) (a_def f) (a_int f))
  | MFit None => uncache s f
  | MOther => uncache s f
  | MEvict j k1 k2 e1 e2 eu =>
      match nth_error (m_heap s) j with
      | None => s
      | Some o => mkms f (upd (m_heap s) j (put_cell o k1 k2 (evict e1 e2 eu (o_cell o k1 k2)))) (m_cur s)
      end
  | MDrop => uncache s f
  | MFitKeep r | MRes r => mkms (mkatt (a_ds f) (Some r) (a_def f) (a_int f)) (m_heap s) (m_cur s)
  | MInt b => mkms (mkatt (a_ds f) (a_res f) (a_def f) b) (m_heap s) (m_cur s)
  | MMulti d => mkms (mkatt d (a_res f) (a_def f) (a_int f)) (m_heap s) (m_cur s)
  end.
(** a session with a fit object with attributes [f], nothing cached *)
Definition mrun (f : att) (ops : list mop) : mstate := fold_left mstep ops (mkms f [] None).
End Mky.
Arguments att : clear implicits.
Arguments mop : clear implicits.
Arguments mstate : clear implicits.
