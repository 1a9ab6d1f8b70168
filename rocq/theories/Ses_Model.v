(** Model of a session with Fits objects: attributes, cached properties and
    evaluations of the model.  /repo/rt1/rtfits.py [__setattr__],
    [_clear_cache], [set_model], [V], [SRF], [R], [_set_calc_values],
    [_calc_model], [calc], MultiFits.[set_dataset].

    Simplifications: the caches are functools.lru_cache(maxsize=128) on the
    class; evictions (more than 128 live objects) are not modelled.  All cached
    properties that depend on the dataset are one entry, V and SRF are one
    entry, the functions [_tau_symb], [_tau_func], ... are one entry. *)
From Coq Require Import List Arith Bool String.
From Verif Require Import Base.
Import ListNotations.

Section Ses.
(** set_V_SRF, defdict, dataset, the arrays derived from the dataset, numeric
    values, the functions [_fnevals], results *)
Context {Mdl DDict Ds Dat Val Fn Out : Type}.

(** rtfits.py:1368-1435: omega, tau or NormBRDF of a scattering object: a
    number (no attribute free_symbols: the function is None), or an expression
    with its symbols and its lambdified function *)
Inductive pval : Type := Num (v : Val) | Sym (symbs : list string) (f : list Val -> Val).

(** rtfits.py:1312-1335 [V], [SRF]: (omega, tau, NormBRDF) of the scattering
    objects created from set_V_SRF and [_setdict] (1049-1071, from defdict) *)
Variable mk : Mdl -> DDict -> pval * pval * pval.
(** rtfits.py:560-1040: inc, data, mask, group assignments, ... of a dataset *)
Variable prep : Ds -> DDict -> Dat.
(** rt1.py:300-330 [_fnevals] of the RT1 object with given scattering objects *)
Variable fnof : Mdl -> DDict -> Fn.
(** rtfits.py:1775-1791, 1337-1354: R.calc() and the conversion to sigma_0 and
    dB: sig0, dB, prepared data, definition of the scattering objects, current
    defdict (bsf, param_dict), the values of omega, tau and NormBRDF, the
    parameters, the functions of the interaction term *)
Variable rt : bool -> bool -> Dat -> Mdl * DDict -> DDict -> pval * pval * pval -> list (string * Val) -> option Fn -> Out.

(** rtfits.py:276-320: the attributes of a Fits object *)
Record fit : Type := mkfit { f_model : Mdl; f_defdict : DDict; f_dataset : Ds; f_sig0 : bool; f_dB : bool; f_intQ : bool; f_fn : option Fn }.

(** rtfits.py:449-485 [_cached_props]: cached scattering objects (their
    definition and the current values of omega, tau, NormBRDF), the cached
    functions [_omega_func], [_tau_func], [_N_func], the arrays of the dataset,
    and whether [set_model] has been called *)
Record cache : Type := mkcache {
  c_sc : option (Mdl * DDict * (pval * pval * pval));
  c_fun : option (pval * pval * pval);
  c_dat : option Dat;
  c_set : bool }.
(** functools.lru_cache: nothing cached *)
Definition empty : cache := mkcache None None None false.

(** the objects of the process and the caches of the class *)
Record state : Type := mkstate { s_fit : nat -> fit; s_cache : nat -> cache }.

(** change of one entry of a function (plain mathematics) *)
Definition put {A} (f : nat -> A) (o : nat) (x : A) : nat -> A := fun q => if Nat.eqb q o then x else f q.
(** assignment of attributes of object [o] (object.__setattr__) *)
Definition assign (s : state) (o : nat) (x : fit) : state := mkstate (put (s_fit s) o x) (s_cache s).
(** write the cache entries of object [o] (lru_cache) *)
Definition store (s : state) (o : nat) (c : cache) : state := mkstate (s_fit s) (put (s_cache s) o c).
(** rtfits.py:487-499 [_clear_cache]: cache_clear() empties the cache of the
    class, i.e. of all objects (clearing is skipped if nothing is cached, which is the same) *)
Definition clear (s : state) : state := mkstate (s_fit s) (fun _ => empty).

(** rtfits.py:1312-1335: the cached scattering objects, created if necessary *)
Definition get_sc (s : state) (o : nat) : (Mdl * DDict * (pval * pval * pval)) * state :=
  let c := s_cache s o in let f := s_fit s o in
  match c_sc c with
  | Some x => (x, s)
  | None => let x := (f_model f, f_defdict f, mk (f_model f) (f_defdict f)) in
            (x, store s o (mkcache (Some x) (c_fun c) (c_dat c) (c_set c)))
  end.
(** rtfits.py:1407-1450: the cached functions, taken from the current values of
    the scattering objects if necessary *)
Definition get_fun (s : state) (o : nat) : (pval * pval * pval) * state :=
  let (x, s) := get_sc s o in let c := s_cache s o in
  match c_fun c with
  | Some g => (g, s)
  | None => (snd x, store s o (mkcache (c_sc c) (Some (snd x)) (c_dat c) (c_set c)))
  end.
(** rtfits.py:560-1040: the cached arrays *)
Definition get_dat (s : state) (o : nat) : Dat * state :=
  let c := s_cache s o in let f := s_fit s o in
  match c_dat c with
  | Some d => (d, s)
  | None => let d := prep (f_dataset f) (f_defdict f) in (d, store s o (mkcache (c_sc c) (c_fun c) (Some d) (c_set c)))
  end.
(** rtfits.py:535-552 [set_model] (cached) *)
Definition set_model (s : state) (o : nat) : state :=
  if c_set (s_cache s o) then s else
  let (_, s) := get_fun s o in let c := s_cache s o in
  store s o (mkcache (c_sc c) (c_fun c) (c_dat c) true).
(** rtfits.py:1356-1366: the functions of the interaction term: created at
    the first use, then re-used *)
Definition get_fn (s : state) (o : nat) (x : Mdl * DDict) : option Fn * state :=
  let f := s_fit s o in
  if f_intQ f then
    match f_fn f with
    | Some g => (Some g, s)
    | None => let g := fnof (fst x) (snd x) in
              (Some g, assign s o (mkfit (f_model f) (f_defdict f) (f_dataset f) (f_sig0 f) (f_dB f) (f_intQ f) (Some g)))
    end
  else (None, s).

(** key in res_dict; res_dict[key] (dict: the entry given last, one entry per key) *)
Definition lookup (k : string) (ps : list (string * Val)) : option Val := dget string_dec k ps.
(** [res_dict[key] for key in symbols], rtfits.py:1670-1673 (KeyError) *)
Definition symvals (ps : list (string * Val)) (ks : list string) : res (list Val) :=
  mapM (fun k => match lookup k ps with Some v => Ok v | None => Err KeyError end) ks.
(** rtfits.py:1663-1673 (omega), 1674-1684 (tau), 1685-1696 (NormBRDF): the
    new value of one of them; [g]: cached function, [p]: present value *)
Definition new_value (name : string) (ps : list (string * Val)) (g p : pval) : res pval :=
  match g with
  | Num _ => Ok (match lookup name ps with Some v => Num v | None => p end)
  | Sym ks f => do l <- symvals ps ks; Ok (Num (f l))
  end.

(** the values of the scattering objects that are cached are changed *)
Definition write_sc (s : state) (o : nat) (x : Mdl * DDict) (t : pval * pval * pval) : state :=
  let c := s_cache s o in store s o (mkcache (Some (fst x, snd x, t)) (c_fun c) (c_dat c) (c_set c)).

(** rtfits.py:1651-1712 [_set_calc_values]: the values are assigned one after
    the other to the (cached) scattering objects of R *)
Definition set_values (s : state) (o : nat) (x : Mdl * DDict) (t g : pval * pval * pval) (ps : list (string * Val)) : res (pval * pval * pval) * state :=
  match new_value "omega" ps (fst (fst g)) (fst (fst t)) with
  | Err e => (Err e, s)
  | Ok a =>
    let s := write_sc s o x (a, snd (fst t), snd t) in
    match new_value "tau" ps (snd (fst g)) (snd (fst t)) with
    | Err e => (Err e, s)
    | Ok b =>
      let s := write_sc s o x (a, b, snd t) in
      match new_value "NormBRDF" ps (snd g) (snd t) with
      | Err e => (Err e, s)
      | Ok n => (Ok (a, b, n), write_sc s o x (a, b, n))
      end
    end
  end.

(** rtfits.py:1715-1791 [_calc_model] with the parameters of res_dict and
    fixed_dict together in [ps], R = self.R; also [calc] 2423-2489 (there inc is
    given instead of taken from the dataset: part of [ps] here) *)
Definition evaluate (s : state) (o : nat) (ps : list (string * Val)) : res Out * state :=
  let s := set_model s o in
  let (d, s) := get_dat s o in
  let (x, s) := get_sc s o in
  let (fn, s) := get_fn s o (fst x) in
  let (g, s) := get_fun s o in
  let (t, s) := set_values s o (fst x) (snd x) g ps in
  let f := s_fit s o in
  (match t with
   | Err e => Err e
   | Ok t => Ok (rt (f_sig0 f) (f_dB f) d (fst x) (f_defdict f) t ps fn)
   end, s).

(** what a user does with the objects *)
Inductive op : Type :=
| Create (o : nat) (f : fit)                      (* Fits(...) *)
| SetModel (o : nat) (m : Mdl)                    (* fit.set_V_SRF = m *)
| SetDefdict (o : nat) (dd : DDict)               (* fit.defdict = dd *)
| SetDataset (o : nat) (d : Ds)                   (* fit.dataset = d *)
| SetSig0 (o : nat) (b : bool)                    (* fit.sig0 = b *)
| SetdB (o : nat) (b : bool)                      (* fit.dB = b *)
| SetIntQ (o : nat) (b : bool)                    (* fit.int_Q = b *)
| StartFit (o : nat)                              (* fit.performfit(): clears the cache first, 2278-2279 *)
| Calc (o : nat) (ps : list (string * Val))       (* an evaluation: calc, calc_model, or one by the optimiser *)
| EditDefdict (o : nat) (dd : DDict)              (* the defdict is changed in place, e.g. fit.defdict.tau.val = 3 *)
| MultiSetDataset (os : list nat) (d : Ds).       (* MultiFits.set_dataset, 3281-3286: "_dataset" is set directly *)

(** rtfits.py:406-415 [__setattr__]: the cache is cleared before one of the
    five attributes is set; 276-320: [__init__] sets them all *)
Definition step (s : state) (a : op) : state :=
  match a with
  | Create o f => assign (clear s) o f
  | SetModel o m => let f := s_fit s o in assign (clear s) o (mkfit m (f_defdict f) (f_dataset f) (f_sig0 f) (f_dB f) (f_intQ f) (f_fn f))
  | SetDefdict o dd => let f := s_fit s o in assign (clear s) o (mkfit (f_model f) dd (f_dataset f) (f_sig0 f) (f_dB f) (f_intQ f) (f_fn f))
  | SetDataset o d => let f := s_fit s o in assign (clear s) o (mkfit (f_model f) (f_defdict f) d (f_sig0 f) (f_dB f) (f_intQ f) (f_fn f))
  | SetSig0 o b => let f := s_fit s o in assign (clear s) o (mkfit (f_model f) (f_defdict f) (f_dataset f) b (f_dB f) (f_intQ f) (f_fn f))
  | SetdB o b => let f := s_fit s o in assign (clear s) o (mkfit (f_model f) (f_defdict f) (f_dataset f) (f_sig0 f) b (f_intQ f) (f_fn f))
  | SetIntQ o b => let f := s_fit s o in assign s o (mkfit (f_model f) (f_defdict f) (f_dataset f) (f_sig0 f) (f_dB f) b (f_fn f))
  | StartFit o => clear s
  | Calc o ps => snd (evaluate s o ps)
  | EditDefdict o dd => let f := s_fit s o in assign s o (mkfit (f_model f) dd (f_dataset f) (f_sig0 f) (f_dB f) (f_intQ f) (f_fn f))
  | MultiSetDataset os d =>
      fold_left (fun s o => let f := s_fit s o in assign s o (mkfit (f_model f) (f_defdict f) d (f_sig0 f) (f_dB f) (f_intQ f) (f_fn f))) os s
  end.
(** a session: from new objects, nothing cached *)
Definition run (init : nat -> fit) (ops : list op) : state := fold_left step ops (mkstate init (fun _ => empty)).
End Ses.
Arguments pval : clear implicits.
Arguments op : clear implicits.
Arguments fit : clear implicits.
