(** Model of the way the values of the parameters reach the three contributions
    when parameters are given in some order: /repo/rt1/rt1.py [_get_fnevals],
    [_set_fnevals] (307-383), [calc] (660-700), [_calc_Fint_1], [_calc_Fint_2]
    (1255-1324), the numerical evaluation of V.p and SRF.brdf (volume.py 87-135,
    surface.py 89-138), and /repo/rt1/rtfits.py [_order] (980-988),
    [_param_R_dict] (1273-1312), [R] (1335-1366), [_set_calc_values]
    (1651-1713), [calc] (2436-2515), and the use of one set of functions by several
    fits ([_reinit_object], 2723-2760; rtprocess.py 518, 734-738, 1182-1185,
    1232-1242, 1519-1546, 1600-1607).
    Simplified: the angles, omega, tau, NormBRDF and bsf are fixed (they are read by
    name, Par_Model.v), so that a contribution is a function of the remaining
    parameters; the layer has tau > 0 *)
From Coq Require Import Bool Arith String List.
From Verif Require Import Base.
Import ListNotations.
Local Open Scope list_scope.

Section Ord.
Variable T : Type.

(** a contribution to the backscattered intensity: the parameters its expression
    contains and its value for given values of the parameters (no /repo code) *)
Record part : Type := mkpart { syms : list string; value : dict string T -> T }.

(** volume.py 117-135, surface.py 119-138: the lambdified function is called with
    [**param_dict]; a symbol that is not there is a NameError *)
Definition by_keyword (c : part) (d : dict string T) : res T :=
  if forallb (fun k => dmem string_dec k d) (syms c) then Ok (value c d) else Err NameError.

(** the functions [_fnevals]: made from the expansion coefficients of the interaction
    term [f_part] for the arguments [f_names], rt1.py 323-353 *)
Record fns : Type := mkfns { f_part : part; f_names : list string }.

(** rt1.py 1255-1276, 1296-1317: [self._fnevals( *args)] with
    [*self.param_dict.values()].  Another number of values than of arguments is a
    TypeError (with symengine a ValueError, not distinguished) *)
Definition by_position (f : fns) (vals : list T) : res T :=
  if Nat.eqb (length (f_names f)) (length vals) then by_keyword (f_part f) (combine (f_names f) vals) else Err TypeError.

(** the attributes of an RT1 object used here, rt1.py 128-180 *)
Record rt : Type := mkrt { r_surf : part; r_vol : part; r_inter : part; int_Q : bool;
  param_dict : dict string T; fnevals : option fns; fnevals_input : option fns }.

(** rt1.py 307-313, 317-383: the functions are made from the present param_dict
    when they are first needed, or taken from [_fnevals_input] *)
Definition get_fnevals (r : rt) : fns * rt :=
  match fnevals r with
  | Some f => (f, r)
  | None =>
      let f := match fnevals_input r with Some f => f | None => mkfns (r_inter r) (keys (param_dict r)) end in
      (f, mkrt (r_surf r) (r_vol r) (r_inter r) (int_Q r) (param_dict r) (Some f) (fnevals_input r))
  end.

(** rt1.py 660-700 [calc]: surface, volume, and (if wanted) interaction contribution *)
Definition rt_calc (r : rt) : res (T * T * option T) * rt :=
  match by_keyword (r_surf r) (param_dict r) with
  | Err e => (Err e, r)
  | Ok s =>
      match by_keyword (r_vol r) (param_dict r) with
      | Err e => (Err e, r)
      | Ok v =>
          if int_Q r then
            let fr := get_fnevals r in
            (match by_position (fst fr) (map snd (param_dict r)) with Ok i => Ok (s, v, Some i) | Err e => Err e end, snd fr)
          else (Ok (s, v, None), r)
      end
  end.

(** the user assigns R.param_dict, rtfits.py 1710-1711 *)
Definition set_param_dict (r : rt) (d : dict string T) : rt :=
  mkrt (r_surf r) (r_vol r) (r_inter r) (int_Q r) d (fnevals r) (fnevals_input r).

(** the attributes of a Fits object used here: the start values, the values of the
    auxiliary parameters, the excluded names, the three contributions *)
Record fit : Type := mkfit { starts : dict string T; fixed : dict string T; excl : list string;
  f_surf : part; f_vol : part; f_inter : part; f_intQ : bool; f_input : option fns }.

(** rtfits.py 1285-1287, 1303-1310, 1703-1707: the excluded names are removed *)
Definition select (ex : list string) (d : dict string T) : dict string T :=
  filter (fun kv => negb (inb string_dec (fst kv) ex)) d.

(** rtfits.py 1273-1312 *)
Definition param_R_dict (f : fit) : dict string T := select (excl f) (starts f ++ fixed f).

(** rtfits.py 1335-1366 [R]: a new RT1 object; the functions of the first one are kept *)
Definition get_R (f : fit) : rt * fit :=
  let r := mkrt (f_surf f) (f_vol f) (f_inter f) (f_intQ f) (param_R_dict f) None (f_input f) in
  if f_intQ f then
    match f_input f with
    | None =>
        let gr := get_fnevals r in
        (snd gr, mkfit (starts f) (fixed f) (excl f) (f_surf f) (f_vol f) (f_inter f) (f_intQ f) (Some (fst gr)))
    | Some _ => (r, f)
    end
  else (r, f).

(** rtfits.py 1651-1713: [res_dict.update(fixed_dict)], then the selected entries *)
Definition set_calc_values (f : fit) (r : rt) (res_dict fixed_dict : dict string T) : rt :=
  set_param_dict r (select (excl f) (dupdate string_dec res_dict fixed_dict)).

(** rtfits.py 2436-2515 [calc(param, inc, return_components=True, fixed_param)] *)
Definition fit_calc (f : fit) (param fixed_param : dict string T) : res (T * T * option T) * fit :=
  let rf := get_R f in
  (fst (rt_calc (set_calc_values f (fst rf) param fixed_param)), snd rf).

(** rtfits.py 980-988, 2327-2331: the dict the optimiser calculates with *)
Definition newdict (f : fit) (vals : list T) : dict string T := combine (keys (starts f)) vals.

(** rtfits.py 2723-2760, rtprocess.py 1232-1242, 1600-1607: the functions
    of another fit are used *)
Definition share (f : fit) (g : fns) : fit :=
  mkfit (starts f) (fixed f) (excl f) (f_surf f) (f_vol f) (f_inter f) (f_intQ f) (Some g).

(** what a user does with a fit (no /repo code) *)
Inductive op : Type := Calc (param fixed_param : dict string T) | Share (g : fns).
(** the results of a list of operations *)
Fixpoint run (f : fit) (l : list op) : list (res (T * T * option T)) * fit :=
  match l with
  | [] => ([], f)
  | Calc p x :: l => let rf := fit_calc f p x in let o := run (snd rf) l in (fst rf :: fst o, snd o)
  | Share g :: l => run (share f g) l
  end.
End Ord.
Arguments mkpart {T}. Arguments syms {T}. Arguments value {T}. Arguments by_keyword {T}. Arguments mkfns {T}. Arguments f_part {T}.
Arguments f_names {T}. Arguments by_position {T}. Arguments mkrt {T}. Arguments get_fnevals {T}. Arguments rt_calc {T}.
Arguments r_surf {T}. Arguments r_vol {T}. Arguments r_inter {T}. Arguments int_Q {T}. Arguments param_dict {T}. Arguments fnevals {T}.
Arguments fnevals_input {T}. Arguments set_param_dict {T}. Arguments mkfit {T}. Arguments starts {T}. Arguments fixed {T}. Arguments excl {T}.
Arguments f_surf {T}. Arguments f_vol {T}. Arguments f_inter {T}. Arguments f_intQ {T}. Arguments f_input {T}. Arguments select {T}.
Arguments param_R_dict {T}. Arguments get_R {T}. Arguments set_calc_values {T}. Arguments fit_calc {T}. Arguments newdict {T}.
Arguments share {T}. Arguments Calc {T}. Arguments Share {T}. Arguments run {T}.
