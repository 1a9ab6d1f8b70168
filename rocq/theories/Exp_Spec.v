(** Specification vocabulary for the export of results (C68, C107-C110). *)
From Coq Require Import String ZArith QArith Bool List.
From Verif Require Import Base Exp_Model.
Import ListNotations.
Local Open Scope list_scope.

(** ** definitions of variables *)
Definition is_fitted (v : defn) : Prop := n_fitQ v = PBool true.
Definition is_dynamic (v : defn) : Prop := n_freq v <> PNone.
Definition is_auxiliary (v : defn) : Prop := n_val v = PStr "auxiliary".

(** ** what the requested parameters are *)
Section Spec.
Variables Col Val : Type.
Notation fitobj := (fitobj Col Val).

(** a parameter is exported as a time series, as a single value, or not at all *)
Inductive part : Type := Series (c : Col) | Single (v : Val) | Nothing.

(** the content of a dictionary *)
Definition has {A} (key : string) (a : A) (d : dict string A) : Prop := dget string_dec key d = Some a.
Definition lacks {A} (key : string) (d : dict string A) : Prop := ~ In key (keys d).

(** where a parameter is found in a fit (documentation of
    _postprocess_getparams): backscatter data, a fitted or auxiliary
    variable, another column of the dataset, an argument of the reader *)
Inductive found (fit : fitobj) : string -> part -> Prop :=
| found_sig : forall c, has "sig" c (f_dataset _ _ fit) -> found fit "sig" (Series c)
| found_dynamic : forall key v c, key <> "sig"%string -> has key v (f_defdict _ _ fit) ->
    is_fitted v -> is_dynamic v -> has key c (f_res_df _ _ fit) -> found fit key (Series c)
| found_static : forall key v x r, key <> "sig"%string -> has key v (f_defdict _ _ fit) ->
    is_fitted v -> ~ is_dynamic v -> has key (x :: r) (f_res_dict _ _ fit) -> found fit key (Single x)
| found_auxiliary : forall key v c, key <> "sig"%string -> has key v (f_defdict _ _ fit) ->
    ~ is_fitted v -> is_auxiliary v -> has key c (f_dataset _ _ fit) -> found fit key (Series c)
| found_data : forall key c, key <> "sig"%string -> lacks key (f_defdict _ _ fit) ->
    has key c (f_dataset _ _ fit) -> found fit key (Series c)
| found_argument : forall key v, key <> "sig"%string -> lacks key (f_defdict _ _ fit) ->
    lacks key (f_dataset _ _ fit) -> has key v (f_reader_arg _ _ fit) -> found fit key (Single v)
| found_nowhere : forall key, key <> "sig"%string -> lacks key (f_defdict _ _ fit) ->
    lacks key (f_dataset _ _ fit) -> lacks key (f_reader_arg _ _ fit) -> found fit key Nothing.

(** a variable that is neither fitted nor auxiliary *)
Definition is_constant (fit : fitobj) (key : string) : Prop :=
  key <> "sig"%string /\ exists v, has key v (f_defdict _ _ fit) /\ ~ is_fitted v /\ ~ is_auxiliary v.

Definition contributions : list string := ["tot"; "surf"; "vol"; "inter"]%string.

(** what the export of a parameter is: a model contribution, the result of
    its export function, or what is found in the fit *)
Inductive part_of (fs : xfuncs Col Val) (fit : fitobj) (key : string) : part -> Prop :=
| part_model : forall m c, In key contributions -> f_model _ _ fit = Ok m -> has key c m ->
    part_of fs fit key (Series c)
| part_fun_single : forall f v, ~ In key contributions -> has key f fs -> f fit = Ok (XVal _ _ v) ->
    part_of fs fit key (Single v)
| part_fun_series : forall f c, ~ In key contributions -> has key f fs -> f fit = Ok (XCol _ _ c) ->
    part_of fs fit key (Series c)
| part_found : forall p, ~ In key contributions -> lacks key fs -> found fit key p ->
    part_of fs fit key p.

(** the tables hold exactly the given parameters *)
Definition holds (fs : xfuncs Col Val) (fit : fitobj) (params : string -> Prop) (t : tables Col Val) : Prop :=
  NoDup (keys (t_dynamic _ _ t)) /\ NoDup (keys (t_static _ _ t)) /\
  (forall key c, In (key, c) (t_dynamic _ _ t) <-> params key /\ part_of fs fit key (Series c)) /\
  (forall key v, In (key, v) (t_static _ _ t) <-> params key /\ part_of fs fit key (Single v)).

(** an export function that returns a number *)
Definition scalar (fs : xfuncs Col Val) (fit : fitobj) (key : string) : Prop :=
  ~ In key contributions /\ exists f v, has key f fs /\ f fit = Ok (XVal _ _ v).

(** every table that is written, with the fit it belongs to *)
Definition exported_all (P : fitobj -> tables Col Val -> Prop) (files : list (list (string * fitobj)))
    (outs : list (res (list (string * tables Col Val)))) : Prop :=
  Forall2 (fun file out => forall ts, out = Ok ts ->
             Forall2 (fun nf nt => fst nt = fst nf /\ P (snd nf) (snd nt)) file ts) files outs.

(** [key] is in none of the tables *)
Definition absent (key : string) (t : tables Col Val) : Prop :=
  ~ In key (keys (t_dynamic _ _ t)) /\ ~ In key (keys (t_static _ _ t)).
End Spec.
