(** Model of how the values of the parameters reach the radiative transfer
    model: /repo/rt1/rtfits.py [_setdict] (1050-1074), [_fixed_dict] (1077-1090),
    [fixed_dict] (1092-1107), the names of [_startvaldict] (1109-1165),
    [_param_R_dict] (1274-1310), [_get_V_SRF_symbs], [_get_V_SRF_funcs]
    (1368-1395), [_Vsymb], [_SRFsymb] (1604-1624), [_get_excludesymbs]
    (1626-1650), [_set_calc_values] (1652-1712), [calc] (2436-2518), and the
    call of the lambdified scattering functions (volume.py 74-135,
    surface.py 76-138). *)
From Coq Require Import QArith Bool Arith String List.
From Verif Require Import Base Ini_Model.
Import ListNotations.
Local Open Scope string_scope.
Local Open Scope list_scope.

(** an entry of defdict (rtfits.py 124-150): [True, ...]; [False, number];
    [False, "auxiliary"]; [False, anything else] (an array or a frame) *)
Inductive entry : Type := Fitted | Number (q : Q) | Auxiliary | Array.
(** rtfits.py 324-338 (the dict) *)
Definition defdict := list (string * entry).

(** rtfits.py 1050-1074 [_setdict] *)
Definition setdict (d : defdict) : list (string * sx) :=
  map (fun kv => (fst kv, match snd kv with Number q => SNum q | _ => SSym (fst kv) end)) d.

(** the names in [_startvaldict], rtfits.py 1109-1165.  Simplified: the columns
    of auxiliary start values are there *)
Definition start_names (d : defdict) : list string :=
  flat_map (fun kv => match snd kv with Fitted => [fst kv] | _ => [] end) d.

(** the names in [fixed_dict], rtfits.py 1077-1107: only auxiliary entries, and
    only if the dataset is a frame (with the columns [cols]) *)
Fixpoint fixed_names (frame : bool) (cols : list string) (d : defdict) : res (list string) :=
  match d with
  | [] => Ok []
  | (k, Auxiliary) :: r =>
      if frame then
        if inb string_dec k cols then do l <- fixed_names frame cols r; Ok (k :: l)
        else Err AssertionError                                              (* 1102-1104 *)
      else fixed_names frame cols r
  | _ :: r => fixed_names frame cols r
  end.

Section Values.
Variable Val : Type.

(** omega, tau or NormBRDF of a scattering object: a number (no attribute
    free_symbols, 1371-1372, 1386-1387) or a sympy expression with its symbols
    and the lambdified function *)
Inductive quantity : Type := QNum | QExpr (symbs : list string) (f : (string -> option Val) -> Val).

(** the scattering functions V and SRF: the names returned by [_Vsymb] and
    [_SRFsymb] (1604-1624), the free symbols of [_func], and the quantities *)
Record model : Type := mkmodel { m_Vsymb : list string; m_Ssymb : list string; m_Vfunc : list string; m_Sfunc : list string;
  m_omega : quantity; m_tau : quantity; m_N : quantity }.

(** rtfits.py 1289, 1629 *)
Definition angset : list string := ["phi_ex"; "phi_0"; "theta_0"; "theta_ex"].
(** rtfits.py 1281-1284, 1640-1643 *)
Definition reserved : list string := ["omega"; "tau"; "NormBRDF"; "bsf"].
(** set difference *)
Definition minus (a b : list string) : list string := filter (fun x => negb (inb string_dec x b)) a.

(** rtfits.py 1368-1374 *)
Definition symbs (q : quantity) : list string := match q with QNum => [] | QExpr l _ => l end.
(** rtfits.py 1286, 1633 *)
Definition toNlist (m : model) : list string := symbs (m_tau m) ++ symbs (m_omega m) ++ symbs (m_N m).
(** rtfits.py 1290-1291, 1630-1631 *)
Definition vsrf (m : model) : list string := minus (m_Vsymb m) angset ++ minus (m_Ssymb m) angset.

(** symmetric difference of two sets, rtfits.py 1293-1295 *)
Definition symdiff (a b : list string) : list string := minus a b ++ minus b a.

(** the names in [_param_R_dict], rtfits.py 1274-1310.  Simplified: no name is
    both fitted and fixed (1280 would be a TypeError), they are keys of one dict *)
Definition param_R_names (m : model) (frame : bool) (cols : list string) (d : defdict) : res (list string) :=
  do fixed <- fixed_names frame cols d;
  if forallb (fun s => inb string_dec s (symdiff (start_names d) fixed)) (vsrf m)      (* 1297-1301 *)
  then Ok (minus (minus (start_names d ++ fixed) reserved) (minus (toNlist m) (vsrf m)))
  else Err AssertionError.

(** rtfits.py 1626-1650 *)
Definition excludesymbs (m : model) : list string := reserved ++ minus (toNlist m) (vsrf m).

(** the numbers of an RT1 object (1.0 and the angles are left out) *)
Record values : Type := mkvalues { v_omega : Val; v_tau : Val; v_N : Val; v_bsf : Val; v_param : list (string * Val) }.

(** rtfits.py 1666-1675 (omega), 1677-1686 (tau), 1688-1697 (NormBRDF): all names
    must be in the dicts *)
Definition new_value (name : string) (all : list (string * Val)) (q : quantity) (old : Val) : res Val :=
  match q with
  | QNum => Ok (match dget string_dec name all with Some v => v | None => old end)
  | QExpr l f => if forallb (fun s => dmem string_dec s all) l then Ok (f (fun s => if inb string_dec s l then dget string_dec s all else None))
                 else Err KeyError
  end.

(** rtfits.py 1652-1712 with the dict [r] of the values (after [_assignvals]).
    Simplified: the values written before an exception are not kept (Ses_Model.v) *)
Definition set_calc_values (m : model) (old : values) (r fixed : list (string * Val)) : res values :=
  let all := dupdate string_dec r fixed in                                    (* 1660 *)
  do om <- new_value "omega" all (m_omega m) (v_omega old);
  do ta <- new_value "tau" all (m_tau m) (v_tau old);
  do n <- new_value "NormBRDF" all (m_N m) (v_N old);
  let b := match dget string_dec "bsf" all with Some v => v | None => v_bsf old end in   (* 1699-1700 *)
  Ok (mkvalues om ta n b (filter (fun kv => negb (inb string_dec (fst kv) (excludesymbs m))) all)).   (* 1706-1712 *)

(** volume.py 74-135, surface.py 76-138: the function is lambdified with the
    names in param_dict as arguments; a symbol that is none of them is a NameError *)
Definition evaluable (m : model) (v : values) : bool :=
  forallb (fun s => inb string_dec s (angset ++ keys (v_param v))) (m_Vfunc m ++ m_Sfunc m).
(** rtfits.py 1715-1791 [_calc_model] up to the numbers R.calc() works with *)
Definition calc_model (m : model) (old : values) (r fixed : list (string * Val)) : res values :=
  do v <- set_calc_values m old r fixed;
  if evaluable m v then Ok v else Err NameError.

(** rtfits.py 2436-2518 [calc]: first [self.R] (1337-1354) with [_param_R_dict],
    then the values of the arguments.  Simplified: the alignment of frames
    (2484-2500) is left out *)
Definition calc (m : model) (frame : bool) (cols : list string) (d : defdict) (old : values) (param : list (string * Val))
    (fixed_param : option (list (string * Val))) : res values :=
  do _ <- param_R_names m frame cols d;
  calc_model m old param (match fixed_param with None => [] | Some f => f end).

(** dicts are shared by reference: the dicts of the session, the number of a dict is its place (no /repo code) *)
Definition heap : Type := list (list (string * Val)).
(** no /repo code: the dict at a place, and the heap with another dict there *)
Definition at_ (h : heap) (i : nat) : list (string * Val) := nth i h [].
(** see [at_] *)
Fixpoint put (h : heap) (i : nat) (d : list (string * Val)) : heap :=
  match h, i with
  | [], _ => []
  | _ :: r, O => d :: r
  | x :: r, S j => x :: put r j d
  end.
(** rtfits.py 1652-1660: the dicts after [_set_calc_values] was called with the dict at [ref],
    and the place of the dict that is used for the values.  [expand] is the assignment of the
    values of one parameter in [_assignvals] (1512-1601), which makes a new dict *)
Definition set_calc_dicts (assign : bool) (expand : string -> Val -> Val) (h : heap) (ref : nat) (fixed : list (string * Val)) : heap * nat :=
  let hr := if assign then (h ++ [map (fun kv => (fst kv, expand (fst kv) (snd kv))) (at_ h ref)], length h) else (h, ref) in
  (put (fst hr) (snd hr) (dupdate string_dec (at_ (fst hr) (snd hr)) fixed), snd hr).
(** rtfits.py 2477-2518 [calc]: the values are put in new dicts ([column] is [atleast_1d(...)[:, newaxis]]) *)
Definition calc_dicts (column : Val -> Val) (h : heap) (param fixed : nat) : heap * nat :=
  let col d := map (fun kv => (fst kv, column (snd kv))) d in
  set_calc_dicts false (fun _ v => v) (h ++ [col (at_ h param)]) (length h) (col (at_ h fixed)).
(** rtfits.py 1453-1473 [res_df], 1589-1596: the value of every name is assigned with
    the groups of the fitted parameters (1031-1038) *)
Definition res_df_names (d : defdict) (r : list (string * Val)) : res (list string) :=
  mapM (fun kv => if inb string_dec (fst kv) (start_names d) then Ok (fst kv) else Err KeyError) r.
End Values.
Arguments QNum {Val}. Arguments QExpr {Val} symbs f. Arguments mkmodel {Val}. Arguments mkvalues {Val}.
Arguments m_Vsymb {Val}. Arguments m_Ssymb {Val}. Arguments m_Vfunc {Val}. Arguments m_Sfunc {Val}. Arguments m_omega {Val}.
Arguments m_tau {Val}. Arguments m_N {Val}. Arguments v_omega {Val}. Arguments v_tau {Val}. Arguments v_N {Val}.
Arguments v_bsf {Val}. Arguments v_param {Val}.

(** ** the model of a dict set_V_SRF *)
Section Dict.
Variable Val : Type.
Variable parse : string -> option sx.
(** the lambdified function of an expression (1376-1390) *)
Variable lam : sx -> (string -> option Val) -> Val.

(** one of omega, tau, NormBRDF in the dict of properties, rtfits.py 2184-2211: numbers
    of the dict or of [setdict] stay numbers, everything else becomes an expression *)
Definition quantity_of (sd : list (string * sx)) (kv : list (string * pval)) (name : string) : res (quantity Val) :=
  match dget string_dec name kv with
  | None => Ok QNum                                   (* default of the constructor *)
  | Some (VNum _) => Ok QNum
  | Some (VStr s) =>
      match dget string_dec s sd with
      | Some (SNum _) => Ok QNum
      | Some e => Ok (QExpr (free_symbols e) (lam e))
      | None => match parse s with
                | None => Err ValueError
                | Some e => let u := xreplace sd e in Ok (QExpr (free_symbols u) (lam u))
                end
      end
  end.

(** the symbols of [_func] of a scattering object: those of its attributes other than
    omega, tau, NormBRDF, of the weights and of the components (volume.py 586-590,
    surface.py 571-574, C137) *)
Fixpoint func_symbols (o : obj) : list string :=
  match o with
  | Obj _ attrs cs _ =>
      flat_map (fun kv => if counted (fst kv) then free_symbols (snd kv) else []) attrs ++
      (fix go (l : list (sx * obj)) : list string :=
         match l with [] => [] | (w, c) :: r => free_symbols w ++ func_symbols c ++ go r end) cs
  end.

(** rtfits.py 1312-1335 with a dict: V and SRF *)
Definition model_of (d : defdict) (V S : props) : res (model Val) :=
  do v <- init_V_SRF parse (setdict d) V;
  do s <- init_V_SRF parse (setdict d) S;
  match V, S, v, s with
  | Props _ kvV _, Props _ kvS _, Obj _ _ _ fv, Obj _ _ _ fs =>
      do om <- quantity_of (setdict d) kvV "omega";
      do ta <- quantity_of (setdict d) kvV "tau";
      do n <- quantity_of (setdict d) kvS "NormBRDF";
      Ok (mkmodel fv fs (func_symbols v) (func_symbols s) om ta n)
  end.
End Dict.
