(** Model of the values that reach the interaction term: /repo/rt1/rt1.py [_set_fnevals] (315-384, the arguments of the
    compiled functions), [_calc_Fint_1], [_calc_Fint_2] (1242-1324, their call), with the names and values of
    /repo/rt1/rtfits.py [R] (1337-1366), [_param_R_dict] (1272-1310), [_order] (979-988), [performfit] (2325-2384),
    [_set_calc_values] (1651-1713) and [calc] (2436-2518), see Par_Model.

    Simplification: the angles, which are the first four arguments, are left out. *)
From Coq Require Import Arith Bool String List.
From Verif Require Import Base Par_Model.
Import ListNotations.
Local Open Scope string_scope.
Local Open Scope list_scope.

Section Pos.
Variable Val : Type.

(** rt1.py 1256-1278, 1298-1320: the function is called with the values of the current param_dict, by position.
    The result is what each name of the compiled function stands for; another number of values is a TypeError
    (lambdified function) or ValueError (symengine), here TypeError *)
Definition call_args (names : list string) (param_dict : list (string * Val)) : res (list (string * Val)) :=
  if Nat.eqb (List.length names) (List.length param_dict) then Ok (combine names (map snd param_dict)) else Err TypeError.

(** rtfits.py 1337-1366, 1651-1713: the values of the names in the interaction term of a fit object with the definitions
    [d], evaluated with the dicts [r] (fitted values) and [fixed].  The functions have been compiled for this
    object (1358-1359); their arguments are the names in [_param_R_dict], in the order of this dict (rt1.py 320-324, 337-357) *)
Definition interaction_values (m : model Val) (frame : bool) (cols : list string) (d : defdict) (old : values Val)
    (r fixed : list (string * Val)) : res (list (string * Val)) :=
  do names <- param_R_names Val m frame cols d;
  do v <- set_calc_values Val m old r fixed;
  call_args names (v_param v).

(** rtfits.py 979-988, 2328-2329, 2382-2383: [dict(zip(self._order, split_vals))], the dict of the fitted values during
    a fit and in its result *)
Definition fit_dict (d : defdict) (vals : list Val) : list (string * Val) := combine (start_names d) vals.
(** rtfits.py 1092-1107 [fixed_dict] *)
Definition aux_dict (frame : bool) (cols : list string) (d : defdict) (aux : string -> Val) : res (list (string * Val)) :=
  do l <- fixed_names frame cols d; Ok (map (fun k => (k, aux k)) l).
End Pos.
