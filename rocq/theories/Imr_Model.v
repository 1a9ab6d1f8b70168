(** Model of the intermediate results and the progress of a fit: /repo/rt1/rtfits.py [performfit] (2251-2402: 2291-2298, 2306-2354),
    [_calc_jac] (1793-1965: 1947-1948), and of what plot.intermediate_results shows of them (/repo/rt1/rtplots.py 1246-1262, 1284-1316, 1337-1402).

    scipy.optimize.least_squares is any sequence of evaluations of the function and of the jacobian.  Figures, colours (as long as there are
    enough of them) and the residuals of groups (Aln_Model) are not modelled. *)
From Coq Require Import QArith Arith Bool String List.
From Verif Require Import Base Prg_Model.
Import ListNotations.
Local Open Scope string_scope.
Local Open Scope list_scope.

Section Imr.
(** vectors of parameters, residuals, jacobians *)
Context {X E J : Type}.
(** rtfits.py 2330-2333: the residuals of a vector of parameters; 2350-2352: the jacobian *)
Variable resid : X -> res E.
Variable jacob : X -> res J.

(** fit.intermediate_results *)
Record store : Type := mkstore { s_par : list X; s_res : list E; s_jac : list J }.
(** an evaluation by scipy *)
Inductive ev : Type := Fun (x : X) | Jac (x : X).
(** the attribute of the fit object (None: there is no such attribute) *)
Definition attr : Type := option store.

(** rtfits.py 2313-2354 [fun], [dfun] and 1947-1948; the second component is the exception *)
Definition eval (record : bool) (s : attr) (e : ev) : attr * option pyerr :=
  match e with
  | Fun x =>
      match resid x with
      | Err er => (s, Some er)
      | Ok r => ((if record then match s with Some t => Some (mkstore (s_par t ++ [x]) (s_res t ++ [r]) (s_jac t)) | None => None end else s), None)
      end
  | Jac x =>
      match jacob x with
      | Err er => (s, Some er)
      | Ok j => (match s with Some t => Some (mkstore (s_par t) (s_res t) (s_jac t ++ [j])) | None => None end, None)
      end
  end.
(** the evaluations up to the first exception *)
Fixpoint evals (record : bool) (s : attr) (l : list ev) : attr * option pyerr :=
  match l with
  | [] => (s, None)
  | e :: r => match eval record s e with (s, Some er) => (s, Some er) | (s, None) => evals record s r end
  end.
(** rtfits.py 2251-2402 [performfit](intermediate_results=record) *)
Definition performfit (record : bool) (l : list ev) (s : attr) : attr * option pyerr :=
  evals record (if record then Some (mkstore [] [] []) else s) l.
(** a history of fits with the same object *)
Definition session (fits : list (bool * list ev)) : attr := fold_left (fun s f => fst (performfit (fst f) (snd f) s)) fits None.

(** rtplots.py 1247-1253 [plot.intermediate_results] *)
Definition plot_needs (s : attr) : res store := match s with Some t => Ok t | None => Err AssertionError end.
End Imr.
Arguments store : clear implicits. Arguments ev : clear implicits.

(** rtplots.py 1284-1291: np.mean(val[0]) of the values of a parameter (val is the list of its values) *)
Definition shown_value (vals : list Q) : res Q := match vals with v :: _ => Ok v | [] => Err IndexError end.
(** rtplots.py 1256-1260, 1379-1387: the label of the parameter in the plot *)
Definition label_of (key : string) (nvals : nat) : string := if Nat.eqb nvals 1 then key else key ++ " (mean)".
(** rtplots.py 1335-1342, 1379-1402: the parameters that are drawn: one axis for each key of the jacobian, zip with the parameters *)
Definition drawn (jac_keys par_keys : list string) : list string :=
  filter (fun k => inb string_dec k jac_keys) (map snd (combine (seq 0 (List.length jac_keys)) par_keys)).
(** rtplots.py 1355: cmaps[nparam]: each temporally varying parameter needs a colormap *)
Definition colored (cmaps : nat) (tsparams : list string) : res unit := if Nat.leb (List.length tsparams) cmaps then Ok tt else Err IndexError.

(** rtfits.py 2306-2311: max_cnt; [lsq]: max_nfev in lsq_kwargs (None: not given; Some None: the value None) *)
Definition max_cnt (lsq : option (option nat)) : option nat := match lsq with Some m => m | None => Some 1000%nat end.
(** rtfits.py 2314-2324: the message of evaluation number i (None: the final message "max_nfev reached"); comparison and division with the
    value None raise a TypeError *)
Definition progress (lsq : option (option nat)) (i : nat) : res (option (list bool * nat * nat)) :=
  match max_cnt lsq with None => Err TypeError | Some m => update_progress i m end.
