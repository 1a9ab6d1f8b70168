(** Model of plot.analyzemodel (/repo/rt1/rtplots.py 2336-2858): the ranges of the parameters, the grid of the figure, and the widget (sliders,
    buttons and text-boxes).

    A curve or filling is represented by the parameters it has been calculated with; numbers are rational; colours, hatches and legends are
    not modelled.  The dicts minparams, maxparams, printvariationQ and paramslider have the same keys in the same order (2409-2437, 2547-2572,
    2757) and are one dict here. *)
From Coq Require Import QArith Arith Bool String List.
From Verif Require Import Base Par_Model.
Import ListNotations.
Local Open Scope string_scope.
Local Open Scope list_scope.

(** an entry of defdict: [True, start, ..., ([min], [max])], [False, number], [False, "auxiliary"], [False, other] *)
Inductive aentry : Type := AFit (start lo hi : Q) | AConst (q : Q) | AAux | AOther.
(** a column of the dataset or the fitted values of a parameter: at least one number *)
Definition column : Type := (Q * list Q)%type.
(** min, max, sum and number of the values *)
Definition cmin (c : column) : Q := fold_left (fun a b => if Qle_bool a b then a else b) (snd c) (fst c).
(** see [cmin] *)
Definition cmax (c : column) : Q := fold_left (fun a b => if Qle_bool a b then b else a) (snd c) (fst c).
(** see [cmin] *)
Definition cmean (c : column) : Q := (fold_left Qplus (snd c) (fst c) / inject_Z (Z.of_nat (S (List.length (snd c)))))%Q.

(** the range of a slider and its start value *)
Record range := mkrange { r_lo : Q; r_hi : Q; r_start : Q }.
(** rtplots.py 2407-2437: one definition; [results]: fit.res_dict; [cols]: the columns of fit.dataset.  (fit.fixed_dict consists of
    columns of the dataset, rtfits.py 1092-1107, so that 2433-2436 is never reached.)  np.mean(res_dict[key][0]) is the first value *)
Definition range_of (results : option (dict string column)) (cols : dict string column) (kv : string * aentry) : res (list (string * range)) :=
  match snd kv with
  | AFit s lo hi =>
      let s := match results with
               | Some r => match dget string_dec (fst kv) r with Some c => fst c | None => s end
               | None => s
               end in
      Ok [(fst kv, mkrange lo hi s)]
  | AAux => match dget string_dec (fst kv) cols with
            | Some c => Ok [(fst kv, mkrange (cmin c) (cmax c) (cmean c))]
            | None => Err AssertionError
            end
  | AConst _ | AOther => Ok []
  end.
(** rtplots.py 2405-2437 *)
Definition ranges (results : option (dict string column)) (cols : dict string column) (d : list (string * aentry)) : res (list (string * range)) :=
  do l <- mapM (range_of results cols) d; Ok (concat l).
(** rtplots.py 2402, 2416-2417, 2439-2441 [startparams] *)
Definition start_params (l : list (string * range)) (defined : list string) (bsf : Q) : dict string Q :=
  map (fun kr => (fst kr, r_start (snd kr))) l ++ (if inb string_dec "bsf" defined then [] else [("bsf", bsf)]).

(** ** the grid *)
(** rtplots.py 2453-2475: the number of rows *)
Definition grid_rows (n : nat) : nat := 1 + Nat.div n 2.
(** rtplots.py 2479-2484: the rows of the sliders *)
Fixpoint slider_rows (k i col : nat) : list nat :=
  match k with
  | O => []
  | S k => let col := if Nat.eqb (Nat.modulo i 3) 0 then S col else col in col :: slider_rows k (S i) col
  end.
(** rtplots.py 2476-2486: gs[0, 0:], gsslider[col, ...], gsbutton[1:, 0]; an empty slice raises an IndexError as well *)
Definition grid (n : nat) : res unit :=
  do _ <- mapM (fun r => if Nat.ltb r (grid_rows n) then Ok tt else Err IndexError) (slider_rows n 0 0);
  if Nat.ltb 1 (grid_rows n) then Ok tt else Err IndexError.

(** ** the widget *)
(** components *)
Inductive comp : Type := Tot | Surf | Vol | Inter.
(** a collection of the axes: the area between the curves of two sets of parameters, or the lines of the fit *)
Inductive artist : Type := Fill (k : string) (c : comp) (lo hi : dict string Q) | FitLines.
(** a slider: its boundaries, its value, and whether its button is activated *)
Record ent := mkent { e_min : Q; e_max : Q; e_val : Q; e_on : bool }.
(** the widget: the dict params, the sliders, "... indicate fit" (None: no results), the parameters of the curves, ax.collections *)
Record wid := mkwid { w_params : dict string Q; w_ents : dict string ent; w_fit : option bool; w_lines : dict string Q; w_colls : list artist }.

Section Widget.
(** arguments: int_Q, fillcomponents, labels.  [live]: [for a in ax.collections: a.remove()] iterates over the list that is changed (matplotlib
    before 3.5); otherwise over a copy *)
Variables (int_Q fillcomponents live : bool).
Variable labels : list (string * string).

(** rtplots.py 2642-2643, 2783-2784 *)
Fixpoint every_second {A} (l : list A) : list A := match l with _ :: y :: r => y :: every_second r | _ => [] end.
(** see [every_second] *)
Definition clear (l : list artist) : list artist := if live then every_second l else [].

(** rtplots.py 2669-2670, 2687-2688 *)
Definition not_one (p : dict string Q) : dict string Q :=
  match dget string_dec "bsf" p with
  | Some b => if Qeq_bool b 1 then dset string_dec "bsf" (999 # 1000)%Q p else p
  | None => p
  end.
(** rtplots.py 2665-2745: the fillings of one parameter *)
Definition fills (params : dict string Q) (k : string) (e : ent) : list artist :=
  if e_on e then
    let pmin := not_one (dset string_dec k (e_min e) params) in
    let pmax := not_one (dset string_dec k (e_max e) pmin) in
    [Fill k Tot pmin pmax]
    ++ (if fillcomponents then [Fill k Surf pmin pmax] ++ [Fill k Vol pmin pmax] ++ (if int_Q then [Fill k Inter pmin pmax] else []) else [])
  else [].
(** rtplots.py 2618-2755 [animate]; "... indicate fit" is the last key of printvariationQ *)
Definition animate (value : Q) (key : string) (w : wid) : wid :=
  let params := dset string_dec key value (w_params w) in
  let colls := clear (w_colls w) ++ flat_map (fun ke => fills params (fst ke) (snd ke)) (w_ents w)
               ++ match w_fit w with Some true => [FitLines] | _ => [] end in
  mkwid params (w_ents w) (w_fit w) params colls.

(** matplotlib's Slider: the initial value inside of the boundaries *)
Definition clip (lo hi v : Q) : Q := if Qle_bool v lo then lo else if Qle_bool hi v then hi else v.
(** rtplots.py 2443-2446, 2547-2613, 2757-2759: the figure as it is created *)
Definition create (l : list (string * range)) (defined : list string) (bsf : Q) (has_results : bool) : res wid :=
  do _ <- grid (List.length l);
  let p := start_params l defined bsf in
  Ok (mkwid p (map (fun kr => (fst kr, mkent (r_lo (snd kr)) (r_hi (snd kr)) (clip (r_lo (snd kr)) (r_hi (snd kr)) (r_start (snd kr))) false)) l)
        (if has_results then Some false else None) p []).

(** rtplots.py 2551-2556: the text of the button of a parameter *)
Definition button_label (k : string) : string := match dget string_dec k labels with Some t => t | None => k end.
(** rtplots.py 2777-2779: from the text to the parameter *)
Definition resolve (t : string) : string := fold_left (fun t kv => if string_dec t (snd kv) then fst kv else t) labels t.
(** the text of the last button *)
Definition indicate : string := "... indicate fit".
(** lc.remove() *)
Fixpoint remove_fit (l : list artist) : list artist :=
  match l with [] => [] | FitLines :: r => r | a :: r => a :: remove_fit r end.

(** what the user does: a slider gets a new value, a button is pressed, a boundary (false: lower) is submitted (None: not a number) *)
Inductive op : Type := Slide (k : string) (v : Q) | Click (t : string) | Bound (k : string) (upper : bool) (v : option Q).

(** rtplots.py 2761-2793 [buttonfunc], 2796-2797, 2808-2824 [submit]; the second component is the exception *)
Definition step (w : wid) (o : op) : wid * option pyerr :=
  match o with
  | Slide k v =>
      match dget string_dec k (w_ents w) with
      | None => (w, Some KeyError)
      | Some e => (animate v k (mkwid (w_params w) (dset string_dec k (mkent (e_min e) (e_max e) v (e_on e)) (w_ents w)) (w_fit w) (w_lines w) (w_colls w)), None)
      end
  | Click t =>
      if string_dec t indicate then
        match w_fit w with
        | None => (w, Some KeyError)
        | Some true => (mkwid (w_params w) (w_ents w) (Some false) (w_lines w) (remove_fit (w_colls w)), None)
        | Some false => (mkwid (w_params w) (w_ents w) (Some true) (w_lines w) (w_colls w ++ [FitLines]), None)
        end
      else
        let k := resolve t in
        match dget string_dec k (w_ents w) with
        | None => (w, Some KeyError)
        | Some e =>
            let colls := if e_on e then clear (w_colls w) else w_colls w in
            (animate (e_val e) k
               (mkwid (w_params w) (dset string_dec k (mkent (e_min e) (e_max e) (e_val e) (negb (e_on e))) (w_ents w)) (w_fit w) (w_lines w) colls), None)
        end
  | Bound k upper v =>
      match dget string_dec k (w_ents w), v with
      | None, _ => (w, Some KeyError)
      | Some _, None => (w, Some ValueError)
      | Some e, Some b =>
          let e := if upper then mkent (e_min e) b (e_val e) (e_on e) else mkent b (e_max e) (e_val e) (e_on e) in
          match dget string_dec k (w_params w) with
          | None => (w, Some KeyError)
          | Some p => (animate p k (mkwid (w_params w) (dset string_dec k e (w_ents w)) (w_fit w) (w_lines w) (w_colls w)), None)
          end
      end
  end.
(** a history *)
Definition run (w : wid) (l : list op) : wid := fold_left (fun w o => fst (step w o)) l w.
End Widget.

(** ** the values that are handed to fit.calc *)
(** rtplots.py 2405-2441, 2443-2446, 2621-2624: fit.calc(params, inc=inc) without fixed_param; the dict [params] has the order of the
    definitions (see [start_params]), for the definitions of Par_Model *)
Definition analysis_dict {Val} (d : defdict) (vals : string -> Val) (bsf : Val) : list (string * Val) :=
  flat_map (fun kv => match snd kv with Fitted | Auxiliary => [(fst kv, vals (fst kv))] | _ => [] end) d
  ++ (if inb string_dec "bsf" (keys d) then [] else [("bsf", bsf)]).
