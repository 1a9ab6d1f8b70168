(** Model of what plot.fit_timeseries draws: /repo/rt1/rtplots.py 541-747, [calc_model] (/repo/rt1/rtfits.py 2518-2543).

    The rows of the table (measurement, estimates and incidence-angle of an observation: Aln_Model; converted units: GF_Model) are given.
    Styles, ticks and sizes are not modelled. *)
From Coq Require Import ZArith Arith Bool String List.
From Verif Require Import Base GF_Model Aln_Model.
Import ListNotations.
Local Open Scope string_scope.
Local Open Scope list_scope.

Section Fts.
Context {V : Type}.
(** np.rad2deg *)
Variable deg : V -> V.

(** a row of a table with dates: the date, its year and month, the values of the columns *)
Record row : Type := mkrow { time : Z; year : Z; month : Z; val : string -> V }.

(** rtfits.py:2529-2537: the names of the components; [inter]: is there an interaction contribution (RT1.calc) *)
Definition components (inter : bool) : list string := firstn (if inter then 4 else 3) ["tot"; "surf"; "vol"; "inter"].
(** rtplots.py:598 *)
Definition sigma : string := "$\sigma_0$ dataset".
(** the flags of the call, rtplots.py:541-556 *)
Record flags : Type := mkflags { printtot : bool; printsurf : bool; printvol : bool; printint : bool; printorig : bool; printinc : bool }.

(** DataFrame.drop(name, axis=1) *)
Definition drop (c : string) (cols : list string) : res (list string) :=
  if inb string_dec c cols then Ok (filter (fun x => negb (String.eqb x c)) cols) else Err KeyError.
(** rtplots.py:597-622: the columns of contrib *)
Definition columns (inter : bool) (f : flags) : res (list string) :=
  let c0 := components inter ++ [sigma; "inc"] in
  do c1 <- (if negb (printint f) && inb string_dec "inter" c0 then drop "inter" c0 else Ok c0);
  do c2 <- (if negb (printtot f) then drop "tot" c1 else Ok c1);
  do c3 <- (if negb (printsurf f) then drop "surf" c2 else Ok c2);
  do c4 <- (if negb (printvol f) then drop "vol" c3 else Ok c3);
  if negb (printorig f) then drop sigma c4 else Ok c4.

(** index.year.isin(years) *)
Definition isin (sel : list Z) (x : Z) : bool := existsb (Z.eqb x) sel.
(** rtplots.py:625-628, 704-707: the rows of the years and months *)
Definition select (years months : option (list Z)) (rows : list row) : list row :=
  let r := match years with Some l => filter (fun r => isin l (year r)) rows | None => rows end in
  match months with Some l => filter (fun r => isin l (month r)) r | None => r end.

(** rtplots.py:641-647, 687-689: the colours *)
Definition colors (orig : bool) : list (string * string) :=
  [("tot", "r"); ("surf", "b"); ("vol", "g"); ("inter", "y")] ++ (if orig then [(sigma, "k")] else []).
(** color[label] *)
Definition color (orig : bool) (label : string) : res string :=
  match dget string_dec label (colors orig) with Some c => Ok c | None => Err KeyError end.

(** rtplots.py:649: contrib.groupby(contrib.index): the dates in ascending order, each with its rows *)
Definition by_date (rows : list row) : list (list row) := groups_of (map time rows) rows.

(** what is drawn for a component alongside the time-series: colour, a line for each date, points *)
Record panel : Type := mkpanel { p_label : string; p_color : string; p_lines : list (list (V * V)); p_points : list (V * V) }.
(** rtplots.py:652-676; np.array drops the mask for the lines, scatter does not draw masked points (the order of the points is not modelled) *)
Definition inc_panel (rows : list row) (label : string) : res panel :=
  do a <- rectangularize_mask (map (map (fun r => val r "inc")) (by_date rows)) None;       (* 655-660 *)
  do b <- rectangularize_mask (map (map (fun r => val r label)) (by_date rows)) None;       (* 661-666 *)
  let x := map (fun ab => combine (map deg (fst ab)) (snd ab)) (combine (fst a) (fst b)) in (* 667 *)
  do c <- color true label;                                                                 (* 670 *)
  Ok (mkpanel label c x (map fst (filter (fun p => negb (snd p)) (combine (List.concat x) (List.concat (snd a)))))).

(** Series.sort_index() *)
Fixpoint insert_row (r : row) (l : list row) : list row :=
  match l with [] => [r] | q :: l' => if Z.leb (time r) (time q) then r :: l else q :: insert_row r l' end.
(** see [insert_row] *)
Definition sort_rows (l : list row) : list row := fold_right insert_row [] l.

(** a line of the time-series *)
Record line : Type := mkline { l_label : string; l_color : string; l_points : list (Z * V) }.
(** rtplots.py:684-699 *)
Definition time_line (orig : bool) (rows : list row) (label : string) : res line :=
  do c <- color orig label;
  Ok (mkline label c (map (fun r => (time r, val r label)) (sort_rows rows))).

(** rtplots.py:709-712: a parameter; [cols]: the columns of res_df *)
Definition param_line (cols : list string) (rows : list row) (k : string) : res (string * list (Z * V)) :=
  if inb string_dec k cols then Ok (k, map (fun r => (time r, val r k)) rows) else Err KeyError.

(** np.unique of strings: ascending, each once *)
Fixpoint insert_s (x : string) (l : list string) : list string :=
  match l with [] => [x] | y :: r => if String.eqb x y then l else if String.leb x y then x :: l else y :: insert_s x r end.
(** the position of the first occurrence *)
Fixpoint spos (x : string) (l : list string) : nat := match l with [] => 0 | y :: r => if String.eqb x y then 0 else S (spos x r) end.
(** np.unique(lab, return_index=True): with the positions of the first occurrences *)
Definition unique (l : list string) : list (string * nat) := map (fun x => (x, spos x l)) (fold_right insert_s [] l).

(** the figure *)
Record figure : Type := mkfig { f_lines : list line; f_inc : list panel; f_params : list (string * list (Z * V));
  f_legend : list (string * option line); f_ylabel : string }.
(** rtplots.py:722-729 *)
Definition ylabel (sig0 dB : bool) : string := ((if sig0 then "$\sigma_0$" else "Intensity") ++ (if dB then " [dB]" else ""))%string.

(** rtplots.py:541-747 [plot.fit_timeseries]: [rows]: contrib; [pcols], [prows]: res_df *)
Definition fit_timeseries (inter : bool) (f : flags) (dB sig0 : bool) (params : option (list string)) (years months : option (list Z))
    (rows : list row) (pcols : list string) (prows : list row) : res figure :=
  do cols <- columns inter f;
  let rows := select years months rows in
  let labels := filter (fun l => negb (String.eqb l "inc")) cols in
  do ip <- (if printinc f then mapM (inc_panel rows) labels else Ok []);
  do tl <- mapM (time_line (printorig f) rows) labels;
  do pl <- match params with Some l => mapM (param_line pcols (select years months prows)) l | None => Ok [] end;
  let legend := map (fun p => (fst p, nth_error tl (snd p))) (unique (map l_label tl)) in       (* 732-740 *)
  Ok (mkfig tl ip pl legend (ylabel sig0 dB)).
End Fts.
Arguments row : clear implicits. Arguments figure : clear implicits. Arguments panel : clear implicits. Arguments line : clear implicits.
