(** Model of the residuals and the results of a fit:
    /repo/rt1/rtfits.py [fun] in [performfit] (2300-2344), [_calc_model] (1715-1791),
    [calc_model] (2520-2544), [res_df] (1453-1473), [res_df_group] (1475-1498),
    [meandatetimes] (855-873), [_meandt_interp_assigns] (875-920) and the nodes of
    the interpolation in [_assignvals] (1540-1555). *)
From Coq Require Import ZArith Bool Arith List.
From Verif Require Import Base GF_Model Fit_Model.
Import ListNotations.
Local Open Scope list_scope.

(** an elementwise operation of two arrays of the same shape (numpy, no /repo code) *)
Definition cells {X Y Z} (f : X -> Y -> Z) (x : list (list X)) (y : list (list Y)) : list (list Z) :=
  map (fun p => map (fun q => f (fst q) (snd q)) (combine (fst p) (snd p))) (combine x y).
(** the arrays of the parameters as one array of their values (no /repo code) *)
Definition stack {X A} (arrays : list (list (list X))) (shape : list (list A)) : list (list (list X)) :=
  fold_right (cells cons) (map (map (fun _ => [])) shape) arrays.

Section Res.
Context {V A : Type} (mul sub : V -> V -> V) (one : V).
(** R.calc() with the conversion of the units (1779-1789) for one element: values of the fitted
    parameters, incidence angle and auxiliary data *)
Variable model : list (option V) -> A -> V.

(** rtfits.py 1715-1791 [_calc_model]: total backscatter; [ps]: group numbers and values of each
    parameter; [rows]: incidence angle and auxiliary data of each observation.  Simplified: no
    interpolation (C120) *)
Definition calc_array (gi : list Z) (rows : list A) (ps : list (list Z * list V)) : res (list (list V)) :=
  do arrays <- mapM (fun p => assignvals gi (fst p) (snd p)) ps;
  do r <- get_data gi rows;
  Ok (cells model (stack arrays r) r).

(** rtfits.py 2315-2344 [fun] with the vector [x] of the optimiser; [weights]: the column
    data_weights, without it 1.0 (967-979) *)
Definition residual_fun (gi index : list Z) (rows : list A) (sig : list V) (weights : option (list V))
    (dyns : list (list Z)) (x : list V) : res (list V) :=
  do parts <- split_into x (map (fun dyn => Some (Z.of_nat (nunique (dyn_df gi dyn)))) dyns);   (* 2303, 2329-2330 *)
  do tot <- calc_array gi rows (combine dyns parts);                             (* 2332 *)
  do d <- get_data gi sig;
  do w <- match weights with Some c => get_data gi c | None => Ok (map (map (fun _ => one)) d) end;
  do mask <- get_mask gi index;
  Ok (residuals mul sub w tot d mask).                                           (* 2334 *)

(** rtfits.py 2520-2544: the rows (index, total) of the table *)
Definition calc_model (gi index : list Z) (rows : list A) (ps : list (list Z * list V)) : res (list (Z * V)) :=
  let calcindex := concat (grouped gi index) in                                  (* 2528 *)
  do tot <- calc_array gi rows ps;
  do mask <- get_mask gi index;
  let vals := unmasked (concat tot) mask in
  if Nat.eqb (List.length calcindex) (List.length vals) then Ok (combine calcindex vals) else Err ValueError.
End Res.

(** insertion of a row into a table that is sorted by the index, unless the index is already there (no /repo code) *)
Fixpoint insert_first {X} (r : Z * X) (l : list (Z * X)) : list (Z * X) :=
  match l with
  | [] => [r]
  | s :: t => if Z.ltb (fst r) (fst s) then r :: l
              else if Z.eqb (fst r) (fst s) then l else s :: insert_first r t
  end.
(** [df.groupby(level=0).first()] *)
Definition groupby_first {X} (rows : list (Z * X)) : list (Z * X) := fold_left (fun acc r => insert_first r acc) rows [].

(** rtfits.py 1453-1473: the column of one parameter *)
Definition res_df {V} (gi index dyn : list Z) (val : list V) : res (list (Z * option V)) :=
  do a <- assignvals gi dyn val;
  do mask <- get_mask gi index;
  let vals := unmasked (concat a) mask in                                        (* 1465-1466 *)
  let idx := concat (grouped gi index) in
  if Nat.eqb (List.length idx) (List.length vals) then Ok (groupby_first (combine idx vals)) else Err ValueError.

(** rtfits.py 922-933 *)
Definition meandatetimes_group (gi index : list Z) : res (list Z) :=
  mapM meandatetime (map snd (groupby_unsorted Z.eq_dec snd fst (combine index gi))).
(** rtfits.py 1475-1498: the column of one parameter *)
Definition res_df_group {V} (gi index dyn : list Z) (val : list V) : res (list (Z * option V)) :=
  do dates <- meandatetimes_group gi index;
  let x := fold_left (fun x p => put x (snd p) (fst p)) (combine val (param_assigns gi dyn)) (repeat None (List.length dates)) in
  Ok (combine dates x).

(** rtfits.py 855-873, one parameter *)
Definition meandatetimes (index dyn : list Z) : res (list Z) :=
  mapM meandatetime (map snd (groupby_unsorted Z.eq_dec snd fst (combine index dyn))).
(** itertools.groupby: runs of equal keys (no /repo code) *)
Fixpoint runs {X} (l : list (X * Z)) : list (Z * list X) :=
  match l with
  | [] => []
  | (t, k) :: r => match runs r with
                   | (k', ts) :: rest => if Z.eqb k k' then (k, t :: ts) :: rest else (k, [t]) :: (k', ts) :: rest
                   | [] => [(k, [t])]
                   end
  end.
(** rtfits.py 875-920: mean date and number of the value of each run *)
Definition meandt_interp_assigns (index dyn : list Z) : res (list (Z * nat)) :=
  mapM (fun r => do m <- meandatetime (snd r); Ok (m, pos (fst r) (map fst (groupby_unsorted Z.eq_dec (fun x => x) (fun x => x) dyn))))
       (runs (combine index dyn)).
(** [is_monotonic_increasing] (no /repo code) *)
Fixpoint is_monotonic (l : list Z) : bool :=
  match l with
  | [] => true
  | x :: r => match r with [] => true | y :: _ => Z.leb x y && is_monotonic r end
  end.
(** rtfits.py 1540-1549: the nodes (date, value) of the interpolation of one parameter.  Left out: the
    two additional nodes at the first and last date and the call of interp1d (1551-1571) *)
Definition interp_nodes {V} (gi index dyn : list Z) (val : list V) : res (list (Z * option V)) :=
  if is_monotonic (dyn_df gi dyn)                                                (* 707-711 *)
  then do m <- meandatetimes index dyn; Ok (combine m (map Some val))
  else do a <- meandt_interp_assigns index dyn; Ok (map (fun p => (fst p, nth_error val (snd p))) a).
