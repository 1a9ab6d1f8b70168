(** Model of how the plots combine values of observations (/repo/rt1/rtplots.py: scatter 452-539, fit_timeseries 590-625,
    printsig0analysis 1562-1735, intermediate_residuals 2965-3060; rtfits.py: index 775-783, calc_model 2519-2545, performfit 2330-2341).

    An observation is the number of its row in the dataset; [index] are the dates of the rows, [gi] the numbers of their groups
    (rtfits.py 713-734).  The array of estimates holds the estimate of a row where the arrays of the dataset hold its value.  The values themselves,
    their units and the figures are not modelled. *)
From Coq Require Import ZArith QArith Qabs Bool List.
From Verif Require Import Base GF_Model Fit_Model.
Import ListNotations.
Local Open Scope Z_scope.
Local Open Scope list_scope.

(** rtfits.py:2519-2545 [calc_model], 2330: res[~self.mask], the rows of the values in the order in which they are returned *)
Definition calc_rows (index gi : list Z) : res (list nat) :=
  do a <- get_data gi (seq 0 (List.length gi));
  do m <- get_mask gi index;
  Ok (unmasked (concat a) m).
(** rtfits.py:2527: np.concatenate(self._orig_index) *)
Definition calc_index (index gi : list Z) : list Z := concat (grouped gi index).

(** list(dict.fromkeys(l)): the distinct elements in the order of their first occurrence *)
Definition fromkeys (l : list Z) : list Z := map fst (groupby_unsorted Z.eq_dec (fun x => x) (fun x => x) l).
(** rtfits.py:775-783 [index] *)
Definition fit_index (index gi : list Z) : list Z := concat (map fromkeys (grouped gi index)).

(** pandas: Index.is_unique *)
Fixpoint is_unique (l : list Z) : bool :=
  match l with [] => true | x :: r => negb (existsb (Z.eqb x) r) && is_unique r end.
(** the value with the label t *)
Fixpoint at_label {A} (t : Z) (l : list (Z * A)) : option A :=
  match l with [] => None | (u, a) :: r => if Z.eqb t u then Some a else at_label t r end.
(** pandas: alignment of the series (idx, vals) to the labels [target]: identical indexes are not looked at further, otherwise
    the series is reindexed, which raises a ValueError (pd.concat: an InvalidIndexError) if its labels are not unique *)
Definition align {A} (target : list Z) (idx : list Z) (vals : list A) : res (list (option A)) :=
  if list_eq_dec Z.eq_dec target idx then Ok (map Some vals)
  else if is_unique idx then Ok (map (fun t => at_label t (combine idx vals)) target)
  else Err ValueError.

(** rtplots.py:490-493 [scatter]: pd.concat([fit.dataset.sig, fit.calc_model().tot], axis=1): the measurement and the estimate of each point *)
Definition scatter (index gi : list Z) : res (list (nat * option nat)) :=
  do est <- calc_rows index gi;
  do al <- align index (calc_index index gi) est;
  Ok (combine (seq 0 (List.length index)) al).

(** rtplots.py:590-617 [fit_timeseries]: the estimate, the incidence-angle used to convert its units, and the measurement that is put into the
    same row of the table *)
Definition timeseries (index gi : list Z) : res (list (nat * (nat * option nat))) :=
  do est <- calc_rows index gi;
  do a <- get_data gi (seq 0 (List.length gi));
  do m <- get_mask gi index;
  let inc := unmasked (concat a) m in                                            (* 591-592: compressed *)
  do orig <- align (calc_index index gi) index (seq 0 (List.length index));      (* 598 *)
  Ok (combine est (combine inc orig)).

(** pandas groupby: the distinct keys in ascending order *)
Fixpoint insert_z (x : Z) (l : list Z) : list Z :=
  match l with [] => [x] | y :: r => if x <=? y then x :: l else y :: insert_z x r end.
(** see [insert_z] *)
Definition sort_z (l : list Z) : list Z := fold_right insert_z [] l.
(** pandas groupby(keys): for each key the values at the positions with this key *)
Definition groups_of {A} (ks : list Z) (vals : list A) : list (list A) :=
  map (fun k => map snd (filter (fun p => Z.eqb (fst p) k) (combine ks vals))) (sort_z (fromkeys ks)).

(** rtplots.py:2979-3002 [intermediate_residuals], grp="groups": the residuals (rtfits.py 2330, ordered by groups) are put into a frame with
    the index of the dataset and grouped by _groupindex; the columns are labelled by meandatetimes_group (rtfits.py 920-933), which
    belongs to the groups in the order of their first occurrence.  The label is the number of the group here. *)
Definition residual_groups (index gi : list Z) : res (list (Z * list nat)) :=
  do errs <- calc_rows index gi;
  Ok (combine (map fst (groupby_unsorted Z.eq_dec snd fst (combine index gi))) (groups_of gi errs)).
(** rtplots.py:3003-3025 [intermediate_residuals], grp="dataset": the columns are labelled by fit.index *)
Definition residual_dates (index gi : list Z) : res (list (Z * list nat)) :=
  do errs <- calc_rows index gi;
  Ok (combine (fit_index index gi) (groups_of index errs)).

(** rtplots.py:2965-2973, 2983-2992: np.abs([ DataFrame(...).groupby(...).mean() ... ]): the value shown for the residuals of a group *)
Definition shown_residual (l : list Q) : Q := Qabs (fold_left Qplus l 0 / inject_Z (Z.of_nat (List.length l)))%Q.

(** val[sortp]: indexing of the rows of an array by a list of positions *)
Definition take {A} (l : list A) (p : list nat) : res (list A) :=
  mapM (fun i => match nth_error l i with Some a => Ok a | None => Err IndexError end) p.

(** rtplots.py:1562-1735 [printsig0analysis]; [sortp] is the result of np.argsort, [printfullt_0] the argument.  The result are the labels
    (indexes), the rows of the estimates and the label of the calculation for the full range of angles, for each position of the slider.  For
    use_index="dataset": groupby(level=0).agg(list) and fit.res_df are sorted by date, the labels are fit.index *)
Definition analysis_dataset (index gi : list Z) (sortp : list nat) (printfullt_0 : bool) : res (list (Z * (list nat * Z))) :=
  do est <- calc_rows index gi;
  let vals := groups_of (calc_index index gi) est in                              (* 1566 *)
  let full := sort_z (fromkeys (calc_index index gi)) in                          (* 1602-1608: fit.res_df *)
  do v <- take vals sortp;                                                        (* 1707-1708 *)
  do i <- take (fit_index index gi) sortp;
  if printfullt_0 then do f <- take full sortp; Ok (combine i (combine v f))      (* 1711-1712 *)
  else Err UnboundLocalError.                                                     (* newsig0_vals is only assigned if printfullt_0 *)
(** use_index="groups": rows, labels and fit.res_df_group (rtfits.py 1475-1498) are in the order of the groups *)
Definition analysis_groups (index gi : list Z) (sortp : list nat) (printfullt_0 : bool) : res (list (Z * (list nat * Z))) :=
  let ks := map fst (groupby_unsorted Z.eq_dec snd fst (combine index gi)) in
  do v <- take (grouped gi (seq 0 (List.length gi))) sortp;                       (* masked arrays, 1573-1579 *)
  do i <- take ks sortp;
  if printfullt_0 then do f <- take ks sortp; Ok (combine i (combine v f))
  else Err UnboundLocalError.
