(** Model of the labels and dates in plot.results, plot.fit_errors and plot.single_results (/repo/rt1/rtplots.py 748-1220).
    A group of observations is the number of its row in the arrays of the fit (groups in the order of their first occurrence).
    Curves, colors and legends are not modelled. *)
From Coq Require Import ZArith QArith Qabs Bool List.
From Verif Require Import Base Fit_Model Aln_Model.
Import ListNotations.
Local Open Scope nat_scope.

(** l[i] *)
Definition item {A} (l : list A) (i : nat) : res A := match nth_error l i with Some a => Ok a | None => Err IndexError end.
(** rtplots.py:773-774, 971-972: result_selection; None stands for "all"; n = len(fit.data) *)
Definition selection (sel : option (list nat)) (n : nat) : list nat := match sel with None => seq 0 n | Some l => l end.

(** rtplots.py:984-995 [results]: the group of each line and its label.  fit.fit_index does not exist, so that the labels are
    result_selection itself, which is indexed with the number of the group *)
Definition results_lines (sel : option (list nat)) (n : nat) : res (list (nat * nat)) :=
  let s := selection sel n in
  mapM (fun i => do g <- item (seq 0 n) i; do lab <- item s i; Ok (g, lab)) s.
(** rtplots.py:1038-1045 [results]: the date at which the number of a group is written, and the number; only if not all groups are selected *)
Definition results_texts (index gi : list Z) (sel : option (list nat)) (n : nat) : res (list (Z * nat)) :=
  let s := selection sel n in
  if Nat.ltb (List.length s) n then mapM (fun r => do t <- item (fit_index index gi) r; Ok (t, r)) s else Ok [].
(** rtplots.py:806-824 [fit_errors]: fit.index[result_selection] against res[result_selection]: the date at which the residuals of a group are drawn *)
Definition error_dates (index gi : list Z) (sel : option (list nat)) (n : nat) : res (list (Z * nat)) :=
  let s := selection sel n in
  do t <- mapM (item (fit_index index gi)) s;
  do g <- mapM (item (seq 0 n)) s;
  Ok (combine t g).
(** rtplots.py:783-786 [fit_errors], relative=True: sqrt((e - d)^2) / e *)
Definition relative_residual (e d : Q) : Q := (Qabs (e - d) / e)%Q.

(** rtplots.py:1097-1113 [single_results]: the groups that are drawn; fit.fit_index does not exist *)
Definition single_numbers (fit_numbers : option (list nat)) (fit_indexes : option (list Z)) : res (list nat) :=
  match fit_numbers, fit_indexes with
  | Some _, Some _ => Err AssertionError
  | _, Some _ => Err AttributeError
  | None, None => Ok [1]
  | Some l, None => Ok l
  end.
(** rtplots.py:1138-1150 [single_results]: the group and the first and last date of its label *)
Definition single_results (index gi : list Z) (fit_numbers : option (list nat)) (fit_indexes : option (list Z)) : res (list (nat * (Z * Z))) :=
  do l <- single_numbers fit_numbers fit_indexes;
  mapM (fun m => do dates <- item (grouped gi index) m; do a <- item dates 0; do b <- item (rev dates) 0; Ok (m, (a, b))) l.
