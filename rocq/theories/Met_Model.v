(** Model of /repo/rt1/rtmetrics.py: the metric functions and the keys under
    which they are available.

    A pandas Series is a list of rows (label, value); a missing value (NaN) is
    [None].  The pandas/numpy/scipy functions are modelled by their documented
    behaviour: arithmetic aligns the two series on their labels, means skip
    missing values, [std] uses n - 1, [corr] uses the rows where both values
    are present.  Floats are real numbers. *)
From Coq Require Import Reals List ZArith Bool String Lra.
From Verif Require Import Base GF_Model Str_Model.
Import ListNotations.
Open Scope R_scope.

(** a pandas.Series: label and value of each row (the arguments of all functions in rtmetrics.py:271-459) *)
Definition series := list (Z * option R).

(** [s.index] *)
Definition index (s : series) : list Z := map fst s.

(** [s1.index.equals(s2.index)], the test pandas makes before it aligns *)
Definition same_index (a b : series) : bool :=
  if list_eq_dec Z.eq_dec (index a) (index b) then true else false.

(** the rows of [b] with the label [l] *)
Definition matching (l : Z) (b : series) : series := filter (fun q => Z.eqb (fst q) l) b.

(** pandas alignment for arithmetic (outer join).  Simplified: pandas sorts
    the joined labels, here they stay in the order of the rows. *)
Definition align_outer (a b : series) : list (Z * (option R * option R)) :=
  if same_index a b
  then combine (index a) (combine (map snd a) (map snd b))
  else (flat_map (fun r => match matching (fst r) b with
                          | [] => [(fst r, (snd r, None))]
                          | m => map (fun q => (fst r, (snd r, snd q))) m
                          end) a
        ++ map (fun q => (fst q, (None, snd q)))
               (filter (fun q => match matching (fst q) a with [] => true | _ => false end) b))%list.

(** pandas alignment in [corr] (inner join) *)
Definition align_inner (a b : series) : list (option R * option R) :=
  if same_index a b
  then combine (map snd a) (map snd b)
  else flat_map (fun r => map (fun q => (snd r, snd q)) (matching (fst r) b)) a.

(** arithmetic with missing values *)
Definition osub (x y : option R) : option R :=
  match x, y with Some u, Some v => Some (u - v) | _, _ => None end.

(** [a.subtract(b)] *)
Definition subtract (a b : series) : series :=
  map (fun r => (fst r, osub (fst (snd r)) (snd (snd r)))) (align_outer a b).

(** [a - m] for a number [m] *)
Definition sub_scalar (a : series) (m : option R) : series :=
  map (fun r => (fst r, osub (snd r) m)) a.

(** the values that are not missing *)
Fixpoint somes {A} (l : list (option A)) : list A :=
  match l with
  | [] => []
  | Some x :: r => x :: somes r
  | None :: r => somes r
  end.

(** sum of a list *)
Definition Rsum (l : list R) : R := fold_right Rplus 0 l.

(** mean of a list; used for nonempty lists only *)
Definition avg (l : list R) : R := Rsum l / INR (List.length l).

(** [s.mean()]: missing values are skipped, NaN if nothing remains *)
Definition mean (s : series) : option R :=
  match somes (map snd s) with
  | [] => None
  | l => Some (avg l)
  end.

(** [s.pow(2)], [s.abs()]: elementwise, missing values stay missing *)
Definition smap (f : R -> R) (s : series) : series :=
  map (fun r => (fst r, option_map f (snd r))) s.

(** rtmetrics.py:351-352 [rmsd] *)
Definition rmsd (d1 d2 : series) : option R :=
  let diff_sq := smap (fun x => x ^ 2) (subtract d1 d2) in
  option_map sqrt (mean diff_sq).

(** rtmetrics.py:372-375 [ub_rmsd] *)
Definition ub_rmsd (d1 d2 : series) : option R :=
  let d1_corr := sub_scalar d1 (mean d1) in
  let d2_corr := sub_scalar d2 (mean d2) in
  let diff_sq := smap (fun x => x ^ 2) (subtract d1_corr d2_corr) in
  option_map sqrt (mean diff_sq).

(** rtmetrics.py:395 [bias] *)
Definition bias (d1 d2 : series) : option R := osub (mean d1) (mean d2).

(** rtmetrics.py:415-416 [mae] *)
Definition mae (d1 d2 : series) : option R :=
  mean (smap Rabs (subtract d1 d2)).

(** a float result that can be infinite: division by zero *)
Inductive num : Type := Fin (r : R) | Inf (positive : bool) | NaN.

(** [x / y] of two floats *)
Definition fdiv (x y : R) : num :=
  if Req_EM_T y 0 then
    if Req_EM_T x 0 then NaN
    else Inf (if Rlt_dec 0 x then true else false)
  else Fin (x / y).

(** [abs] of a float *)
Definition fabs (x : num) : num :=
  match x with Fin r => Fin (Rabs r) | Inf _ => Inf true | NaN => NaN end.

(** the mean of nonnegative floats, skipping NaN *)
Definition fmean (l : list num) : num :=
  match filter (fun x => match x with NaN => false | _ => true end) l with
  | [] => NaN
  | v => if existsb (fun x => match x with Inf _ => true | _ => false end) v then Inf true
         else Fin (avg (map (fun x => match x with Fin r => r | _ => 0 end) v))
  end.

(** [(d1 - d2) / d1] of one row *)
Definition rel_diff (x y : option R) : num :=
  match osub x y, x with Some d, Some u => fdiv d u | _, _ => NaN end.

(** rtmetrics.py:437-438 [mape].  Simplified: the quotient is formed row by
    row of the aligned series (the second alignment, of the difference with
    [d1], gives the same rows when the labels of each series are distinct). *)
Definition mape (d1 d2 : series) : num :=
  fmean (map (fun r => fabs (rel_diff (fst (snd r)) (snd (snd r)))) (align_outer d1 d2)).

(** sums of squares and products of deviations from the mean *)
Definition dev (l : list R) : list R := map (fun x => x - avg l) l.
(** sum of the products of two lists *)
Fixpoint dot (l m : list R) : R :=
  match l, m with x :: l', y :: m' => x * y + dot l' m' | _, _ => 0 end.
(** [np.cov(l, m)] with n - 1; NaN for fewer than two values *)
Definition cov (l m : list R) : option R :=
  if Nat.leb (List.length l) 1 then None
  else Some (dot (dev l) (dev m) / (INR (List.length l) - 1)).

(** [s.std()] *)
Definition std (s : series) : option R :=
  let l := somes (map snd s) in option_map sqrt (cov l l).

(** rtmetrics.py:459 [std_ratio] *)
Definition std_ratio (d1 d2 : series) : num :=
  match std d1, std d2 with Some x, Some y => fdiv x y | _, _ => NaN end.

(** [np.clip(x, -1, 1)] *)
Definition clip1 (x : R) : R := Rmin (Rmax x (-1)) 1.

(** [np.corrcoef(l, m)[0, 1]]: NaN for fewer than two values or zero variance *)
Definition corrcoef (l m : list R) : option R :=
  match cov l m, cov l l, cov m m with
  | Some c, Some vl, Some vm =>
      if Req_EM_T vl 0 then None else if Req_EM_T vm 0 then None
      else Some (clip1 (c / sqrt vl / sqrt vm))
  | _, _, _ => None
  end.

(** the rows where both values are present *)
Fixpoint both (l : list (option R * option R)) : list (R * R) :=
  match l with
  | [] => []
  | (Some x, Some y) :: r => (x, y) :: both r
  | _ :: r => both r
  end.

(** rtmetrics.py:288 [pearson]: [d1.corr(d2, method="pearson")] *)
Definition pearson (d1 d2 : series) : option R :=
  let p := both (align_inner d1 d2) in corrcoef (map fst p) (map snd p).

(** average rank of [x] among [l] (scipy.stats.rankdata): number of smaller
    values plus the mean position among the equal ones *)
Definition rank (l : list R) (x : R) : R :=
  INR (List.length (filter (fun y => if Rlt_dec y x then true else false) l))
  + (INR (List.length (filter (fun y => if Req_EM_T y x then true else false) l)) + 1) / 2.

(** rtmetrics.py:309 [spearman]: [d1.corr(d2, method="spearman")], the
    correlation of the ranks *)
Definition spearman (d1 d2 : series) : option R :=
  let p := both (align_inner d1 d2) in
  let l := map fst p in let m := map snd p in
  corrcoef (map (rank l) l) (map (rank m) m).

(** does the series have a value in this row? *)
Definition present (r : Z * option R) : bool := match snd r with Some _ => true | None => false end.

(** rtmetrics.py:328-331 [linregress]: scipy.stats.linregress works on the
    positions (no alignment on labels); different lengths, fewer than two
    rows and a constant [d1] raise a ValueError, which is turned into None
    (simplified: some scipy versions return NaN for a single row); missing
    values give NaN.  Result: slope, intercept, rvalue. *)
Definition linregress (d1 d2 : series) : option (num * num * num) :=
  let x := somes (map snd d1) in
  let y := somes (map snd d2) in
  if negb (Nat.eqb (List.length d1) (List.length d2)) then None
  else if Nat.leb (List.length d1) 1 then None
  else if negb (forallb present d1) then Some (NaN, NaN, NaN)
  else
    let sxx := dot (dev x) (dev x) in
    if Req_EM_T sxx 0 then None
    else if negb (forallb present d2) then Some (NaN, NaN, NaN)
    else
      let syy := dot (dev y) (dev y) in
      let sxy := dot (dev x) (dev y) in
      let slope := sxy / sxx in
      let r := if Req_EM_T syy 0 then 0 else clip1 (sxy / sqrt (sxx * syy)) in
      Some (Fin slope, Fin (avg y - slope * avg x), Fin r).

(** rtmetrics.py:180-201 [_unify_idx_data]; the concatenated frame has one
    row per label, dropping the missing values of a column leaves the rows of
    that series that have a value (in another order).  Simplified: distinct
    labels and distinct names (otherwise pandas raises or returns a frame). *)
Definition unify_idx_data (d1 d2 : series) : res (series * series) :=
  if Nat.eqb (List.length d1) (List.length d2) then Ok (d1, d2)
  else
    let a := filter present d1 in
    let b := filter present d2 in
    if Nat.eqb (List.length a) (List.length b) then Ok (a, b) else Err AssertionError.

(** ** the available variables *)
Open Scope string_scope.

(** rtmetrics.py:24-35: the names of the variables by source; the model
    components are tot, surf, vol and, if interactions are computed, inter *)
Record sources := mksources {
  s_dataset : list string; s_int_Q : bool; s_res_df : list string; s_auxdat : list string }.

(** rtmetrics.py:25, 33-34 [_modelkeys] *)
Definition modelkeys (s : sources) : list string :=
  (["tot"; "surf"; "vol"] ++ if s_int_Q s then ["inter"] else [])%list.

(** rtmetrics.py:91-101: [zip(suffix, all_keys)] *)
Definition tagged (s : sources) : list (string * string) :=
  (map (pair "dataset") (s_dataset s) ++ map (pair "calc_model") (modelkeys s)
   ++ map (pair "res_df") (s_res_df s) ++ map (pair "auxdat") (s_auxdat s))%list.

(** rtmetrics.py:102-120: the loop body; a name with several sources is
    entered once per source with the source as suffix *)
Definition check_key (newgrps : dict string string) (kv : string * list string) : dict string string :=
  let (key, val) := kv in
  match val with
  | [] => newgrps
  | [i] => dset string_dec key i newgrps
  | _ => fold_left (fun g i => dset string_dec (key ++ "__" ++ i) i g) val newgrps
  end.

(** rtmetrics.py:90-125 [_check_keys]: [_all_keys] *)
Definition all_keys (s : sources) : dict string string :=
  fold_left check_key (groupby_unsorted string_dec snd fst (tagged s)) [].

(** [s[:-n]] *)
Definition cut (n : nat) (s : string) : string := String.substring 0 (String.length s - n) s.

(** rtmetrics.py:137-151 [_RTmetrics1.__init__]: source and name of a key *)
Definition resolve_key (keys : dict string string) (d : string) : res (string * string) :=
  match dget string_dec d keys with
  | None => Err AssertionError
  | Some s =>
      if endswith ("__" ++ s) d
      then Ok (s, cut (String.length ("__" ++ s)) d)
      else Ok (s, d)
  end.
