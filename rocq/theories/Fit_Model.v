(** Model of /repo/rt1/rtfits.py: grouping of the observations by the temporal
    variability of the fitted parameters, assignment of parameter values,
    start values and bounds, and the assembly of the jacobian.

    Simplifications: a dataset is a list of rows given by its columns; the
    index holds integers (timestamps); pandas' binning of timestamps for an
    offset string is an arbitrary monotone function; columns of group numbers
    contain no missing values. *)
From Coq Require Import String Ascii ZArith Bool List.
From Verif Require Import Base GF_Model Str_Model.
Import ListNotations.
Local Open Scope list_scope.

(** ** numbers as strings (Python's str and int, plain Python) *)
(** a character of a printed number *)
Inductive ch : Type := Dig (d : Z) | Minus | Dot.

(** the decimal digits of a nonnegative number *)
Fixpoint digits (fuel : nat) (z : Z) (acc : list ch) : list ch :=
  match fuel with
  | O => acc
  | S f => if (z <? 10)%Z then Dig z :: acc else digits f (z / 10)%Z (Dig (z mod 10) :: acc)
  end.
(** [str(z)] of an integer *)
Definition str_Z (z : Z) : list ch :=
  if (z <? 0)%Z then Minus :: digits (S (Z.to_nat (Z.log2 (- z)))) (- z) []
  else digits (S (Z.to_nat (Z.log2 z))) z [].
(** [s.zfill(n)]: zeros are inserted after a leading sign *)
Definition zfill (n : nat) (s : list ch) : list ch :=
  match s with
  | Minus :: r => Minus :: repeat (Dig 0) (n - List.length s) ++ r
  | _ => repeat (Dig 0) (n - List.length s) ++ s
  end.
(** value of a digit sequence; None if another character occurs *)
Fixpoint digits_val (acc : Z) (s : list ch) : option Z :=
  match s with
  | [] => Some acc
  | Dig d :: r => digits_val (10 * acc + d)%Z r
  | _ => None
  end.
(** [int(s)]; a ValueError for anything but an optional sign and digits *)
Definition int_str (s : list ch) : res Z :=
  match s with
  | [] | [Minus] => Err ValueError
  | Minus :: r => match digits_val 0 r with Some z => Ok (- z)%Z | None => Err ValueError end
  | _ => match digits_val 0 s with Some z => Ok z | None => Err ValueError end
  end.

(** nearest double (round half to even) of a nonnegative integer (IEEE 754, plain numpy) *)
Definition round53 (z : Z) : Z :=
  if (z <? 2 ^ 53)%Z then z
  else let k := (Z.log2 z - 52)%Z in
       let q := (z / 2 ^ k)%Z in
       let r := (z mod 2 ^ k)%Z in
       let half := (2 ^ (k - 1))%Z in
       if ((half <? r) || ((half =? r) && Z.odd q))%Z then ((q + 1) * 2 ^ k)%Z else (q * 2 ^ k)%Z.
(** [np.array(list_of_python_ints)]: int64, or uint64, or object if one number
    needs it; a mixture of the int64 and the uint64 range becomes float64
    (plain numpy) *)
Definition np_int_array (l : list Z) : list Z :=
  if forallb (fun z => z <? 2 ^ 63)%Z l then l
  else if forallb (fun z => 2 ^ 63 <=? z)%Z l then l
  else if existsb (fun z => 2 ^ 64 <=? z)%Z l then l
  else map round53 l.
(** [astype(int)] of a double that holds an integer *)
Definition astype_int (z : Z) : Z := if (z <? 2 ^ 63)%Z then z else (- 2 ^ 63)%Z.

(** the part of a string before a dot *)
Fixpoint int_part (s : list ch) : list ch :=
  match s with
  | [] => []
  | Dot :: _ => []
  | c :: r => c :: int_part r
  end.
(** the part after the first dot; None without dot *)
Fixpoint frac_part (s : list ch) : option (list ch) :=
  match s with
  | [] => None
  | Dot :: r => Some r
  | _ :: r => frac_part r
  end.
(** [np.array(s, dtype=float).astype(int)] of a printed number that starts
    with a digit.  Simplified: a fractional part only truncates (its rounding
    in the last place is not modelled). *)
Definition float_int_str (s : list ch) : res Z :=
  match digits_val 0 (int_part s), frac_part s with
  | Some z, None => Ok (astype_int (round53 z))
  | Some z, Some r => match digits_val 0 r with Some _ => Ok (astype_int (round53 z)) | None => Err ValueError end
  | None, _ => Err ValueError
  end.

(** ** temporal variability *)
(** the parsed [freq] entry of a definition *)
Inductive freq : Type :=
| FNone                                   (* None *)
| FIndex                                  (* "index" *)
| FOffset (s : string) (manual : bool)    (* "M", "M + manual" *)
| FInt (f : Z) (manual : bool)            (* "4", 4, "4 + manual" *)
| FManual.                                (* "manual" *)

Section Freq.
(** [int(s)] on arbitrary strings *)
Variable pint : string -> option Z.
(** rtfits.py:1192-1221 [_timescaledict], 1229-1256 [_manual_dyn_df]: the
    meaning of a [freq] given as string (numbers are converted with [str],
    line 1199).  "manual + manual" leaves the offset "manual". *)
Definition parse_freq (s : string) : res freq :=
  let one (m : bool) (x : string) := match pint x with Some f => FInt f m | None => FOffset x m end in
  if String.eqb s "manual" then Ok FManual
  else if String.eqb s "index" then Ok FIndex
  else match map strip (split_char "+"%char s) with
       | [a] => Ok (one (String.eqb a "manual") a)
       | [a; b] => if String.eqb a "manual" then Ok (one true b)
                   else if String.eqb b "manual" then Ok (one true a)
                   else Err AssertionError
       | _ => Err AssertionError
       end.
End Freq.

(** rtfits.py:632-643: the numbers added to the size [f] of each group: [rest]
    is distributed round robin over [n] groups *)
Fixpoint add_at (i : nat) (l : list nat) : list nat :=
  match l, i with
  | [], _ => []
  | x :: r, O => S x :: r
  | x :: r, S j => x :: add_at j r
  end.
(** rtfits.py:634-638; an empty list of groups is a ZeroDivisionError *)
Definition distribute (n rest : nat) : res (list nat) :=
  match n, rest with
  | O, S _ => Err ZeroDivisionError
  | _, _ => Ok (fold_left (fun l r => add_at (Nat.modulo r n) l) (seq 0 rest) (repeat 0 n))
  end.

(** rtfits.py:627-669: group numbers of the observations for an integer
    frequency; [index] is the index of the dataset *)
Definition int_dyn (f : Z) (index : list Z) : res (list Z) :=
  if (f =? 0)%Z then Err ZeroDivisionError
  else
    let dates := groupby_unsorted Z.eq_dec (fun x => x) (fun x => x) index in     (* 653 *)
    let n_dat := Z.of_nat (List.length dates) in                                 (* 630 *)
    let ngrps := Z.to_nat (n_dat / f) in                                         (* 631 *)
    let rest := Z.to_nat (n_dat mod f) in                                        (* 632 *)
    do extra <- distribute ngrps rest;
    if ((n_dat / f <=? 0) && (n_dat / f <=? n_dat mod f))%Z then Err ValueError  (* 640-645: min([]) *)
    else
    let dyn := concat (map (fun p => repeat (Z.of_nat (fst p)) (Z.to_nat (f + Z.of_nat (snd p))))
                           (combine (seq 0 ngrps) extra)) in                     (* 646-648 *)
    let dat := groupby_unsorted Z.eq_dec fst (fun p => List.length (snd p))
                 (combine dyn (map snd dates)) in                                (* 651-658 *)
    Ok (concat (map (fun kv => repeat (fst kv) (fold_right Nat.add 0 (snd kv))) dat)).  (* 660-665 *)

(** rtfits.py:605-625: group numbers for an offset string; [nbins] bins,
    [bin t] is the number of the bin of timestamp [t] (pandas.Grouper); the
    members of the bins are counted and the numbers laid out one bin after the
    other *)
Definition offset_dyn (nbins : nat) (bin : Z -> nat) (index : list Z) : list Z :=
  concat (map (fun b => repeat (Z.of_nat b) (List.length (filter (fun t => Nat.eqb (bin t) b) index))) (seq 0 nbins)).

(** position of the first occurrence *)
Fixpoint pos (x : Z) (l : list Z) : nat :=
  match l with
  | [] => O
  | y :: r => if Z.eq_dec x y then O else S (pos x r)
  end.
(** rtfits.py:1241-1248: "index": the number of the date in order of appearance
    ([groupby(level=0, sort=False).ngroup()]) *)
Definition index_dyn (index : list Z) : list Z :=
  map (fun t => Z.of_nat (pos t (keys (groupby_unsorted Z.eq_dec (fun x => x) (fun x => x) index)))) index.

(** [len(max(l, key=len))] *)
Definition width (l : list (list ch)) : nat := maxlen l.
(** elementwise concatenation of two lists of strings *)
Definition add_str (a b : list (list ch)) : list (list ch) := map (fun p => fst p ++ snd p) (combine a b).

(** rtfits.py:671-690: combine the group numbers with a further column; both
    are padded with zeros, concatenated as strings and read as floats *)
Definition combine_manual (base : list Z) (col : list (list ch)) : res (list Z) :=
  match base with
  | [] => Err ValueError                                                         (* max of an empty list *)
  | _ =>
      if negb (Nat.eqb (List.length base) (List.length col)) then Err ValueError
      else
        let dd1 := map (zfill (width (map str_Z base))) (map str_Z base) in
        let dd2 := map (zfill (width col)) col in
        mapM float_int_str (add_str dd1 dd2)
  end.

Section Dyn.
(** pandas: number of bins and bin of a timestamp for an offset string; None
    for an invalid string *)
Variable bins : string -> option (nat * (Z -> nat)).
(** rtfits.py:580-690 [param_dyn_dict]: the group numbers of one fitted
    parameter; [manual]: the column "<name>_dyn" printed with [astype(str)] *)
Definition param_dyn (index : list Z) (fr : freq) (manual : option (list (list ch))) : res (list Z) :=
  let ones := repeat 1%Z (List.length index) in                                  (* 601-602 *)
  let with_manual (m : bool) (base : list Z) :=
    if m then match manual with Some c => combine_manual base c | None => Err AssertionError end
    else Ok base in
  match fr with
  | FNone => Ok ones
  | FIndex => combine_manual ones (map str_Z (index_dyn index))
  | FManual => with_manual true ones
  | FOffset s m => match bins s with
                   | Some (n, b) => with_manual m (offset_dyn n b index)
                   | None => Err ValueError
                   end
  | FInt f m => do base <- int_dyn f index; with_manual m base
  end.
End Dyn.

(** ** the combined groups *)
(** [max(val)] *)
Definition zmax (l : list Z) : res Z :=
  match l with [] => Err ValueError | x :: r => Ok (fold_left Z.max r x) end.
(** rtfits.py:720-731: the padded strings of one parameter *)
Definition padded (val : list Z) : res (list (list ch)) :=
  do m <- zmax val; Ok (map (fun x => zfill (List.length (str_Z m)) (str_Z x)) val).
(** rtfits.py:727-733: concatenation over the parameters *)
Fixpoint conc (acc : list (list ch)) (cols : list (list Z)) : res (list (list ch)) :=
  match cols with
  | [] => Ok acc
  | c :: r => do p <- padded c; conc (add_str acc p) r
  end.
(** rtfits.py:713-734 [_groupindex] *)
Definition groupindex (cols : list (list Z)) : res (list Z) :=
  match cols with
  | [] => Ok []
  | c :: r => do p <- padded c; do s <- conc p r; do l <- mapM int_str s; Ok (np_int_array l)
  end.

(** rtfits.py:755-766, 993-1002: a column arranged by groups *)
Definition grouped {A} (gi : list Z) (col : list A) : list (list A) :=
  map snd (groupby_unsorted Z.eq_dec fst snd (combine gi col)).
(** rtfits.py:1966-2000 [_get_data]: the rectangular array of a column *)
Definition get_data {A} (gi : list Z) (col : list A) : res (list (list A)) := rectangularize (grouped gi col) None.
(** rtfits.py:1985-1990: the mask of the padded entries *)
Definition get_mask (gi index : list Z) : res (list (list bool)) :=
  do p <- rectangularize_mask (grouped gi index) None; Ok (snd p).
(** rtfits.py:1005-1016 [_idx_assigns] *)
Definition idx_assigns (gi : list Z) : res (list (list nat)) :=
  rectangularize (map snd (groupby_unsorted Z.eq_dec (fun i => nth i gi 0%Z) (fun i => i) (seq 0 (List.length gi)))) None.
(** rtfits.py:684-707 [param_dyn_df]: the group number of a parameter for each
    combined group: that of its first row *)
Definition dyn_df (gi dyn : list Z) : list Z := map (fun g => hd 0%Z g) (grouped gi dyn).
(** [df.nunique()] of a column *)
Definition nunique (l : list Z) : nat := List.length (groupby_unsorted Z.eq_dec (fun x => x) (fun x => x) l).

(** rtfits.py:1031-1038 [_param_assigns_dataset]: the rows of each parameter group *)
Definition param_assigns_dataset (dyn : list Z) : list (list nat) :=
  map snd (groupby_unsorted Z.eq_dec (fun i => nth i dyn 0%Z) (fun i => i) (seq 0 (List.length dyn))).
(** rtfits.py:1019-1028 [_param_assigns]: the combined groups of each parameter group *)
Definition param_assigns (gi dyn : list Z) : list (list nat) := param_assigns_dataset (dyn_df gi dyn).

Section Values.
Context {V : Type}.
(** [x.put(ind, v)]; None: an entry of [np.empty] that was never written *)
Definition put (x : list (option V)) (ind : list nat) (v : V) : list (option V) :=
  map (fun i => if existsb (Nat.eqb i) ind then Some v else nth i x None) (seq 0 (List.length x)).
(** rtfits.py:1589-1596: the values of a parameter for each row of the dataset *)
Definition step_values (dyn : list Z) (val : list V) : list (option V) :=
  fold_left (fun x p => put x (snd p) (fst p)) (combine val (param_assigns_dataset dyn))
            (repeat None (List.length dyn)).
(** [np.take(x, idx)] *)
Definition take2 {A} (d : A) (x : list A) (idx : list (list nat)) : list (list A) := map (map (fun i => nth i x d)) idx.
(** rtfits.py:1512-1601 [_assignvals] without interpolation, one parameter *)
Definition assignvals (gi dyn : list Z) (val : list V) : res (list (list (option V))) :=
  do idx <- idx_assigns gi; Ok (take2 None (step_values dyn val) idx).

(** ** start values, bounds, the vector of the optimiser *)
(** the second entry of a definition: a number, a list, "auxiliary" with the
    column "<name>_start", or None *)
Inductive start : Type := SScalar (v : V) | SList (l : list V) | SAux (col : list V) | SNone.
(** a fitted parameter *)
Record param : Type := mkparam { p_freq : freq; p_dyn : list Z; p_start : start; p_lo : list V; p_hi : list V }.

(** [np.mean] of a list *)
Variable mean : list V -> V.
(** do all rows have the same length? *)
Definition same_len {A} (l : list (list A)) : bool :=
  match l with [] => true | r :: rs => forallb (fun s => Nat.eqb (List.length s) (List.length r)) rs end.

(** rtfits.py:1109-1165 [_startvaldict], one parameter; None: not in [_order] *)
Definition startvals (gi : list Z) (p : param) : res (option (list V)) :=
  match p_start p with
  | SNone => Ok None
  | SScalar v => Ok (Some (repeat v (nunique (dyn_df gi (p_dyn p)))))            (* 1157-1163 *)
  | SList l => Ok (Some l)
  | SAux col =>
      let rows := grouped gi col in                                              (* 1122-1129 *)
      match p_freq p with
      | FIndex => if same_len rows then Ok (Some (map mean rows)) else Err ValueError   (* 1132-1135 *)
      | _ => let means := map mean rows in                                       (* 1144-1147 *)
             Ok (Some (map (fun ind => mean (map (fun i => nth i means (mean [])) ind))
                           (param_assigns gi (p_dyn p))))                        (* 1139-1152 *)
      end
  end.
(** rtfits.py:1167-1185 [_boundsvaldict], one parameter *)
Definition boundsvals (gi : list Z) (p : param) : list V * list V :=
  let n := nunique (dyn_df gi (p_dyn p)) in
  if Nat.leb 1 n && Nat.eqb (List.length (p_lo p)) 1
  then (concat (repeat (p_lo p) n), concat (repeat (p_hi p) n))
  else (p_lo p, p_hi p).

(** rtfits.py:980-988 [_order]: the fitted parameters that have a start value,
    with the number of their groups (2307) *)
Fixpoint order (gi : list Z) (ps : list (string * param)) : res (list (string * param * list V)) :=
  match ps with
  | [] => Ok []
  | (k, p) :: r =>
      do s <- startvals gi p; do o <- order gi r;
      match s with Some l => Ok ((k, p, l) :: o) | None => Ok o end
  end.
(** rtfits.py:2363-2370: the start vector *)
Definition start_vector (o : list (string * param * list V)) : list V := concat (map snd o).
(** rtfits.py:2357-2360: the bounds *)
Definition lower_bounds (gi : list Z) (o : list (string * param * list V)) : list V :=
  concat (map (fun x => fst (boundsvals gi (snd (fst x)))) o).
(** rtfits.py:2357-2360 *)
Definition upper_bounds (gi : list Z) (o : list (string * param * list V)) : list V :=
  concat (map (fun x => snd (boundsvals gi (snd (fst x)))) o).
(** rtfits.py:2307 [splitpos] *)
Definition splitpos (gi : list Z) (o : list (string * param * list V)) : list (option Z) :=
  map (fun x => Some (Z.of_nat (nunique (dyn_df gi (p_dyn (snd (fst x))))))) o.
(** rtfits.py:2329-2330, 2345-2346, 2382-2383: the vector is cut into the
    values of the parameters *)
Definition split_vector (gi : list Z) (o : list (string * param * list V)) (x : list V) : res (list (string * list V)) :=
  do parts <- split_into x (splitpos gi o);
  Ok (combine (map (fun y => fst (fst y)) o) parts).
End Values.
Arguments start : clear implicits.
Arguments param : clear implicits.

(** ** the jacobian *)
(** rtfits.py:785-837 [_jac_assign_rule], one parameter: row (group) and
    column (position in the flattened array) of each value *)
Definition jac_rule (gi dyn : list Z) : res (list nat * list nat) :=
  do rect <- rectangularize (grouped gi dyn) None;                               (* 797-803, 807 *)
  let flat := concat rect in
  let groups := map snd (groupby_unsorted Z.eq_dec snd fst (combine (seq 0 (List.length flat)) flat)) in
  Ok (concat (map (fun p => repeat (fst p) (List.length (snd p))) (combine (seq 0 (List.length groups)) groups)),
      concat groups).

Section Jac.
Context {V : Type} (zero : V) (add : V -> V -> V).
(** scipy's [csr_matrix((data, (row_ind, col_ind)))]: the entry (r, c); equal
    positions are summed *)
Definition csr_entry (data : list V) (rule : list nat * list nat) (r c : nat) : V :=
  fold_right add zero
    (map fst (filter (fun q => Nat.eqb (fst (snd q)) r && Nat.eqb (snd (snd q)) c)
                     (combine data (combine (fst rule) (snd rule))))).
(** rtfits.py:1867-1888: the rows of the jacobian that belong to one
    parameter: their number and the entry (row, column); [jac]: the rectangular
    array of the derivatives *)
Definition jac_param (gi dyn : list Z) (jac : list (list V)) : res (nat * (nat -> nat -> V)) :=
  let data := concat jac in
  if Nat.eqb (nunique (dyn_df gi dyn)) 1 then Ok (1%nat, fun _ c => nth c data zero)    (* 1870-1874 *)
  else do rule <- jac_rule gi dyn;
       Ok (S (fold_right Nat.max 0 (fst rule)), csr_entry data rule).            (* 1881-1888 *)
(** [x[~mask]]: the entries that are not masked, row by row *)
Definition unmasked {A} (row : list A) (mask : list (list bool)) : list A :=
  map fst (filter (fun p => negb (snd p)) (combine row (concat mask))).
(** rtfits.py:1867-1888, 1944-1962: the transposed jacobian (one row for each
    fitted value, one column for each residual).  Simplified: no functional
    representations of tau, omega, NormBRDF (1890-1941). *)
Fixpoint jac_lsq (gi : list Z) (mask : list (list bool)) (ps : list (list Z * list (list V))) : res (list (list V)) :=
  match ps with
  | [] => Ok []
  | (dyn, jac) :: r =>
      do J <- jac_param gi dyn jac;
      do rest <- jac_lsq gi mask r;
      Ok (map (fun g => unmasked (map (snd J g) (seq 0 (List.length (concat jac)))) mask) (seq 0 (fst J)) ++ rest)
  end.
End Jac.

(** rtfits.py:2329-2335 [fun]: the residuals; [sub], [mul]: elementwise
    operations; all arrays are rectangular *)
Definition residuals {V} (mul sub : V -> V -> V) (weights tot data : list (list V)) (mask : list (list bool)) : list V :=
  unmasked (map (fun p => mul (fst p) (sub (fst (snd p)) (snd (snd p))))
                (combine (concat weights) (combine (concat tot) (concat data)))) mask.
