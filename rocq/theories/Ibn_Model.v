(** Model of plot.intermediate_residuals (/repo/rt1/rtplots.py 2860-3195): which residuals are shown, in which column, at which position.

    Keys and recorded residuals are combined position by position, as pandas does; when the position of a residual is that of its observation is
    C167 (Aln_Model).  pandas.cut with given edges is modelled by its rule, the edges and the (rounded) boundaries that label the bins are given; the 3D
    surface, the colours and the labels of the colorbar are not modelled. *)
From Coq Require Import ZArith QArith Qabs Bool Arith List.
From Verif Require Import Base GF_Model Aln_Model.
Import ListNotations.
Local Open Scope list_scope.

(** a python slice object (the argument iter_slice) *)
Record pslice : Type := mkslice { s_start : option Z; s_stop : option Z; s_step : option Z }.
(** python: a bound of a slice of a list of length [len] (negative ones are counted from the end) *)
Definition bound (len : Z) (neg : bool) (default : Z) (b : option Z) : Z :=
  match b with
  | None => default
  | Some v =>
      if (v <? 0)%Z then (if (v + len <? 0)%Z then (if neg then -1 else 0) else v + len)%Z
      else if (len <=? v)%Z then (if neg then len - 1 else len)%Z else v
  end.
(** python: slice.indices(len) and the positions that are taken, rtplots.py 2972, 2991, 3014, 3045 (residuals[iter_slice]) and 3063 (xvals) *)
Definition slice_positions (len : nat) (s : pslice) : res (list nat) :=
  let n := Z.of_nat len in
  let step := match s_step s with Some z => z | None => 1%Z end in
  if (step =? 0)%Z then Err ValueError
  else
    let neg := (step <? 0)%Z in
    let a := bound n neg (if neg then n - 1 else 0)%Z (s_start s) in
    let b := bound n neg (if neg then -1 else n)%Z (s_stop s) in
    let cnt := (if neg then if b <? a then (a - b - 1) / (- step) + 1 else 0 else if a <? b then (b - a - 1) / step + 1 else 0)%Z in
    Ok (map (fun k => Z.to_nat (a + Z.of_nat k * step)) (seq 0 (Z.to_nat cnt))).
(** python: l[s]; positions outside of the list do not occur (C224_iterations) *)
Definition take_slice {A} (l : list A) (s : pslice) : res (list A) :=
  do p <- slice_positions (List.length l) s;
  mapM (fun i => match nth_error l i with Some a => Ok a | None => Err IndexError end) p.
(** rtplots.py 2943-2947: iterstep (an empty slice object is true; a step of 0 raises later) *)
Definition iterstep (s : pslice) : Z := match s_step s with Some z => if (z =? 0)%Z then 1 else z | None => 1 end.

(** pandas.cut(x, bins, include_lowest=True), rtplots.py 2951-2957: ids = searchsorted(bins, x, side="left"), the lowest edge belongs to the
    first bin, values outside (and missing ones) to none *)
Definition cut (edges : list Q) (x : option Q) : option nat :=
  match x with
  | None => None
  | Some v =>
      let id := if match edges with e :: _ => Qeq_bool v e | [] => false end then 1%nat
                else List.length (filter (fun e => negb (Qle_bool v e)) edges) in
      if Nat.eqb id 0 || Nat.eqb id (List.length edges) then None else Some (id - 1)%nat
  end.

(** rtplots.py 2962-2973 (2983-2992, 3006-3015, 3037-3046): np.abs(DataFrame(residuals).groupby(keys).mean()); a group without residuals is NaN and
    masked (3060-3061) *)
Definition column_values (keys : list (option nat)) (ncols : nat) (errs : list Q) : list (option Q) :=
  map (fun i => match map snd (filter (fun p => match fst p with Some k => Nat.eqb k i | None => false end) (combine keys errs)) with
                | [] => None
                | l => Some (shown_residual l)
                end) (seq 0 ncols).

(** the grouping (rtplots.py 2949-3058): a tuple (the values of the column, None if there is no such column; edges and labelling boundaries of the
    bins), a string (the number of the group, date or period of each residual, the number of columns), anything else *)
Inductive grouping : Type := GTuple (vals : option (list (option Q))) (edges breaks : list Q) | GStr (keys : list nat) (ncols : nat) | GOther.
(** the argument plottype *)
Inductive ptype : Type := P3D | P2D | POther.

(** what is drawn: the iterations, the positions of the columns, the values (one row per iteration), the columns that are drawn as points, and
    for 2D the range [xmin, xmax], [ymin, ymax] of the image *)
Record figure : Type := mkfig { f_x : list nat; f_y : list Q; f_z : list (list (option Q)); f_points : list nat;
                                f_xrange : Q * Q; f_yrange : Q * Q }.

(** rtplots.py 2959: grps.min(), grps.max() are the first and the last bin that holds a value *)
Definition present_bins (keys : list (option nat)) : list nat := flat_map (fun k => match k with Some i => [i] | None => [] end) keys.
(** python min and max of a list *)
Definition list_min (l : list nat) : nat := match l with [] => 0%nat | x :: r => fold_left Nat.min r x end.
(** see [list_min] *)
Definition list_max (l : list nat) : nat := match l with [] => 0%nat | x :: r => fold_left Nat.max r x end.

(** rtplots.py 3112-3118: the columns that are surrounded by completely masked ones *)
Definition maskp (m : list bool) : list bool :=
  map (fun w => match w with [true; false; true] => true | _ => false end) (pairwise (true :: m ++ [true]) 3).
(** np.arange(len(maskp))[maskp] *)
Definition selected (m : list bool) : list nat := map fst (filter snd (combine (seq 0 (List.length m)) m)).
(** np.all(resarr.mask, axis=0) *)
Definition all_masked (ncols : nat) (z : list (list (option Q))) : list bool :=
  map (fun i => forallb (fun row => match nth i row None with Some _ => false | None => true end) z) (seq 0 ncols).

(** the half *)
Definition half (q : Q) : Q := q / 2.
(** the number as a rational *)
Definition qn (n : nat) : Q := inject_Z (Z.of_nat n).

(** rtplots.py 2934-3193 *)
Definition intermediate_residuals (store : option (list (list Q))) (g : grouping) (sl : option pslice) (pt : ptype) : res figure :=
  match store with
  | None => Err AssertionError                                                     (* 2936-2941 *)
  | Some rs =>
      do gk <- match g with
        | GTuple None _ _ => Err UnboundLocalError                                 (* 2950-2958 *)
        | GTuple (Some vals) edges breaks =>
            let keys := map (cut edges) vals in
            match present_bins keys with
            | [] => Err AttributeError                                             (* 2959: nan has no left *)
            | p => Ok (keys, (List.length edges - 1)%nat,
                       map (fun i => half (nth i breaks 0 + nth (S i) breaks 0)) (seq 0 ((List.length edges - 1)%nat)),
                       (nth (list_min p) breaks 0, nth (S (list_max p)) breaks 0), ValueError)
            end
        | GStr keys n => Ok (map Some keys, n, map qn (seq 0 n), (- (1 # 2), qn n - (1 # 2)), IndexError)
        | GOther => Err UnboundLocalError
        end;
      let '(keys, n, ys, yr, empty) := gk in
      match sl with
      | None => Err TypeError                                                      (* a list indexed by None *)
      | Some s =>
          do sel <- take_slice rs s;
          do xs <- take_slice (seq 1 (List.length rs)) s;
          let z := map (column_values keys n) sel in
          match sel, g, pt with
          | [], GStr _ _, _ => Err IndexError                                      (* 2993: resarr.shape[1] *)
          | _, _, POther => Err UnboundLocalError                                  (* surf, ax *)
          | [], _, _ => Err empty                                                  (* 3102, 3150: nanmin of an empty array *)
          | _, _, _ => Ok (mkfig xs ys z (match pt with P3D => selected (maskp (all_masked n z)) | _ => [] end)
                             (qn (list_min xs) - half (inject_Z (iterstep s)), qn (list_max xs) + half (inject_Z (iterstep s))) yr)
          end
      end
  end.

(** matplotlib imshow(origin="lower", extent=...): the position of the centre of pixel i of n *)
Definition pixel (range : Q * Q) (n i : nat) : Q := fst range + (qn i + (1 # 2)) * (snd range - fst range) / qn n.
