(** Model of /repo/rt1/general_functions.py [interpolate_to_index] (302-350).

    scipy.interpolate.interp1d with the defaults used here (kind linear,
    fill_value None, bounds_error False) is modelled by its documented
    behaviour: the nodes are sorted by their abscissa, between two neighbouring
    nodes the result is the straight line, outside of the nodes it is missing
    (NaN).  Simplifications: no missing values in the data, exact arithmetic
    on rational numbers, no further keyword-arguments for interp1d. *)
From Coq Require Import List QArith Bool String.
From Verif Require Import Base.
Import ListNotations.
Local Open Scope list_scope.

(** scipy.interpolate.interp1d sorts its nodes (assume_sorted=False, stable):
    insert a node *)
Fixpoint insert {A} (n : Q * A) (l : list (Q * A)) : list (Q * A) :=
  match l with
  | [] => [n]
  | m :: r => if Qle_bool (fst n) (fst m) then n :: l else m :: insert n r
  end.
(** ... sort the nodes *)
Fixpoint sort {A} (l : list (Q * A)) : list (Q * A) :=
  match l with [] => [] | n :: r => insert n (sort r) end.

(** the straight line through two nodes: slope * (t - x_lo) + y_lo *)
Definition line (a b : Q * Q) (t : Q) : Q := ((snd b - snd a) / (fst b - fst a) * (t - fst a) + snd a)%Q.

(** interp1d: the interval is found by searchsorted (the first node that is not
    smaller, at least the second one); [a] is the node before [l] *)
Fixpoint segment (a : Q * Q) (l : list (Q * Q)) (t : Q) : option Q :=
  match l with
  | [] => None                                          (* behind the last node *)
  | b :: r => if Qle_bool t (fst b) then Some (line a b t) else segment b r t
  end.

(** interp1d(x, y, fill_value=None, bounds_error=False)(t) for sorted nodes; a
    single node (numpy.interp) *)
Definition interp_sorted (l : list (Q * Q)) (t : Q) : option Q :=
  match l with
  | [] => None
  | [a] => if Qeq_bool t (fst a) then Some (snd a) else None
  | a :: r => if Qle_bool (fst a) t then segment a r t else None
  end.
(** interp1d(x, y, ...)(t) *)
Definition interp1d (nodes : list (Q * Q)) (t : Q) : option Q := interp_sorted (sort nodes) t.

Section Itp.
(** time stamps *)
Context {L : Type}.
(** index.to_julian_date() *)
Variable jd : L -> Q.

(** general_functions.py:332-341: pandas Series (label, value), DataFrame
    (columns, rows of label and values), lists and arrays, anything else *)
Inductive input : Type :=
| PSeries (rows : list (L * Q))
| PFrame (columns : list string) (rows : list (L * list Q))
| PArray (values : list Q)
| POther.

(** the returned object; [ONone]: the function ends without return *)
Inductive output : Type :=
| OSeries (rows : list (L * option Q))
| OFrame (columns : list string) (rows : list (L * list (option Q)))
| ONone.

(** general_functions.py:302-350 [interpolate_to_index].  The columns of a
    DataFrame are interpolated one by one (axis=0).  Lists and arrays: the
    assertion (344), then data.values (348), which neither of them has. *)
Definition interpolate_to_index (data : input) (index : list L) (data_index : option (list L)) : res output :=
  match data with
  | PSeries rows =>
      Ok (OSeries (map (fun t => (t, interp1d (map (fun r => (jd (fst r), snd r)) rows) (jd t))) index))
  | PFrame cols rows =>
      Ok (OFrame cols (map (fun t => (t, map (fun j => interp1d (map (fun r => (jd (fst r), nth j (snd r) 0%Q)) rows) (jd t))
                                              (seq 0 (List.length cols)))) index))
  | PArray _ => match data_index with None => Err AssertionError | Some _ => Err AttributeError end
  | POther => Ok ONone
  end.
End Itp.
Arguments input : clear implicits.
Arguments output : clear implicits.
