(** Model of the tables of metrics: /repo/rt1/rtmetrics.py RTmetrics.[_flatten_dictionary] (589-617),
    [metrics_table] (620-649), [_metrics_table_dict_entry] (652-687) and the use of them in [scatterplot] (484-586).

    Simplification: numbers are represented by their printed text. *)
From Coq Require Import Arith Bool Ascii String List.
From Verif Require Import Base.
Import ListNotations.
Local Open Scope string_scope.
Local Open Scope list_scope.

(** a value of a dict of metrics: a float (Python's float or np.float64) or an int with its printed text, a
    dict, or anything else (None, np.float32, a string, ...) *)
Inductive mval : Type := MFloat (t : string) | MInt (t : string) | MDict (d : list (string * mval)) | MOther.

(** Python's [s * n] for strings *)
Fixpoint times (n : nat) (s : string) : string := match n with O => "" | S n => (s ++ times n s)%string end.
(** str.ljust(n), and format specifications "<n" *)
Definition ljust (n : nat) (s : string) : string := (s ++ times (n - String.length s) " ")%string.

(** rtmetrics.py:608-615: the items of one entry; the value of a sub-dict is the empty string; 617: the dict of the
    items of a sub-dict *)
Fixpoint flat_items (depth : nat) (key : string) (v : mval) : list (string * string) :=
  let new_key := (times depth "-" ++ " " ++ key)%string in
  match v with
  | MDict d => (new_key, "") :: dupdate string_dec [] (flat_map (fun kv => flat_items (S depth) (fst kv) (snd kv)) d)
  | MFloat t => [(new_key, t)]
  | MInt _ | MOther => []
  end.
(** rtmetrics.py:589-617 [_flatten_dictionary] *)
Definition flatten (depth : nat) (d : list (string * mval)) : dict string string :=
  dupdate string_dec [] (flat_map (fun kv => flat_items depth (fst kv) (snd kv)) d).

(** the end of a line *)
Definition nl : string := String "010"%char "".
(** rtmetrics.py:669-687 [_metrics_table_dict_entry]: the text of one entry; a negative width in a format specification
    is a ValueError *)
Fixpoint entry (depth : nat) (key : string) (v : mval) : res string :=
  if Nat.ltb 13 (2 * depth) then Err ValueError else
  let metric := ljust (13 - 2 * depth) key in                                               (* 672-673 *)
  match v with
  | MFloat t | MInt t => Ok (" " ++ times depth "--" ++ metric ++ "| " ++ ljust 14 t ++ "|" ++ nl)%string        (* 675-681 *)
  | MDict d =>                                                                              (* 683-687 *)
      do r <- (fix entries (d : list (string * mval)) : res string :=
                 match d with
                 | [] => Ok ""
                 | kv :: r => do a <- entry (S depth) (fst kv) (snd kv); do b <- entries r; Ok (a ++ b)%string
                 end) d;
      Ok (" " ++ times depth "--" ++ ljust (29 - 2 * depth) (metric ++ "|") ++ "|" ++ nl ++ r)%string
  | MOther => Ok ""
  end.
(** rtmetrics.py:669-687: the loop over the entries of a dict *)
Fixpoint entries (depth : nat) (d : list (string * mval)) : res string :=
  match d with
  | [] => Ok ""
  | kv :: r => do a <- entry depth (fst kv) (snd kv); do b <- entries depth r; Ok (a ++ b)%string
  end.
(** rtmetrics.py:641-648 [metrics_table]: the printed text *)
Definition table (d : list (string * mval)) : res string :=
  do r <- entries 0 d;
  Ok (times 11 "-" ++ " METRICS " ++ times 11 "-" ++ nl ++ ljust 14 "     METRIC" ++ ljust 15 "|     VALUE" ++ " |" ++ nl ++ r)%string.

(** rtmetrics.py:254-265 [metrics_registry] *)
Definition registry : list string := ["pearson"; "spearman"; "linregress"; "rmsd"; "ub_rmsd"; "bias"; "mae"; "mape"; "std_ratio"].
(** rtmetrics.py:463-482 [allmetrics]: for every metric its value; 327-331: linregress is a dict of floats or None *)
Definition allmetrics (value : string -> string) (lin : option (list (string * string))) : list (string * mval) :=
  map (fun f => (f, if String.eqb f "linregress"
                    then match lin with Some l => MDict (map (fun kv => (fst kv, MFloat (snd kv))) l) | None => MOther end
                    else MFloat (value f))) registry.
(** rtmetrics.py:484-586 [scatterplot]: the rows of its table; 519-523: the entries of linregress are used *)
Definition scatter_rows (value : string -> string) (lin : option (list (string * string))) : res (dict string string) :=
  match lin with
  | None => Err TypeError
  | Some l => if forallb (fun k => dmem string_dec k l) ["intercept"; "slope"; "stderr"]
              then Ok (flatten 0 (allmetrics value lin)) else Err KeyError
  end.
