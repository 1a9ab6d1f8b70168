(** Model of the report on the definition of a model: /repo/rt1/rtfits.py [_model_definition] (2545-2713).

    Simplifications: the cells of the tables are kept apart (in the code they are concatenated to lines, with separators
    and white space); the header, the version, the current date and the section "DATASET PROPERTIES" are not modelled.
    Strings that Python makes of floats and of other objects are arbitrary functions. *)
From Coq Require Import Bool Arith String Ascii List ZArith QArith.
From Verif Require Import Base Str_Model.
Import ListNotations.
Local Open Scope list_scope.

(** values that occur in a defdict (plain Python, no /repo code) *)
Inductive pyval : Type :=
| Int (z : Z)
| Float (q : Q)
| Bool (b : bool)
| Text (s : string)
| PyNone
| Seq (l : list pyval).          (* lists, arrays *)
(** one entry of the defdict, _containers.py 345-361: [fitQ, val, freq, ([minval], [maxval]), interpQ] *)
Record vardef : Type := mkvardef { v_fitQ : pyval; v_val : pyval; v_freq : pyval; v_min : pyval; v_max : pyval; v_interp : pyval }.

Section Mdf.
(** f"{x:.n}" of a float and str(x) of any value *)
Variable show : nat -> Q -> string.
Variable pystr : pyval -> string.

(** the first characters of a string *)
Fixpoint cut (n : nat) (s : string) : string :=
  match n, s with
  | S n, String c r => String c (cut n r)
  | _, _ => EmptyString
  end.
(** f"{x:.n}" (Python's format; used in 2573, 2581): a precision is not allowed for integers, bool is an integer *)
Definition fmt (n : nat) (v : pyval) : res string :=
  match v with
  | Float q => Ok (show n q)
  | Text s => Ok (cut n s)
  | Int _ | Bool _ => Err ValueError
  | PyNone | Seq _ => Err TypeError
  end.
(** " & ".join (2577) *)
Fixpoint join_and (l : list string) : string :=
  match l with
  | [] => EmptyString
  | [x] => x
  | x :: r => (x ++ " & " ++ join_and r)%string
  end.
(** one row of the table of fitted parameters *)
Record row : Type := mkrow { r_name : string; r_start : string; r_vari : string; r_bounds : string; r_inter : string }.
(** what one entry of the defdict contributes, 2570-2595 *)
Inductive entry : Type := EFit (r : row) | EFixed (k : string) (v : pyval) | EAux (k : string) | ENone.
(** 2570-2595, the body of the loop.  (_to_list always has five items, so there is no IndexError in 2583) *)
Definition entry_of (kv : string * vardef) : res entry :=
  let (key, v) := kv in
  match v_fitQ v with
  | Bool true =>
      do star <- fmt 10 (v_val v);
      let vari := match v_freq v with PyNone => "      -       "%string | f => join_and (map strip (split_char "+" (pystr f))) end in
      do lo <- fmt 5 (v_min v);
      do hi <- fmt 5 (v_max v);
      Ok (EFit (mkrow key star vari (lo ++ "-" ++ hi) (pystr (v_interp v))))
  | Bool false =>
      match v_val v with
      | Text s => if String.eqb s "auxiliary" then Ok (EAux key) else Ok ENone
      | Int _ | Float _ | Bool _ => Ok (EFixed key (v_val v))
      | _ => Ok ENone
      end
  | _ => Ok ENone
  end.
(** 2570-2595: the three collections *)
Definition fits (l : list entry) : list row := flat_map (fun e => match e with EFit r => [r] | _ => [] end) l.
(** 2570-2595, [fixed] *)
Definition fixeds (l : list entry) : list (string * pyval) := flat_map (fun e => match e with EFixed k v => [(k, v)] | _ => [] end) l.
(** 2570-2595, [auxiliary] *)
Definition auxs (l : list entry) : list string := flat_map (fun e => match e with EAux k => [k] | _ => [] end) l.

(** str.ljust with blanks *)
Fixpoint blanks (n : nat) : string := match n with O => EmptyString | S n => String " " (blanks n) end.
(** str.ljust (2604, 2608) *)
Definition ljust (n : nat) (s : string) : string := (s ++ blanks (n - String.length s))%string.
(** max(map(len, names)) *)
Definition width (l : list string) : nat := fold_right Nat.max 0%nat (map String.length l).
(** 2603-2609: names of the properties of V or SRF with a colon *)
Definition labels (l : list string) : list string := map (fun i => (ljust (width l) i ++ ":")%string) l.
(** 2611-2617: the while loops append empty items until both columns are equally long *)
Definition pad {A} (n : nat) (x : A) (l : list A) : list A := l ++ repeat x (n - length l).
(** dict.pop(key, "?") on a copy, 2598-2601 *)
Definition pop (key : string) (d : dict string string) : string * dict string string :=
  (match dget string_dec key d with Some x => x | None => "?"%string end, ddel string_dec key d).
(** 2597-2617, 2644-2652 for a dict set_V_SRF: the two names, and the rows of the two columns *)
Definition scatter (vprops srfprops : dict string string) : (string * string) * list ((string * string) * (string * string)) :=
  let (vname, vprop) := pop "V_name" vprops in
  let (srfname, srfprop) := pop "SRF_name" srfprops in
  let vnames := labels (keys vprop) in
  let vvals := map snd vprop in
  let srfnames := labels (keys srfprop) in
  let srfvals := map snd srfprop in
  let n1 := Nat.max (length vnames) (length srfnames) in
  let vnames := pad n1 ""%string vnames in
  let vvals := pad n1 ""%string vvals in
  let n2 := Nat.max (length vnames) (length srfnames) in
  let srfnames := pad n2 ""%string srfnames in
  let srfvals := pad n2 ""%string srfvals in
  ((vname, srfname), combine (combine vnames vvals) (combine srfnames srfvals)).

(** 2681-2692: the two columns of fixed parameters and auxiliary datasets *)
Definition columns (fixed : list (string * pyval)) (aux : list string) : list (option (string * pyval) * option string) :=
  map (fun i => (nth_error fixed i, nth_error aux i)) (seq 0 (if Nat.ltb (length aux) (length fixed) then length fixed else length aux)).
(** 2695-2708: the keywords of the optimizer in two columns *)
Definition lsq {V} (kw : list (string * V)) : list ((string * V) * (string * V)) :=
  let n := ((length kw + 1) / 2)%nat in combine (firstn n kw) (skipn n kw).
(** the tables of the report *)
Record report : Type := mkreport {
  t_fitted : list row; t_scatter : (string * string) * list ((string * string) * (string * string));
  t_columns : list (option (string * pyval) * option string); t_lsq : list ((string * pyval) * (string * pyval)) }.
(** 2545-2713 [_model_definition] *)
Definition model_definition (defdict : list (string * vardef)) (vprops srfprops : dict string string) (kw : list (string * pyval)) : res report :=
  do es <- mapM entry_of defdict;
  Ok (mkreport (fits es) (scatter vprops srfprops) (columns (fixeds es) (auxs es)) (lsq kw)).
End Mdf.
