(** Model of the bookkeeping of IDs and of the exception policy:
    /repo/rt1/_rtprocess_writer.py [_check_IDs], /repo/rt1/processing_config.py
    [mask_existing_HDF_IDs], [exceptfunc], /repo/rt1/rtprocess.py [_extract_ID],
    [_evalfunc], /repo/rt1/rtresults.py [_get_ID]. *)
From Coq Require Import List Arith ZArith Bool String Ascii.
From Verif Require Import Base Str_Model GF_Model Pip_Model.
Import ListNotations.
Open Scope string_scope.

(** Python's keywords (keyword.kwlist) *)
Definition kwlist : list string :=
  ["False"; "None"; "True"; "and"; "as"; "assert"; "async"; "await"; "break"; "class"; "continue"; "def"; "del";
   "elif"; "else"; "except"; "finally"; "for"; "from"; "global"; "if"; "import"; "in"; "is"; "lambda"; "nonlocal";
   "not"; "or"; "pass"; "raise"; "return"; "try"; "while"; "with"; "yield"].
(** letters and underscore; ASCII only (simplification: unicode letters are not modelled) *)
Definition is_letter (c : ascii) : bool :=
  let n := nat_of_ascii c in
  (Nat.leb 65 n && Nat.leb n 90) || (Nat.leb 97 n && Nat.leb n 122) || Nat.eqb n 95.
(** digits 0-9 *)
Definition is_digit (c : ascii) : bool := let n := nat_of_ascii c in Nat.leb 48 n && Nat.leb n 57.
(** general_functions.py:13-28 [isidentifier] *)
Definition isidentifier (s : string) : bool :=
  match list_ascii_of_string s with
  | [] => false
  | c :: r => is_letter c && forallb (fun d => is_letter d || is_digit d) r && negb (existsb (String.eqb s) kwlist)
  end.
(** rtresults.py:580-585 [HDFaccessor._get_ID], rtprocess.py:768-771 *)
Definition get_ID (s : string) : string := if isidentifier s then s else "RT1_" ++ s.

Section Ids.
Context {Arg : Type}.
(** str(reader_arg["ID"]) and proc_cls.get_names_ids(reader_arg)["feature_id"] *)
Variable raw_id : Arg -> string.
Variable feature_id : Arg -> string.

(** processing_config.py:103: the default [get_names_ids] uses str(reader_arg["ID"]) *)
Definition default_feature (a : Arg) : string := raw_id a.

(** rtprocess.py:765-771 [_extract_ID] *)
Definition extract_ID (a : Arg) : string := get_ID (feature_id a).

(** the HDF container: no file, a file without the table "reader_arg", or the
    column "ID" of this table with its index (the ID numbers) *)
Inductive file : Type := NoFile | NoTable | Table (rows : list (string * Z)).

(** _rtprocess_writer.py:345-352: number the arguments that are not masked;
    [i] numbers have been taken from the counter before *)
Fixpoint number (cnt : nat -> Z) (mask : Arg -> bool) (i : nat) (args : list Arg) : list (Arg * Z) :=
  match args with
  | [] => []
  | a :: r => if mask a then number cnt mask i r else (a, cnt i) :: number cnt mask (S i) r
  end.

(** _rtprocess_writer.py:318-360 [_check_IDs] (the same code:
    processing_config.py:296-340 [mask_existing_HDF_IDs]) with
    get_ID = [_extract_ID]; rtresults.py:502-517: [IDs] is None without the
    table, and None has no attribute "index" *)
Definition check_IDs (f : file) (args : list Arg) : res (list (Arg * Z)) :=
  match f with
  | NoFile => Ok (number Z.of_nat (fun _ => false) 0 args)                     (* 353-357 *)
  | NoTable => Err AttributeError
  | Table rows =>
      let found := map (fun r => get_ID (fst r)) rows in
      Ok (number (find_missing (map snd rows)) (fun a => inb string_dec (extract_ID a) found) 0 args)
  end.

(** rtfits.py:2946-2955: the row of a processed argument in the table
    "reader_arg": its "ID" and the ID number *)
Definition stored_row (d : Arg * Z) : string * Z := (raw_id (fst d), snd d).
(** _rtprocess_writer.py:424-432: rows are appended *)
Definition append_rows (f : file) (rows : list (string * Z)) : file :=
  match rows, f with
  | [], _ => f
  | _, Table old => Table (old ++ rows)%list
  | _, _ => Table rows
  end.
End Ids.

(** ** exceptions *)
(** an element of [ex.args]: a string or something else *)
Inductive exarg : Type := XStr (s : string) | XOther.
(** [tag in ex.args] *)
Definition tagged (tag : string) (args : list exarg) : bool :=
  existsb (fun a => match a with XStr s => String.eqb tag s | XOther => false end) args.

(** what a handler does: raise the exception again, return None or a value,
    or fail with a different exception *)
Inductive handled {H : Type} : Type := Reraised | RetNone | RetFit (h : H) | Failed (e : list exarg).
Arguments handled : clear implicits.

Section Except.
Context {Fit H : Type}.

(** processing_config.py:174-261 [exceptfunc]; [names]: does
    [get_names_ids(reader_arg)] succeed (line 205), [dumppath]: is
    [rt1_procsesing_dumppath] set, [load]: the result of loading the dump file
    and converting it (225-226; a missing path is an exception as well) *)
Definition exceptfunc (names : option (list exarg)) (dumppath : bool) (load : option H) (ex : list exarg) : handled H :=
  match names with
  | Some e => Failed e                                                         (* 205 *)
  | None =>
      if tagged "rt1_skip" ex then RetNone                                     (* 208-212 *)
      else if tagged "rt1_file_already_exists" ex then                         (* 214-232 *)
        (if dumppath then match load with Some h => RetFit h | None => RetNone end else RetNone)
      else if tagged "rt1_data_error" ex then RetNone                          (* 234-242 *)
      else if dumppath then RetNone else Reraised                              (* 243-258 *)
  end.

(** rtprocess.py:459-476: the value returned by the reader: a DataFrame (its
    number of rows), a list or tuple (first element a DataFrame with so many
    rows, or not; number of further elements), an empty list or tuple, or
    something else *)
Inductive reader_value : Type :=
| RFrame (rows : nat)
| RSeq (first : option nat) (more : nat)
| REmptySeq
| RValue.
(** what a call does: return or raise *)
Inductive call {V : Type} : Type := Value (v : V) | Raise (e : list exarg).
Arguments call : clear implicits.

(** aux_data: None, the second element, or the tuple of the further elements *)
Inductive aux : Type := ANone | ASecond | ARest.

(** rtprocess.py:459-480: split the reader's return value *)
Definition split_read (r : reader_value) : call (nat * aux) :=
  match r with
  | RFrame n => Value (n, ANone)                                               (* 463-465 *)
  | RSeq (Some n) more =>
      match more with
      | O => Raise [XStr "local variable 'dataset' referenced before assignment"]  (* 469-473, 480: no branch for one element *)
      | S O => Value (n, ASecond)                                              (* 469-470 *)
      | _ => Value (n, ARest)                                                  (* 471-473 *)
      end
  | RSeq None _ => Raise [XStr "the first return-value of reader function must be a pandas DataFrame"] (* 474-478 *)
  | REmptySeq => Raise [XStr "index out of range"]                             (* 467 read_data[0] *)
  | RValue => Raise [XStr "the first return-value of reader function must be a pandas DataFrame"]
  end.

(** rtprocess.py:458-545: the body of the try block; [fit]: setting up and
    performing the fit, dumping it and converting it *)
Definition evalbody (reader : call reader_value) (fit : nat * aux -> call H) : call H :=
  match reader with
  | Raise e => Raise e
  | Value r =>
      match split_read r with
      | Raise e => Raise e
      | Value (n, a) => if Nat.eqb n 0 then Raise [XStr "rt1_skip"] else fit (n, a)   (* 480-482 *)
      end
  end.

(** rtprocess.py:444-553 [_evalfunc] with the default exceptfunc *)
Definition evalfunc (names : option (list exarg)) (dumppath : bool) (load : option H)
    (reader : call reader_value) (fit : nat * aux -> call H) : handled H :=
  match evalbody reader fit with
  | Value h => RetFit h
  | Raise e => exceptfunc names dumppath load e
  end.

(** _rtprocess_writer.py:457-477: what the worker sees: an exception, None or
    a dict *)
Definition worker_sees {Row} (to : H -> @result Row) (h : handled H) : @outcome Row :=
  match h with
  | Reraised | Failed _ => Raises
  | RetNone => Returns MNone
  | RetFit d => Returns (MDict (to d))
  end.
End Except.
Arguments call : clear implicits.
