(** Model of /repo/rt1/rtparse.py: [RT1_configparser].

    The .ini file is modelled after configparser has read it: an ordered map
    from section names to ordered maps from keys to values ([None] for a key
    without value, allow_no_value, line 138-140); the values are those
    returned by [section[key]], i.e. interpolation has been performed and the
    entries of DEFAULT are merged.  [float], [int], [datetime.strptime] and
    [Path.resolve] are oracles on strings. *)
From Coq Require Import List Arith ZArith QArith Bool String Ascii.
From Verif Require Import Base Str_Model Con_Model.
Import ListNotations.
Open Scope string_scope.

(** a section: keys with their (optional) string, in file order *)
Definition section := dict string (option string).
(** a configuration file, in file order (including DEFAULT) *)
Definition inifile := dict string section.

(** the result of [get_config], rtparse.py:402-407 *)
Record config : Type := mkconfig {
  c_lsq : dict string val;
  c_defdict : dict string val;
  c_V : dict string val;
  c_SRF : dict string val;
  c_fits : dict string val
}.

(** the property tables, rtparse.py:150-162: the sections and which keys are converted *)
Record parse_props : Type := mkpp {
  pp_section : string; pp_int : list string; pp_float : list string;
  pp_bool : list string; pp_list : list string
}.

(** rtparse.py:150-154 *)
Definition lsq_parse_props : parse_props :=
  mkpp "least_squares_kwargs" ["verbose"; "max_nfev"] ["ftol"; "gtol"; "xtol"] [] [].

(** rtparse.py:156-161 *)
Definition fitargs_parse_props : parse_props :=
  mkpp "fits_kwargs" ["verbose"] [] ["sig0"; "dB"; "int_Q"] [].

(** [self.config[name]] (plain configparser: KeyError if there is no such section) *)
Definition get_section (ini : inifile) (name : string) : res section :=
  match dget string_dec name ini with Some s => Ok s | None => Err KeyError end.

(** [ConfigParser._convert_to_boolean] (plain configparser) *)
Definition to_boolean (s : option string) : res val :=
  match s with
  | None => Err AttributeError
  | Some s =>
      if inb string_dec (lower s) ["1"; "yes"; "true"; "on"] then Ok (VBool true)
      else if inb string_dec (lower s) ["0"; "no"; "false"; "off"] then Ok (VBool false)
      else Err ValueError
  end.

(** a Python value for an optional string *)
Definition ostr (s : option string) : val := match s with Some s => VStr s | None => VNone end.

Section Oracles.
(** Python's [float(s)] and [int(s)] on strings: None when they raise ValueError *)
Variable pfloat : string -> option Q.
Variable pint : string -> option Z.

(** [section.getfloat(key)]: TypeError for a key without value *)
Definition getfloat (s : option string) : res val :=
  match s with
  | None => Err TypeError
  | Some s => match pfloat s with Some q => Ok (VNum q) | None => Err ValueError end
  end.

(** [section.getint(key)] *)
Definition getint (s : option string) : res val :=
  match s with
  | None => Err TypeError
  | Some s => match pint s with Some z => Ok (VNum (inject_Z z)) | None => Err ValueError end
  end.

(** rtparse.py:229-247: the conversion of one entry in [_parse_dict] *)
Definition parse_value (pp : parse_props) (key : string) (s : option string) : res val :=
  if inb string_dec key (pp_float pp) then getfloat s
  else if inb string_dec key (pp_int pp) then getint s
  else if inb string_dec key (pp_bool pp) then to_boolean s
  else if inb string_dec key (pp_list pp) then
    match s with
    | None => Err AttributeError
    | Some s =>
        if String.eqb s "None" then Ok (VList [])
        else Ok (VList (map VStr (filter (fun i => Nat.ltb 0 (String.length i))
                                    (split_char "," (remove_char " " s)))))
    end
  else match s with
       | Some s => if String.eqb s "None" then Ok VNone else Ok (VStr s)
       | None => Ok VNone
       end.

(** a loop [for key in inp: parsed_dict[key] = f(key, inp[key])] *)
Fixpoint parse_section (f : string -> option string -> res val) (inp : section)
    (acc : dict string val) : res (dict string val) :=
  match inp with
  | [] => Ok acc
  | (k, s) :: r => do v <- f k s; parse_section f r (dset string_dec k v acc)
  end.

(** rtparse.py:201-249 [_parse_dict] *)
Definition parse_dict (ini : inifile) (pp : parse_props) (sec : string) : res (dict string val) :=
  do inp <- get_section ini sec; parse_section (parse_value pp) inp [].

(** rtparse.py:262 [list(map(float, ...))] on the comma separated fields *)
Definition float_list (fields : list string) : res val :=
  do l <- mapM (fun f => getfloat (Some f)) fields; Ok (VList l).

(** rtparse.py:254-272: the conversion of one entry in [_parse_V_SRF] *)
Definition parse_vsrf_value (key : string) (s : option string) : res val :=
  if String.eqb key "ncoefs" || String.eqb (drop 1 key) "__ncoefs" then getint s
  else if String.eqb key "a" || String.eqb (drop 1 key) "__a" then
    match s with
    | None => Err AttributeError
    | Some s =>
        if startswith "[" s && endswith "]" s
        then float_list (split_char "," (remove_char " " (inner s)))
        else Err AssertionError
    end
  else match getfloat s with Ok v => Ok v | Err _ => Ok (ostr s) end.

(** rtparse.py:281 [key[0].isupper() and key[1:].startswith("__")] (keys are
    not empty in a file read by configparser) *)
Definition is_component (key : string) : bool :=
  match key with
  | String c r => is_upper c && startswith "__" r
  | EmptyString => false
  end.

(** the value of [choices]: letter -> [frac, dict], a defaultdict with
    default [1, {}] (rtparse.py:279) *)
Definition choices := dict string (val * dict string val).

(** [choices[letter]] of the defaultdict *)
Definition choice (l : string) (ch : choices) : val * dict string val :=
  match dget string_dec l ch with Some c => c | None => (VNum 1, []) end.

(** rtparse.py:280-285: the loop over the keys; the component entries are
    moved from [parsed_dict] to [choices] *)
Fixpoint group_components (l : list (string * val)) (pd : dict string val) (ch : choices)
  : dict string val * choices :=
  match l with
  | [] => (pd, ch)
  | (k, v) :: r =>
      if is_component k then
        let letter := String.substring 0 1 k in
        let c := choice letter ch in
        if endswith "__frac" k
        then group_components r (ddel string_dec k pd) (dset string_dec letter (v, snd c) ch)
        else group_components r (ddel string_dec k pd)
               (dset string_dec letter (fst c, dset string_dec (drop 3 k) v (snd c)) ch)
      else group_components r pd ch
  end.

(** rtparse.py:274-287: one prefix of the LinComb post-processing *)
Definition group_prefix (prefix : string) (pd : dict string val) : dict string val :=
  match dget string_dec (prefix ++ "_name") pd with
  | Some (VStr n) =>
      if String.eqb n ("LinComb" ++ prefix) then
        let '(pd', ch) := group_components pd pd [] in
        dset string_dec (prefix ++ "choices")
          (VList (map (fun c => VList [fst (snd c); VDict (snd (snd c))]) ch)) pd'
      else pd
  | _ => pd
  end.

(** rtparse.py:251-288 [_parse_V_SRF] *)
Definition parse_V_SRF (ini : inifile) (sec : string) : res (dict string val) :=
  do inp <- get_section ini sec;
  do pd <- parse_section parse_vsrf_value inp [];
  Ok (group_prefix "SRF" (group_prefix "V" pd)).

(** list indexing with an exception *)
Definition index {A} (l : list A) (n : nat) : res A :=
  match nth_error l n with Some a => Ok a | None => Err IndexError end.

(** rtparse.py:305-333: the conversion of the fields of one entry of [_parse_defdict] *)
Definition parse_fields (f : list string) : res val :=
  do f0 <- index f 0;
  do b <- (if String.eqb f0 "True" then Ok (VBool true)
           else if String.eqb f0 "False" then Ok (VBool false)
           else Err AssertionError);
  do f1 <- index f 1;
  do v <- (if String.eqb f1 "auxiliary" then Ok (VStr f1) else getfloat (Some f1));
  if Nat.ltb 2 (List.length f) then
    do f2 <- index f 2;
    do f3 <- index f 3; do mi <- getfloat (Some f3);
    do f4 <- index f 4; do ma <- getfloat (Some f4);
    Ok (VList [b; v; (if String.eqb f2 "None" then VNone else VStr f2);
               VTup [VList [mi]; VList [ma]];
               VBool (match nth_error f 5 with Some i => String.eqb i "True" | None => false end)])
  else Ok (VList [b; v]).

(** rtparse.py:294-335: one entry of [_parse_defdict] *)
Definition parse_defdict_value (s : option string) : res val :=
  match s with
  | None => Err AttributeError
  | Some s =>
      if startswith "[" s && endswith "]" s
      then parse_fields (split_char "," (remove_char " " (inner s)))
      else Err AssertionError
  end.

(** rtparse.py:290-338 [_parse_defdict] *)
Definition parse_defdict (ini : inifile) (sec : string) : res (dict string val) :=
  do inp <- get_section ini sec; parse_section (fun _ s => parse_defdict_value s) inp [].

(** the name of an override section, rtparse.py:373, 381, 389, 393, 398 *)
Definition override_name (config sec : string) : string := "#config " ++ config ++ " " ++ sec.

(** [if override in self.config: d.update(parse(override))], rtparse.py:373-401 *)
Definition update_from (ini : inifile) (config sec : string)
    (parse : string -> res (dict string val)) (d : dict string val) : res (dict string val) :=
  if dmem string_dec (override_name config sec) ini
  then do o <- parse (override_name config sec); Ok (dupdate string_dec d o)
  else Ok d.

(** rtparse.py:345-407 [get_config] *)
Definition get_config (ini : inifile) (name : option string) : res config :=
  do lsq <- parse_dict ini lsq_parse_props (pp_section lsq_parse_props);
  do fits <- parse_dict ini fitargs_parse_props (pp_section fitargs_parse_props);
  do dd <- parse_defdict ini "defdict";
  do v <- parse_V_SRF ini "RT1_V";
  do s <- parse_V_SRF ini "RT1_SRF";
  match name with
  | None => Ok (mkconfig lsq dd v s fits)
  | Some c =>
      do lsq' <- update_from ini c "least_squares_kwargs" (parse_dict ini lsq_parse_props) lsq;
      do fits' <- update_from ini c "fits_kwargs" (parse_dict ini fitargs_parse_props) fits;
      do dd' <- update_from ini c "defdict" (parse_defdict ini) dd;
      do v' <- update_from ini c "RT1_V" (parse_V_SRF ini) v;
      do s' <- update_from ini c "RT1_SRF" (parse_V_SRF ini) s;
      Ok (mkconfig lsq' dd' v' s' fits')
  end.

(** rtparse.py:409-432 [config_names]; the names in order of the sections (the
    code returns their set) *)
Fixpoint config_names_loop (ini : inifile) (l : list string) : res (list string) :=
  match l with
  | [] => Ok []
  | i :: r =>
      if startswith "#config" i then
        match split_char " " i with
        | h :: t =>
            if String.eqb h "#config" then
              match t with
              | [n] => do ns <- config_names_loop ini r; Ok (n :: ns)
              | [n; s] => if dmem string_dec s ini
                          then do ns <- config_names_loop ini r; Ok (n :: ns)
                          else Err AssertionError
              | _ => Err AssertionError
              end
            else config_names_loop ini r
        | [] => config_names_loop ini r
        end
      else config_names_loop ini r
  end.

(** rtparse.py:409-432 *)
Definition config_names (ini : inifile) : res (list string) := config_names_loop ini (keys ini).

(** rtparse.py:164-199 [_check_integrity] *)
Definition check_integrity (ini : inifile) : res unit :=
  if negb (forallb (fun k => dmem string_dec k ini)
      ["PROCESS_SPECS"; "CONFIGFILES"; "fits_kwargs"; "least_squares_kwargs"; "defdict"; "RT1_V"; "RT1_SRF"])
  then Err AssertionError
  else do ps <- get_section ini "PROCESS_SPECS";
       if negb (forallb (fun k => dmem string_dec k ps) ["path__save_path"; "dumpfolder"])
       then Err AssertionError
       else do cf <- get_section ini "CONFIGFILES";
            match dget string_dec "processing_cfg_module" cf with
            | Some (Some m) => if dmem string_dec ("module__" ++ m) cf then Ok tt else Err AssertionError
            | Some None => Err TypeError
            | None => if dmem string_dec "module__processing_cfg" cf then Ok tt else Err AssertionError
            end.

Section Specs.
(** [datetime.strptime(s, fmt)] and [Path(s).resolve()] as oracles *)
Variable D : Type.
Variable strptime : string -> string -> option D.
Variable resolve : string -> string.

(** a parsed process-spec: a plain value, a path, a date or a list *)
Inductive spec : Type :=
| SVal (v : val)
| SPath (p : string)
| SDate (d : D)
| SList (l : list spec).

(** rtparse.py:340-343 [_to_dt] *)
Definition to_dt (s : string) (fmt : option string) : res spec :=
  match strptime s (match fmt with Some f => f | None => "%Y-%m-%d %H:%M:%S.%f" end) with
  | Some d => Ok (SDate d)
  | None => Err ValueError
  end.

(** [dict(zip(["s", "fmt"], [i.strip() for i in val.split("fmt=")]))],
    rtparse.py:592, 630-640: the first two parts *)
Definition split_fmt (s : string) : string * option string :=
  match split_first "fmt=" s with
  | (a, None) => (strip a, None)
  | (a, Some r) => (strip a, Some (strip (fst (split_first "fmt=" r))))
  end.

(** rtparse.py:646-648: the comprehension over the comma separated fields *)
Definition convert_list (conv : string -> res spec) (s : string) : res spec :=
  do l <- mapM (fun i => conv (strip i)) (split_char "," (inner (strip s))); Ok (SList l).

(** rtparse.py:615-651: a key starting with list__; name and value *)
Definition parse_list_spec (listkey : string) (s : string) : res (string * spec) :=
  if startswith "[" s && (endswith "]" s || contains "fmt=" s) then
    if startswith "bool__" listkey then
      do l <- convert_list (fun x => do b <- to_boolean (Some x); Ok (SVal b)) s; Ok (drop 6 listkey, l)
    else if startswith "float__" listkey then
      do l <- convert_list (fun x => do b <- getfloat (Some x); Ok (SVal b)) s; Ok (drop 7 listkey, l)
    else if startswith "int__" listkey then
      do l <- convert_list (fun x => do b <- getint (Some x); Ok (SVal b)) s; Ok (drop 5 listkey, l)
    else if startswith "datetime__" listkey then
      let '(v, fmt) := split_fmt s in
      do l <- convert_list (fun x => to_dt x fmt) v; Ok (drop 10 listkey, l)
    else
      do l <- convert_list (fun x => Ok (SVal (VStr x))) s; Ok (listkey, l)
  else Err AssertionError.

(** rtparse.py:587-653: one entry of the section; [val] is None when the
    string is "None" or missing, [inp.getX(key)] reads the raw string *)
Definition parse_spec (key : string) (raw : option string) : res (string * spec) :=
  let v := match raw with
           | Some s => if String.eqb s "None" then None else Some s
           | None => None
           end in
  if startswith "datetime__" key then
    match v with
    | None => Err AttributeError
    | Some s => let '(d, fmt) := split_fmt s in do x <- to_dt d fmt; Ok (drop 10 key, x)
    end
  else if startswith "path__" key then
    match v with
    | None => Err AttributeError
    | Some s => Ok (drop 6 key, SPath (if contains ".." (strip s) then resolve (strip s) else strip s))
    end
  else if startswith "bool__" key then do b <- to_boolean raw; Ok (drop 6 key, SVal b)
  else if startswith "float__" key then do b <- getfloat raw; Ok (drop 7 key, SVal b)
  else if startswith "int__" key then do b <- getint raw; Ok (drop 5 key, SVal b)
  else if startswith "list__" key then
    match v with
    | None => Err AttributeError
    | Some s => parse_list_spec (drop 6 key) s
    end
  else Ok (key, SVal (ostr v)).

(** rtparse.py:585-655: the loop of [get_process_specs] *)
Fixpoint specs_loop (inp : section) (acc : dict string spec) : res (dict string spec) :=
  match inp with
  | [] => Ok acc
  | (k, s) :: r => do kv <- parse_spec k s; specs_loop r (dset string_dec (fst kv) (snd kv) acc)
  end.

(** rtparse.py:573-655 [get_process_specs] *)
Definition get_process_specs (ini : inifile) : res (dict string spec) :=
  do inp <- get_section ini "PROCESS_SPECS"; specs_loop inp [].
End Specs.
End Oracles.
