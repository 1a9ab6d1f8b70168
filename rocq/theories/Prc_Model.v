(** Model of the setup of a processing run: /repo/rt1/rtprocess.py
    [_confirm_input], [RTprocess.override_config], [RTprocess.setup],
    [RTprocess._remove_dumpfolder], [_make_folderstructure],
    [RTprocess._copy_cfg_and_modules]. *)
From Coq Require Import String Ascii Arith Bool List.
From Verif Require Import Base.
Import ListNotations.
Local Open Scope list_scope.

(** str.upper (rtprocess.py 41, 47); ASCII only *)
Definition upper_char (c : ascii) : ascii :=
  let n := nat_of_ascii c in if Nat.leb 97 n && Nat.leb n 122 then ascii_of_nat (n - 32) else c.
(** the same for a string (rtprocess.py 41, 47) *)
Fixpoint upper (s : string) : string :=
  match s with EmptyString => EmptyString | String c r => String (upper_char c) (upper r) end.

(** rtprocess.py 38 [default_answers.get(inp, False)] *)
Definition default_answer (inp : string) : bool :=
  match dget string_dec inp [("YES", true); ("Y", true); ("NO", false); ("N", false)]%string with Some b => b | None => false end.

(** what [_confirm_input] does: sys.exit(0), return, or return after the
    callback of the given key has been called *)
Inductive confirmed : Type := Exit | Continue | Callback (key : string).

(** rtprocess.py 27-61 [_confirm_input]; [cbkeys]: the keys of callbackdict,
    [a1], [a2]: the answers to the first and the second prompt *)
Definition confirm_input (cbkeys : list string) (a1 a2 : string) : confirmed :=
  let inp := upper a1 in                                                         (* 41 *)
  if existsb (String.eqb inp) cbkeys then                                        (* 45 *)
    let inp2 := upper a2 in                                                      (* 47 *)
    if default_answer inp2 then Callback inp else Exit                           (* 49-54 *)
  else if default_answer inp then Continue else Exit.                            (* 55-61 *)

(** the content of a config-file: sections with keys and values (strings) *)
Definition config := dict string (dict string string).
(** [section in cfg.config] (rtprocess.py 227, 281): a ConfigParser always has DEFAULT *)
Definition in_config (s : string) (c : config) : bool := String.eqb s "DEFAULT" || existsb (String.eqb s) (keys c).
(** [d.get(section, {})] *)
Definition section (s : string) (c : config) : dict string string := match dget string_dec s c with Some d => d | None => [] end.

(** rtprocess.py 204-243 [override_config].  [ini]: the config-file, [cur]:
    self.init_kwargs, [kw]: the sections that are passed (keys and values after
    str(); a str() that makes two keys equal keeps the last value) *)
Definition override_config (ini cur : config) (override : bool) (kw : config) : res config :=
  do init_kwargs <- mapM (fun sd => if in_config (fst sd) ini then Ok (fst sd, dupdate string_dec [] (snd sd)) else Err AssertionError) kw;   (* 225-234 *)
  Ok (if override then init_kwargs                                               (* 243 *)
      else map (fun sd => (fst sd, dupdate string_dec (section (fst sd) cur) (snd sd))) init_kwargs).                                        (* 236-241 *)

(** rtprocess.py 278-295: [self.cfg.config[section][key] = val] for all
    init_kwargs.  (simplification: no value contains the interpolation
    character $) *)
Definition set_value (c : config) (s k v : string) : config := dset string_dec s (dset string_dec k v (section s c)) c.
(** all init_kwargs, rtprocess.py 279-295 *)
Definition apply_kwargs (ini kw : config) : res config :=
  fold_left (fun acc sd => do c <- acc;
                           if in_config (fst sd) c then Ok (fold_left (fun c kv => set_value c (fst sd) (fst kv) (snd kv)) (snd sd) c)
                           else Err AssertionError) kw (Ok ini).

(** one dumpfolder: the config-files in its folder cfg by name, and all other
    files (results, dumps, modules; arbitrary) *)
Record folder := mkfolder { f_cfg : dict string config; f_other : list string }.

Section Setup.
(** paths, and the path save_path/dumpfolder that get_process_specs returns for
    a configuration (rtprocess.py 297-298) *)
Context {P : Type} (peq : forall x y : P, {x = y} + {x <> y}) (path_of : config -> P).
(** the dumpfolders on the disc *)
Definition fs := dict P folder.

(** how [setup] ends *)
Inductive outcome : Type := Aborted | Failed (e : pyerr) | Using (c : config).

(** rtprocess.py 378-442 [_copy_cfg_and_modules] (the config-file; copied
    modules are part of f_other and never overwritten, 425-438).  Trusted:
    reading a written config gives the same config.  A missing file fails (the
    exception class is that of RT1_configparser). *)
Definition copy_cfg (main : bool) (ini cfg kw : config) (name : string) (p : P) (d : fs) : fs * outcome :=
  let fo := match dget peq p d with Some x => x | None => mkfolder [] [] end in
  let d' :=
    if main then
      match dget string_dec name (f_cfg fo), kw with
      | Some _, [] => d                                                                          (* 383-390 *)
      | None, [] => dset peq p (mkfolder (dset string_dec name ini (f_cfg fo)) (f_other fo)) d   (* 392-399 *)
      | _, _ => dset peq p (mkfolder (dset string_dec name cfg (f_cfg fo)) (f_other fo)) d       (* 400-410 *)
      end
    else d in
  match dget peq p d' with                                                                       (* 441-442 *)
  | Some x => match dget string_dec name (f_cfg x) with Some c => (d', Using c) | None => (d', Failed AssertionError) end
  | None => (d', Failed AssertionError)
  end.

(** rtprocess.py 263-337 [setup] up to the choice of the configuration.
    [main]: called in the MainProcess; [a1], [a2]: the answers the user would
    give; [ini]: the content of the config-file, [name]: its name, [kw]:
    self.init_kwargs.  Removing (259) deletes the whole folder.  The modules
    that are copied are not added to f_other. *)
Definition setup (main autocontinue copy : bool) (ini : config) (name : string) (kw : config) (a1 a2 : string) (d : fs) : fs * outcome :=
  match apply_kwargs ini kw with                                                                 (* 271-295 *)
  | Err e => (d, Failed e)
  | Ok cfg =>
    let p := path_of cfg in                                                                      (* 297-298 *)
    let go d := if copy then copy_cfg main ini cfg kw name p d else (d, Using cfg) in            (* 336-337 *)
    let make d := match dget peq p d with Some _ => d | None => dset peq p (mkfolder [] []) d end in   (* 326-329, 64-76 *)
    if main then
      if negb autocontinue && match dget peq p d with Some _ => true | None => false end then    (* 302-303 *)
        match confirm_input ["REMOVE"%string] a1 a2 with                                         (* 304-323 *)
        | Exit => (d, Aborted)
        | Continue => go (make d)
        | Callback _ => go (make (ddel peq p d))                                                 (* 245-261 *)
        end
      else go (make d)
    else go d
  end.
End Setup.
Arguments fs P : clear implicits.
