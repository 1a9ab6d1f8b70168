(** Model of the final output of a feature: /repo/rt1/rtprocess.py [_run_finalout] (1150-1207: the coefficients of the parent and
    the calls of the pool), [_finalout_reader] (1210-1253), [_run_postprocess] (1255-1322), /repo/rt1/rtfits.py [apply] (3306-3343),
    [config_fits] (3089-3091), _rtprocess_writer.py [_worker_process] (456-476).

    Simplifications: fit-objects are given by their definition [F] and the pre-evaluated coefficients; a postprocess function
    returns a dict of tables or None; [exceptfunc] is not part of the model: an exception is the result [Err] (C54, C92 say what
    becomes of it); the attributes ID and _RT1_ID_num are left out; the table with the reader_arg is one entry. *)
From Coq Require Import String List Arith Bool.
From Verif Require Import Base.
Import ListNotations.
Local Open Scope string_scope.
Local Open Scope list_scope.

Section Ppr.
(** definitions of fits, coefficients of the interaction-term, tables *)
Variables F N T : Type.
(** R._fnevals of a fit (rtfits.py 1345-1365) *)
Variable coefs : F -> N.

(** a fit: definition, int_Q, _fnevals_input *)
Record fit := mkfit { def : F; int_Q : bool; fn : option N }.
(** a Fits object (its config_name, if it has one) or a MultiFits object *)
Inductive obj := One (cfg : option string) (f : fit) | Many (l : list (string * fit)).
(** what a postprocess function returns: a dict of tables, or None *)
Definition pval : Type := option (dict string T).
(** a postprocess function: the name of its parameter, what it does with a Fits object and with a MultiFits object *)
Record pfunc := mkp { p_arg : string; p_one : fit -> res pval; p_many : list (string * fit) -> res pval }.
(** the argument use_config (or a tuple) *)
Inductive ucfg := UNone | UStr (s : string) | UList (l : list string) | UTuple (l : list string).
(** one entry of the result: the return of a config, a table of a direct return, the reader_arg *)
Inductive entry := ByConfig (v : pval) | Layer (t : T) | ReaderArg.

(** [f(fit=x)] (rtfits.py 3328, 3333, 3337): the parameter is given by its name *)
Definition call_kw (p : pfunc) (f : fit) : res pval := if String.eqb (p_arg p) "fit" then p_one p f else Err TypeError.
(** the items of a dict that is made from the given (name, value) pairs (rtprocess.py 1273-1287) *)
Fixpoint collect (p : pfunc) (l : list (string * fit)) (acc : dict string entry) : res (dict string entry) :=
  match l with
  | [] => Ok acc
  | (n, f) :: r => do v <- call_kw p f; collect p r (dset string_dec n (ByConfig v) acc)
  end.
(** [config_fits[name] for name in use_config] (rtfits.py 3336-3339) *)
Fixpoint picked (l : list (string * fit)) (names : list string) : list (string * res fit) :=
  match names with
  | [] => []
  | n :: r => (n, match dget string_dec n l with Some f => Ok f | None => Err KeyError end) :: picked l r
  end.
(** as [collect], for fits that are looked up one after the other *)
Fixpoint collect_picked (p : pfunc) (l : list (string * res fit)) (acc : dict string entry) : res (dict string entry) :=
  match l with
  | [] => Ok acc
  | (n, f) :: r => do f <- f; do v <- call_kw p f; collect_picked p r (dset string_dec n (ByConfig v) acc)
  end.
(** rtfits.py 3306-3343 [apply] and the dict that is made of it (rtprocess.py 1273-1278, 1282-1287) *)
Definition apply_dict (p : pfunc) (l : list (string * fit)) (u : ucfg) : res (dict string entry) :=
  match u with
  | UNone => collect p l []
  | UStr s => collect_picked p (picked l [s]) []
  | UList names => collect_picked p (picked l names) []
  | UTuple _ => Err AssertionError
  end.
(** a direct return as the result (rtprocess.py 1281, 1297, 1302); None can not be searched (1306) *)
Definition direct (v : res pval) : res (dict string entry) :=
  do v <- v; match v with Some d => Ok (map (fun e => (fst e, Layer (snd e))) d) | None => Err TypeError end.

(** rtprocess.py 1255-1322 [_run_postprocess]; [cls]: proc_cls.postprocess, if the class has one *)
Definition run_postprocess (cls : option pfunc) (o : obj) (u : ucfg) (post : option pfunc) : res (dict string entry) :=
  let use_func_directly := match u with UStr s => String.eqb s "from_postprocess" | _ => false end in   (* 1259-1263 *)
  let u := if use_func_directly then UNone else u in
  do ret <- match o with
            | Many l =>
                match post with
                | None => match cls with Some p => apply_dict p l u | None => Err AssertionError end      (* 1268-1279 *)
                | Some p => if use_func_directly then direct (p_many p l) else apply_dict p l u             (* 1280-1287 *)
                end
            | One cfg f =>
                let name := match cfg with Some n => n | None => "default" end in                          (* 1289-1292 *)
                match (match post with Some p => Some p | None => cls end) with
                | None => Err AttributeError                                                               (* 1297, 1299 *)
                | Some p => if use_func_directly then direct (p_one p f)
                            else do v <- p_one p f; Ok [(name, ByConfig v)]
                end
            end;
  Ok (if dmem string_dec "const__reader_arg" ret then ret else dset string_dec "const__reader_arg" ReaderArg ret).   (* 1306-1314 *)

(** rtprocess.py 1172-1185: the parent with the coefficients of the given configs *)
Definition pre_fit (f : fit) : fit := if int_Q f then mkfit (def f) true (Some (coefs (def f))) else f.
(** the loop over the configs (rtprocess.py 1178-1182); a string is iterated letter by letter *)
Fixpoint pre_loop (cfgs : list string) (l : list (string * fit)) : res (list (string * fit)) :=
  match cfgs with
  | [] => Ok l
  | n :: r => match dget string_dec n l with
              | Some f => pre_loop r (dset string_dec n (pre_fit f) l)
              | None => Err KeyError
              end
  end.
(** the letters of a string as strings of length 1 *)
Fixpoint letters_of (s : string) : list string := match s with EmptyString => [] | String c r => String c EmptyString :: letters_of r end.
(** rtprocess.py 1172-1185 *)
Definition pre_evaluate (parent : obj) (u : ucfg) : res obj :=
  match parent with
  | One c f => Ok (One c (pre_fit f))
  | Many l =>
      do l <- match u with
              | UNone => pre_loop (keys l) l
              | UStr s => if String.eqb s "from_postprocess" then pre_loop (keys l) l else pre_loop (letters_of s) l
              | UList names | UTuple names => pre_loop names l
              end;
      Ok (Many l)
  end.

(** the coefficients for the configs of a MultiFits object (rtprocess.py 1224-1239); [parent.configs[name]] raises for other names *)
Fixpoint assign_loop (parent l : list (string * fit)) : res (list (string * fit)) :=
  match l with
  | [] => Ok []
  | (n, f) :: r =>
      match dget string_dec n parent with
      | None => Err AssertionError
      | Some g => do r <- assign_loop parent r; Ok ((n, if int_Q g then mkfit (def f) (int_Q f) (fn g) else f) :: r)
      end
  end.
(** rtprocess.py 1210-1253 [_finalout_reader], called with the reader_arg only (_rtprocess_writer.py 463): use_config is None;
    all exceptions end in None *)
Definition finalout_reader (parent : obj) (loaded : res obj) : option obj :=
  match (do o <- loaded;
         match o, parent with
         | Many l, Many p => do l <- assign_loop p l; Ok (Many l)
         | One c f, One _ g => Ok (One c (mkfit (def f) (int_Q f) (fn g)))
         | _, _ => Err AttributeError
         end) with
  | Ok o => Some o
  | Err _ => None
  end.

(** rtprocess.py 1186-1200, _rtprocess_writer.py 456-476: what is computed for each of the files ([None]: skipped) *)
Definition run_finalout (parent : obj) (files : list (res obj)) (cls : option pfunc) (u : ucfg) (post : option pfunc)
    : res (list (option (res (dict string entry)))) :=
  do parent <- pre_evaluate parent u;
  Ok (map (fun x => match finalout_reader parent x with Some o => Some (run_postprocess cls o u post) | None => None end) files).
End Ppr.
Arguments mkfit {F N}. Arguments def {F N}. Arguments int_Q {F N}. Arguments fn {F N}. Arguments One {F N}. Arguments Many {F N}.
Arguments mkp {F N T}. Arguments p_arg {F N T}. Arguments p_one {F N T}. Arguments p_many {F N T}.
Arguments ByConfig {T}. Arguments Layer {T}. Arguments ReaderArg {T}.
Arguments run_postprocess {F N T}. Arguments finalout_reader {F N}. Arguments run_finalout {F N T}. Arguments pre_evaluate {F N}. Arguments apply_dict {F N T}.
