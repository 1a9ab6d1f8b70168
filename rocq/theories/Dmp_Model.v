(** Model of dumping and loading fit objects (pickle):
    rtfits.py load, Fits.dump, __getstate__, __setstate__, __update__, MultiFits.dump. *)
From Coq Require Import String Bool Arith List.
From Verif Require Import Base Ids_Model.
Import ListNotations.
Local Open Scope string_scope.
Local Open Scope list_scope.

Section Dmp.
Context {V : Type}.

(** Values of attributes: None, a string, the result of scipy's least_squares (attributes), a dict, a list, a number
    or any other object. *)
Inductive av : Type :=
| ANone | AStr (s : string) | AOut (attrs : list (string * av)) | ADict (d : list (string * av)) | AList (l : list av) | AV (v : V).

(** the attributes of a Fits object: [self.__dict__] *)
Definition fobj : Type := list (string * av).

(** [k in d] etc. for string keys (plain Python) *)
Definition has_key (k : string) (d : list (string * av)) : bool := dmem string_dec k d.
(** [d[k]] as an option (plain Python) *)
Definition get (k : string) (d : list (string * av)) : option av := dget string_dec k d.
(** [d[k] = v] (plain Python) *)
Definition set (k : string) (v : av) (d : list (string * av)) : list (string * av) := dset string_dec k v d.
(** [del d[k]] (plain Python) *)
Definition del (k : string) (d : list (string * av)) : list (string * av) := ddel string_dec k d.

(** rtfits.py:395-399 [getattr(self.fit_output, key)]: None stands for an AttributeError (which is ignored).
    A dict has no attribute of that name. *)
Definition out_attr (o : av) (key : string) : option av := match o with AOut attrs => get key attrs | _ => None end.
(** rtfits.py:392-400 the small subset of fit_output *)
Definition fit_props (d : fobj) : list (string * av) :=
  match get "fit_output" d with
  | None | Some ANone => []
  | Some o => flat_map (fun key => match out_attr o key with Some v => [(("fit_" ++ key)%string, v)] | None => [] end)
                       ["success"; "status"; "optimality"]
  end.

(** rtfits.py:381-404 [Fits.__getstate__]: the object afterwards, and what is pickled *)
Definition getstate (d : fobj) : fobj * fobj :=
  if has_key "_rt1_dump_mini" d
  then let d1 := del "_rt1_dump_mini" d in
       (d1, set "fit_output" (ADict (fit_props d1)) (set "_fnevals_input" ANone d1))
  else (d, d).

(** [_RT1_version] *)
Variable version : av.

(** rtfits.py:2419-2431 [Fits.dump], before the file is opened *)
Definition mark (mini : bool) (d : fobj) : fobj :=
  let d1 := set "_RT1_version" version d in
  if mini then set "_rt1_dump_mini" (AStr "True") d1 else del "_rt1_dump_mini" d1.

(** rtfits.py:2395-2434 [Fits.dump]: the object afterwards, and the pickled state; [opened]: whether the file
    could be opened for writing.  (OSError is represented by RuntimeError.) *)
Definition dump (opened mini : bool) (d : fobj) : fobj * res fobj :=
  let d1 := mark mini d in
  if opened then let '(d2, st) := getstate d1 in (d2, Ok st) else (d1, Err RuntimeError).

(** Any other way of pickling the object (copy.deepcopy, multiprocessing): [__getstate__] only. *)
Definition pickle (d : fobj) : fobj * fobj := getstate d.

(** the default objects that [__update__] adds: [rt1_plots(self)], 2, [_init_lambda_backend], True *)
Variables plots two backend true_ : av.

(** rtfits.py:353-362 [self.lsq_kwargs.pop(key, default)] if the attribute is missing *)
Definition pop_kw (attr : string) (default : av) (d : fobj) : fobj :=
  if has_key attr d then d
  else match get "lsq_kwargs" d with
       | Some (ADict kw) => match get attr kw with
                            | Some v => set attr v (set "lsq_kwargs" (ADict (del attr kw)) d)
                            | None => set attr default d
                            end
       | _ => set attr default d
       end.
(** rtfits.py:364-369: is this a results-dict of an old version (each value a list of two, the first a list)? *)
Definition old_shape (rd : list (string * av)) : bool :=
  forallb (fun kv => match snd kv with AList [AList _; _] => true | _ => false end) rd.
(** rtfits.py:364-369 the new results-dict *)
Definition new_shape (rd : list (string * av)) : list (string * av) :=
  map (fun kv => (fst kv, match snd kv with AList (x :: _) => x | v => v end)) rd.
(** rtfits.py:340-369 [Fits.__update__] ([lsq_kwargs] is a dict) *)
Definition update (d0 : fobj) : fobj :=
  let d1 := if has_key "plot" d0 then d0 else set "plot" plots d0 in
  let d2 := if has_key "verbose" d1 then d1 else set "verbose" two d1 in
  let d3 := match get "fitset" d2 with Some v => del "fitset" (set "lsq_kwargs" v d2) | None => d2 end in
  let d4 := if has_key "lsq_kwargs" d3 then d3 else set "lsq_kwargs" (ADict []) d3 in
  let d5 := pop_kw "int_Q" true_ d4 in
  let d6 := pop_kw "lambda_backend" backend d5 in
  let d7 := pop_kw "_fnevals_input" ANone d6 in
  match get "res_dict" d7 with
  | Some (ADict rd) => if old_shape rd then set "res_dict" (ADict (new_shape rd)) d7 else d7
  | _ => d7
  end.

(** rtfits.py:371-379 [Fits.__setstate__] *)
Definition setstate (st : fobj) : fobj :=
  let st1 := if has_key "_dataset" st then st
             else match get "dataset" st with Some v => set "_dataset" v (del "dataset" st) | None => st end in
  update st1.

(** rtfits.py:51-78 [load] for a Fits object: [stem] of the filename *)
Definition load (stem : string) (st : fobj) : fobj :=
  let d := setstate st in
  match get "_ID" d with
  | None | Some ANone => set "_ID" (AStr (get_ID stem)) d                         (* 67-71, ID setter 421-427 *)
  | Some _ => d
  end.

(** ** MultiFits *)
(** rtfits.py:3375-3393 [MultiFits.dump]: all configs are marked, then pickled *)
Definition dump_multi (opened mini : bool) (m : list (string * fobj)) : list (string * fobj) * res (list (string * fobj)) :=
  let mark1 (d : fobj) := if mini then set "_rt1_dump_mini" (AStr "True") d else del "_rt1_dump_mini" d in
  let m1 := map (fun c => (fst c, mark1 (snd c))) m in
  if opened then (map (fun c => (fst c, fst (getstate (snd c)))) m1, Ok (map (fun c => (fst c, snd (getstate (snd c)))) m1))
  else (m1, Err RuntimeError).
(** rtfits.py:3213-3218 [MultiFits.__setstate__] after unpickling the fits; [config_fits] (3088-3091) is a dict with the
    attributes config_name as keys, so a fit without it is an AttributeError (3217-3218 come too late) *)
Definition load_multi (m : list (string * fobj)) : res (list (string * fobj)) :=
  mapM (fun c => let d := setstate (snd c) in if has_key "config_name" d then Ok (fst c, d) else Err AttributeError) m.

End Dmp.
Arguments av : clear implicits.
Arguments fobj : clear implicits.
