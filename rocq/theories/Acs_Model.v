(** Model of MultiFits.accessor: /repo/rt1/rtfits.py [_MultiAccessors] (3053-3123): which attributes of the fits can be
    read for all configurations, in any sequence of creating and loading MultiFits objects in one Python process.

    Simplifications: names that begin with "__" and the names of the class itself ("config_fits", "_getit", "lazy",
    "_applyit", "_FitContainer") are left out; the arguments of callbacks are C98 (Mf_Model); the name that [_get_all]
    prints is not modelled.  Classes are pickled by reference (cloudpickle, importable modules). *)
From Coq Require Import Arith Bool String List.
From Verif Require Import Base.
Import ListNotations.
Local Open Scope string_scope.
Local Open Scope list_scope.

(** what [getattr(Fits, prop)] is: a function, a property, or anything else (3066-3082) *)
Inductive kind : Type := Function | Property | Constant.

(** rtfits.py:294-322: the attributes of [Fits()] itself (the setters of dataset, ID and defdict store _dataset, _ID and
    _defdict) *)
Definition init_attrs : list string :=
  ["sig0"; "dB"; "_dataset"; "set_V_SRF"; "lsq_kwargs"; "int_Q"; "lambda_backend"; "_fnevals_input"; "verbose"; "_ID"; "plot"; "_defdict"].
(** rtfits.py:3061 [ignore_keys] *)
Definition ignore_keys : list string := ["dataset"; "aux_data"; "plot"].

Section Acs.
(** rtfits.py:3065 [dir(Fits)]: the names of the class *)
Variable cls : dict string kind.

(** One Python process: the properties that have been set on the class _MultiAccessors, and the accessors (the names in
    their [__dict__]) *)
Record process : Type := mkproc { p_class : list string; p_acc : list (list string) }.
(** after the import *)
Definition start : process := mkproc [] [].

(** rtfits.py:3066-3075: the functions, which are attributes of the accessor *)
Definition functions : list string := map fst (filter (fun p => match snd p with Function => true | _ => false end) cls).
(** rtfits.py:3076-3081: the properties, which are attributes of the class *)
Definition properties : list string := map fst (filter (fun p => match snd p with Property => true | _ => false end) cls).
(** rtfits.py:3083-3088: [(set(allattrs) ^ set(classattrs)) - set(ignore_keys)]: the attributes of [Fits()] *)
Definition attributes : list string :=
  filter (fun k => negb (inb string_dec k (map fst cls)) && negb (inb string_dec k ignore_keys)) init_attrs.

(** what a process does: [New]: MultiFits(...) (3195-3211); [Unpickle old fs]: loading a dump, whose accessor has the
    functions [fs]; for a dump of an old version a further MultiFits object is created (3131-3133) *)
Inductive event : Type := New | Unpickle (old : bool) (fs : list string).
(** one event; [__init__] of _MultiAccessors (3059-3088) is not called for the accessor of a dump *)
Definition step (p : process) (e : event) : process :=
  match e with
  | New => mkproc (p_class p ++ properties ++ attributes) (p_acc p ++ [functions])
  | Unpickle false fs => mkproc (p_class p) (p_acc p ++ [fs])
  | Unpickle true fs => mkproc (p_class p ++ properties ++ attributes) (p_acc p ++ [fs])
  end.
(** any sequence of events *)
Definition run (es : list event) : process := fold_left step es start.

(** ** reading an attribute *)
Variable V : Type.
(** [getattr(fit, name)] of the fits (numbers) *)
Variable attr : nat -> string -> res V.
(** the values for all configurations (3094-3099), or a function that gives callbacks for all of them (3119-3123) *)
Inductive value : Type := Values (l : dict string V) | Callbacks (k : string).
(** [getattr(accessor, k)]: properties of the class come before attributes of the object; [fits]: config_fits of the
    object (C62) *)
Definition read (p : process) (acc : list string) (fits : dict string nat) (k : string) : res value :=
  if inb string_dec k (p_class p) then
    do l <- mapM (fun c => do v <- attr (snd c) k; Ok (fst c, v)) fits; Ok (Values l)
  else if inb string_dec k acc then Ok (Callbacks k)
  else Err AttributeError.
End Acs.
Arguments Values {V}. Arguments Callbacks {V}. Arguments read {V}.
