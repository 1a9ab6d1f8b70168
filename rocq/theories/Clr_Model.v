(** Model of the caches of class Fits and of what empties them:
    /repo/rt1/rtfits.py [__setattr__] (406-415), [_cached_props] (450-485),
    [_clear_cache] (487-498), [_cached_arg_number] (516-533), [set_model]
    (535-552), [_meandt_interp_assigns] (874-917), [_assignvals_log_message]
    (1499-1510), [_assignvals] (1512-1596), [performfit] (2278-2279).

    Simplifications: the entries of a cache are its keys (object and further
    arguments; what is cached for a key is the subject of Ses and Lru); a
    cached property that is read by another one is read before it in the list
    of operations; a property that raises leaves its own cache unchanged, so
    it is no operation. *)
From Coq Require Import List Arith Bool String.
From Verif Require Import Base.
Import ListNotations.
Local Open Scope list_scope.

(** the key of an entry: the object (hashed by identity) and the other arguments *)
Definition key : Type := (nat * list string)%type.
(** equality of keys *)
Definition key_dec : forall x y : key, {x = y} + {x <> y}.
Proof. decide equality; [apply (list_eq_dec string_dec)|apply Nat.eq_dec]. Defined.

(** the caches of all decorated functions by name (rtfits.py: one cache per
    function, shared by all objects), and the messages written to the log *)
Record st : Type := mkst { caches : string -> list key; logged : list key }.

(** nothing is cached when the module is imported *)
Definition start : st := mkst (fun _ => []) [].

(** rtfits.py:450-485 [_cached_props] *)
Definition cached_props : list string :=
  ["param_dyn_dict"; "param_dyn_df"; "_groupindex"; "_N_groups"; "_dataset_used"; "index"; "_orig_index"; "_jac_assign_rule";
    "meandatetimes"; "inc"; "data"; "mask"; "data_weights"; "_idx_assigns"; "_param_assigns"; "_param_assigns_dataset";
    "_val_assigns"; "_order"; "interp_vals"; "_meandt_interp_assigns"; "_param_dyn_monotonic"; "_get_excludesymbs"; "metric";
    "V"; "SRF"; "set_model"; "_assignvals_log_message"]%string
   ++ flat_map (fun i => [("_" ++ i ++ "_symb")%string; ("_" ++ i ++ "_func")%string; ("_" ++ i ++ "_diff_func")%string]) ["tau"; "omega"; "N"]%string.

(** the decorated functions that are no properties: rtfits.py:535, 874, 1499 (no @property above @lru_cache) *)
Definition functions : list string := ["set_model"; "_meandt_interp_assigns"; "_assignvals_log_message"]%string.

(** isinstance(getattr(type(self), name), property), rtfits.py:493 *)
Definition is_property (name : string) : bool := negb (inb string_dec name functions).

(** rtfits.py:516-533 [_cached_arg_number]: a function has no attribute fget, the exception is ignored (no name contains a dot) *)
Definition cached_arg_number (s : st) : list nat :=
  flat_map (fun name => if is_property name then [List.length (caches s name)] else []) cached_props.

(** rtfits.py:491, 411: all(i == 0 for i in self._cached_arg_number) *)
Definition nothing_cached (s : st) : bool := forallb (Nat.eqb 0) (cached_arg_number s).

(** rtfits.py:487-498 [_clear_cache] *)
Definition clear_cache (s : st) : st :=
  if nothing_cached s then s
  else mkst (fun name => if inb string_dec name cached_props then [] else caches s name) (logged s).

(** rtfits.py:406-415 [__setattr__]: the caches (the value of the attribute is not modelled) *)
Definition setattr (attr : string) (s : st) : st :=
  if inb string_dec attr ["sig0"; "dB"; "dataset"; "defdict"; "set_V_SRF"]%string
  then (if nothing_cached s then s else clear_cache s) else s.

Section Lru.
(** functools.lru_cache(maxsize=n); rtfits.py uses the default 128 everywhere *)
Variable n : nat.

(** functools.lru_cache: a hit makes the key the most recent one; a miss adds
    it after the call returned and drops the oldest if there are more than [n] *)
Definition put (k : key) (c : list key) : list key :=
  if inb key_dec k c then k :: remove key_dec k c else firstn n (k :: c).
(** is there an entry *)
Definition hit (name : string) (k : key) (s : st) : bool := inb key_dec k (caches s name).
(** the entry of a call that returned *)
Definition store (name : string) (k : key) (s : st) : st :=
  mkst (fun x => if String.eqb x name then put k (caches s name) else caches s x) (logged s).
(** reading a cached property that returns *)
Definition prop (name : string) (o : nat) (s : st) : st := store name (o, []) s.

(** rtfits.py:535-552 [set_model]: the properties in this order; [m]: as many of them return ([m] = 11: all) *)
Definition model_props : list string :=
  ["V"; "SRF"; "_tau_symb"; "_tau_func"; "_tau_diff_func"; "_omega_symb"; "_omega_func"; "_omega_diff_func"; "_N_symb"; "_N_func"; "_N_diff_func"]%string.
(** rtfits.py:535-552; with an exception after [m] properties nothing is cached for the function itself *)
Definition set_model (o m : nat) (s : st) : st :=
  if hit "set_model" (o, []) s then store "set_model" (o, []) s
  else let s' := fold_left (fun s name => prop name o s) (firstn m model_props) s in
       if Nat.ltb m (List.length model_props) then s' else store "set_model" (o, []) s'.

(** rtfits.py:874-917 [_meandt_interp_assigns]: reads param_dyn_dict; [ok]: returns (otherwise an exception after this) *)
Definition interp_assigns (o : nat) (p : string) (ok : bool) (s : st) : st :=
  if hit "_meandt_interp_assigns" (o, [p]) s then store "_meandt_interp_assigns" (o, [p]) s
  else let s' := prop "param_dyn_dict" o s in
       if ok then store "_meandt_interp_assigns" (o, [p]) s' else s'.

(** rtfits.py:1499-1510 [_assignvals_log_message]: the message is written if the call is not cached *)
Definition log_message (o : nat) (msgid p : string) (s : st) : st :=
  let s' := store "_assignvals_log_message" (o, [msgid; p]) s in
  if hit "_assignvals_log_message" (o, [msgid; p]) s then s' else mkst (caches s') (logged s ++ [(o, [msgid; p])]).

(** an interpolated parameter in [_assignvals]: its name, whether its groups
    are monotonic, whether [_meandt_interp_assigns] returns, whether there are two or more values *)
Record item : Type := mkitem { i_name : string; i_mono : bool; i_ok : bool; i_many : bool }.
(** rtfits.py:1541-1586: one interpolated parameter; None: an exception *)
Definition assign_item (o : nat) (i : item) (s : st) : st * bool :=
  let s := prop "_param_dyn_monotonic" o s in                                   (* 1542 *)
  let r := if i_mono i then (prop "meandatetimes" o s, true)                    (* 1548 *)
           else let s := log_message o "interp_non_mono" (i_name i) s in        (* 1543 *)
                (interp_assigns o (i_name i) (i_ok i) s, i_ok i) in             (* 1545-1546 *)
  if snd r
  then if i_many i then (prop "_idx_assigns" o (fst r), true)                   (* 1562-1577 *)
       else (prop "_idx_assigns" o (prop "_param_assigns_dataset" o (log_message o "interp_1_val" (i_name i) (fst r))), true)  (* 1579-1588 *)
  else r.
(** rtfits.py:1537-1596: the parameters in turn, up to the first exception; parameters that are not interpolated read two
    cached properties only, see [OProp] *)
Fixpoint assignvals (o : nat) (l : list item) (s : st) : st :=
  match l with
  | [] => s
  | i :: l => let (s', ok) := assign_item o i s in if ok then assignvals o l s' else s'
  end.

(** what happens in a session *)
Inductive op : Type :=
| OProp (name : string) (o : nat)              (* a cached property of object o is read and returns *)
| OSetModel (o m : nat)                        (* o.set_model(), e.g. by calc or performfit *)
| OAssign (o : nat) (l : list item)            (* o._assignvals(res_dict), with these interpolated parameters *)
| OSetattr (o : nat) (attr : string)           (* o.attr = value *)
| OClear (o : nat).                            (* o.performfit(clear_cache=True) starts *)

(** the effect of one of these *)
Definition step (s : st) (x : op) : st :=
  match x with
  | OProp name o => if inb string_dec name cached_props && is_property name then prop name o s else s
  | OSetModel o m => set_model o m s
  | OAssign o l => assignvals o l s
  | OSetattr _ attr => setattr attr s
  | OClear _ => clear_cache s
  end.
(** a session *)
Definition run (ops : list op) (s : st) : st := fold_left step ops s.
End Lru.
