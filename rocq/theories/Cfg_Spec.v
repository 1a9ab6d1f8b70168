(** Specification vocabulary for the configuration files (C39-C43, C82-C85). *)
From Coq Require Import List Arith ZArith QArith Bool String Ascii.
From Verif Require Import Base Str_Model Con_Model Cfg_Model.
Import ListNotations.
Open Scope string_scope.

(** the five sections a model configuration consists of, with the part of
    the result they determine *)
Definition parts : list (string * (config -> dict string val)) :=
  [("least_squares_kwargs", c_lsq); ("defdict", c_defdict); ("RT1_V", c_V); ("RT1_SRF", c_SRF);
   ("fits_kwargs", c_fits)].

(** "#config NAME SECTION" *)
Definition config_section (name sec : string) : string := "#config " ++ name ++ " " ++ sec.

(** without blanks *)
Definition unblank (s : string) : string := remove_char " " s.
Definition comma_free (s : string) : Prop := has_char "," s = false.
Definition blank_free (s : string) : Prop := has_char " " s = false.

(** the entry [f0, f1, ...] of a defdict section *)
Definition entry (fields : list string) : string := "[" ++ join_char "," fields ++ "]".

(** meaning of the fields of a defdict entry *)
Definition fitQ_field (f : string) (b : bool) : Prop := unblank f = if b then "True" else "False".
Definition val_field (pfloat : string -> option Q) (f : string) (v : val) : Prop :=
  (unblank f = "auxiliary" /\ v = VStr "auxiliary") \/
  (unblank f <> "auxiliary" /\ exists q, pfloat (unblank f) = Some q /\ v = VNum q).
Definition freq_field (f : string) (v : val) : Prop :=
  (unblank f = "None" /\ v = VNone) \/ (unblank f <> "None" /\ v = VStr (unblank f)).
Definition num_field (pfloat : string -> option Q) (f : string) (q : Q) : Prop :=
  pfloat (unblank f) = Some q.

(** conversion of a value in the sections RT1_V and RT1_SRF, by key *)
Definition int_key (k : string) : Prop := k = "ncoefs" \/ exists X, k = String X "__ncoefs".
Definition list_key (k : string) : Prop := k = "a" \/ exists X, k = String X "__a".
Inductive converted (pfloat : string -> option Q) (pint : string -> option Z)
  : string -> option string -> val -> Prop :=
| Cv_int k s z : int_key k -> pint s = Some z -> converted pfloat pint k (Some s) (VNum (inject_Z z))
| Cv_list k fields qs : list_key k -> fields <> [] -> Forall comma_free fields ->
    Forall2 (fun f q => pfloat (unblank f) = Some q) fields qs ->
    converted pfloat pint k (Some (entry fields)) (VList (map VNum qs))
| Cv_float k s q : ~ int_key k -> ~ list_key k -> pfloat s = Some q ->
    converted pfloat pint k (Some s) (VNum q)
| Cv_str k s : ~ int_key k -> ~ list_key k -> pfloat s = None ->
    converted pfloat pint k (Some s) (VStr s)
| Cv_none k : ~ int_key k -> ~ list_key k -> converted pfloat pint k None VNone.

(** a component key "X__rest" of a linear combination: the letter and the rest *)
Definition component_of (k : string) : option (ascii * string) :=
  match k with
  | String c (String u1 (String u2 rest)) =>
      if is_upper c && (Ascii.eqb u1 "_" && Ascii.eqb u2 "_") then Some (c, rest) else None
  | _ => None
  end.

(** the letters of the component keys, by first appearance *)
Definition letters (l : list (string * val)) : list ascii :=
  rev (nodup ascii_dec (rev (flat_map (fun kv => match component_of (fst kv) with
                                                 | Some (c, _) => [c] | None => [] end) l))).

(** the parameters of letter [X], and its fraction (1 if not given) *)
Definition params_of (X : ascii) (l : list (string * val)) : list (string * val) :=
  flat_map (fun kv => match component_of (fst kv) with
                      | Some (c, rest) => if ascii_dec c X then
                                            (if endswith "__frac" (fst kv) then [] else [(rest, snd kv)])
                                          else []
                      | None => [] end) l.
Definition frac_of (X : ascii) (l : list (string * val)) : val :=
  last (flat_map (fun kv => match component_of (fst kv) with
                      | Some (c, rest) => if ascii_dec c X then
                                            (if endswith "__frac" (fst kv) then [snd kv] else [])
                                          else []
                      | None => [] end) l) (VNum 1).

(** [t] is [f] without the white space around it *)
Fixpoint all_space (s : string) : Prop :=
  match s with EmptyString => True | String c r => is_space c = true /\ all_space r end.
Definition no_outer_space (t : string) : Prop :=
  (forall c r, t = String c r -> is_space c = false) /\
  (forall c r, t = r ++ String c "" -> is_space c = false).
Definition trims (f t : string) : Prop :=
  no_outer_space t /\ exists p q, all_space p /\ all_space q /\ f = p ++ t ++ q.
