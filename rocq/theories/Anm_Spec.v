(** Specification: what the analysis of a model shows. *)
From Coq Require Import QArith Bool String List.
From Verif Require Import Base Anm_Model.
Import ListNotations.
Local Open Scope string_scope.
Local Open Scope list_scope.

(** the value of the parameter [s] at one end of the range of the parameter [k]: bsf=1 (no vegetation) is replaced by 0.999 *)
Definition at_end (params : string -> option Q) (k : string) (m : Q) (s : string) : option Q :=
  let v := if string_dec s k then Some m else params s in
  if string_dec s "bsf" then match v with Some b => if Qeq_bool b 1 then Some (999 # 1000)%Q else Some b | None => None end else v.

(** the components with fillings *)
Definition components (int_Q fillcomponents : bool) : list comp :=
  Tot :: (if fillcomponents then Surf :: Vol :: (if int_Q then [Inter] else []) else []).

(** name of a collection *)
Definition name (a : artist) : option (string * comp) := match a with Fill k c _ _ => Some (k, c) | FitLines => None end.

(** the figure belongs to the sliders, buttons and boundaries *)
Definition consistent (int_Q fillcomponents : bool) (w : wid) : Prop :=
  (* the curves are calculated with the values of the sliders *)
  (forall k e, In (k, e) (w_ents w) -> exists q, dget string_dec k (w_lines w) = Some q /\ (q == e_val e)%Q) /\
  (* the fillings are those of the activated buttons *)
  map name (w_colls w) =
    concat (map (fun ke => if e_on (snd ke) then map (fun c => Some (fst ke, c)) (components int_Q fillcomponents) else []) (w_ents w))
    ++ (match w_fit w with Some true => [None] | _ => [] end) /\
  (* and cover the current ranges *)
  (forall k c lo hi, In (Fill k c lo hi) (w_colls w) -> exists e, In (k, e) (w_ents w) /\
     forall s, dget string_dec s lo = at_end (fun s => dget string_dec s (w_lines w)) k (e_min e) s /\
               dget string_dec s hi = at_end (fun s => dget string_dec s (w_lines w)) k (e_max e) s).
