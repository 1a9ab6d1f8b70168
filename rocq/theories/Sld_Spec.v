(** Specification: the lines that show the measurements [days]. *)
From Coq Require Import List.
From Verif Require Import Sld_Model.
Import ListNotations.

(** the contributions that are drawn besides the total *)
Definition parts (iq : bool) : list comp := if iq then [Surf; Vol; Inter] else [Surf; Vol].
(** total, the contributions if required, and the data *)
Definition curves (pc iq : bool) : list comp := Tot :: (if pc then parts iq else []) ++ [Data].
(** every line of a measurement has the incidence-angles and the values of this measurement *)
Definition drawn (pc iq full : bool) (days : list nat) : figure :=
  mkfig (flat_map (fun d => map (fun c => (d, Val c d)) (curves pc iq) ++ [(d, Bounds)]) days)
        (flat_map (fun d => map (fun c => (d, Frac c d)) (parts iq)) days)
        (if full then flat_map (fun d => map (fun c => (d, Full c d)) (Tot :: if pc then parts iq else [])) days else [])
        (if full then flat_map (fun d => map (fun c => (d, FracFull c d)) (parts iq)) days else []).
(** the history contains no zoom *)
Definition no_zoom (o : op) : Prop := match o with Zoom _ _ => False | _ => True end.
