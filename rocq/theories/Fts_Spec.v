(** Specification vocabulary for the time-series plot. *)
From Coq Require Import ZArith Bool String List Permutation.
From Verif Require Import Fts_Model.
Import ListNotations.
Local Open Scope string_scope.
Local Open Scope list_scope.

Section Spec.
Context {V : Type}.
(** the components that are asked for and exist, with their colours *)
Definition wanted (inter : bool) (f : flags) : list (string * string) :=
  (if printtot f then [("tot", "r")] else []) ++ (if printsurf f then [("surf", "b")] else []) ++ (if printvol f then [("vol", "g")] else []) ++
  (if inter && printint f then [("inter", "y")] else []) ++ (if printorig f then [("$\sigma_0$ dataset", "k")] else []).
(** the observation is of one of the years and of one of the months (of any, if none are given) *)
Definition shown (years months : option (list Z)) (r : row V) : Prop :=
  (forall l, years = Some l -> In (year r) l) /\ (forall l, months = Some l -> In (month r) l).
(** [l] has exactly the rows that are shown, with multiplicity and in their order *)
Inductive picks (P : row V -> Prop) : list (row V) -> list (row V) -> Prop :=
| picks_nil : picks P [] []
| picks_yes r l m : P r -> picks P l m -> picks P (r :: l) (r :: m)
| picks_no r l m : ~ P r -> picks P l m -> picks P (r :: l) m.
End Spec.
