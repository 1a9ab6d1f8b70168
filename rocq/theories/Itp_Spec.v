(** Specification vocabulary for C180. *)
From Coq Require Import List QArith.
Import ListNotations.
Local Open Scope Q_scope.

(** no two nodes at the same date *)
Definition distinct_dates (nodes : list (Q * Q)) : Prop :=
  ForallOrdPairs (fun a b => ~ fst a == fst b) nodes.
(** [a] and [b] are neighbours: no node lies between them *)
Definition neighbours (nodes : list (Q * Q)) (a b : Q * Q) : Prop :=
  In a nodes /\ In b nodes /\ fst a < fst b /\ forall c, In c nodes -> fst c <= fst a \/ fst b <= fst c.
(** the value at [t] on the straight line between two points *)
Definition on_line (a b : Q * Q) (t v : Q) : Prop :=
  (v - snd a) * (fst b - fst a) == (snd b - snd a) * (t - fst a).
(** [t] lies outside of the dates of the data *)
Definition outside (nodes : list (Q * Q)) (t : Q) : Prop :=
  (forall c, In c nodes -> t < fst c) \/ (forall c, In c nodes -> fst c < t).
(** equality of possibly missing values *)
Definition oeq (a b : option Q) : Prop :=
  match a, b with Some x, Some y => x == y | None, None => True | _, _ => False end.
