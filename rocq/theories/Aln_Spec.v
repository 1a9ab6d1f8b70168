(** Specification vocabulary for the plots that combine the values of observations.  Independent of the model. *)
From Coq Require Import ZArith QArith Qabs List Permutation.
From Verif Require Import Fit_Spec.
Import ListNotations.
Local Open Scope nat_scope.
Local Open Scope list_scope.

(** the observations with the label k *)
Definition rows_with (l : list Z) (k : Z) : list nat := filter (fun i => Z.eqb (nth i l 0%Z) k) (seq 0 (length l)).
(** every label occurs once, with exactly the observations that have this label *)
Definition rightly_labelled (l : list Z) (cols : list (Z * list nat)) : Prop :=
  Permutation (map fst cols) (uniq l) /\ forall k rows, In (k, rows) cols -> Permutation rows (rows_with l k).
(** all measurements of a date belong to the same group *)
Definition date_once (index gi : list Z) : Prop := forall i j, i < length index -> j < length index ->
  nth i index 0%Z = nth j index 0%Z -> nth i gi 0%Z = nth j gi 0%Z.
(** positions that sort a list *)
Definition sorts (l : list Z) (p : list nat) : Prop :=
  Permutation p (seq 0 (length l)) /\ sorted (map (fun i => nth i l 0%Z) p).
(** mean of a list *)
Definition meanq (l : list Q) : Q := (fold_right Qplus 0 l / inject_Z (Z.of_nat (length l)))%Q.
