(** Constant angles, acceptable geometries, common labels. *)
From Coq Require Import Reals List ZArith.
From Verif Require Import Sca_Model.
Import ListNotations.

(** all values are equal *)
Definition constant (v : list R) : Prop := forall x y, In x v -> In y v -> x = y.
(** an angle declared as variable; as fixed, with one value; any other letter is not accepted *)
Definition acceptable (g : gchar) (v : list R) : Prop :=
  match g with GV => True | GF => v <> [] /\ constant v | GOther => False end.
(** the same labels *)
Definition same_labels (a b : list Z) : Prop := forall l, In l a <-> In l b.
