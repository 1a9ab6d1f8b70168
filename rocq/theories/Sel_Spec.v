(** Specification vocabulary for C183, C184 *)
From Coq Require Import String List ZArith Bool.
From Verif Require Import Base Sel_Model.
Import ListNotations.

(** the number [n] stands for the ID [s] *)
Definition stands_for (names : list (Z * string)) (n : Z) (s : string) : Prop := In (n, s) names.
(** [x] shows the row [r] with its name *)
Definition shows {V} (names : list (Z * string)) (r : Z * V) (x : @label * V) : Prop :=
  exists s, stands_for names (fst r) s /\ x = (Name s, snd r).
(** IDs that occur in the rows *)
Definition occurs {V} (rows : list (Z * V)) (n : Z) : Prop := exists v, In (n, v) rows.
(** different IDs of these rows have different names *)
Definition told_apart {V} (names : list (Z * string)) (rows : list (Z * V)) : Prop :=
  forall n m s, occurs rows n -> occurs rows m -> stands_for names n s -> stands_for names m s -> n = m.

(** the accessor after a session *)
Definition after (init : bool) (l : list aop) : accessor := fold_left astep l (open_acc init).
