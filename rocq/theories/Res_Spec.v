(** Specification: residuals and results of a fit. *)
From Coq Require Import ZArith Reals Bool Arith List.
From Verif Require Import Base GF_Model Fit_Spec.
Import ListNotations.
Local Open Scope list_scope.

(** the value of a parameter (group numbers, values of the groups) for observation [i] *)
Definition value_at {V} (d : V) (p : list Z * list V) (i : nat) : V :=
  nth (rank (fst p) (nth i (fst p) 0%Z)) (snd p) d.
(** sum of a list of real numbers *)
Definition sumR (l : list R) : R := fold_right Rplus 0%R l.

(** [i] is the first observation of the date [t] in the order of processing *)
Definition first_of_date (gi index : list Z) (t : Z) (i : nat) : Prop :=
  exists a b, processing_order gi = a ++ i :: b /\ nth i index 0%Z = t /\ forall j, In j a -> nth j index 0%Z <> t.

(** the observations of a combined group, in the order of the dataset *)
Definition members (gi : list Z) (g : Z) : list nat := filter (fun i => Z.eqb (nth i gi 0%Z) g) (seq 0 (length gi)).

(** [segs]: the maximal runs of consecutive observations with equal group numbers *)
Definition is_runs (dyn : list Z) (segs : list (list nat)) : Prop :=
  concat segs = seq 0 (length dyn) /\
  (forall s, In s segs -> s <> [] /\ forall i j, In i s -> In j s -> nth i dyn 0%Z = nth j dyn 0%Z) /\
  (forall k i j, S k < length segs -> In i (nth k segs []) -> In j (nth (S k) segs []) -> nth i dyn 0%Z <> nth j dyn 0%Z).

(** the nodes of the interpolation: one for each run, at its mean date (meandatetime: C27) with the value of
    its observations *)
Definition nodes_of {V} (index dyn : list Z) (val : list V) (segs : list (list nat)) (nodes : list (Z * option V)) : Prop :=
  length nodes = length segs /\
  forall k, (k < length segs)%nat -> exists m v, nth_error nodes k = Some (m, Some v) /\
    meandatetime (map (fun i => nth i index 0%Z) (nth k segs [])) = Ok m /\
    forall d i, In i (nth k segs []) -> value_at d (dyn, val) i = v.
