(** Specification for C211. *)
From Coq Require Import List String QArith.
From Verif Require Import Rin_Model.
Local Open Scope Q_scope.
(** what is accepted as omega, tau, NormBRDF *)
Definition accepted (v : pval) : Prop :=
  v = PSym \/ (exists x, v = PNum (Some x) /\ 0 <= x) \/ (exists l x, v = PArr l /\ In (Some x) l /\ 0 <= x).
(** what is meant: no negative number *)
Definition admissible (v : pval) : Prop :=
  v = PSym \/ (exists x, v = PNum (Some x) /\ 0 <= x) \/ (exists l, v = PArr l /\ forall e, In e l -> exists x, e = Some x /\ 0 <= x).
