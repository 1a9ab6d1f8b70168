(** Specification for the exact condition under which the names of the metric
    variables (rt1/rtmetrics.py:90-151) lead back to their sources. *)
From Coq Require Import List String.
From Verif Require Import Base Met_Model Met_Spec.
Import ListNotations.
Local Open Scope string_scope.

(** a name that occurs in more than one source (rtmetrics.py:102-120) *)
Definition shared (s : sources) (n : string) : Prop :=
  exists a b, a <> b /\ available s a n /\ available s b n.

(** a name of one source only is neither its own source's suffixed name nor
    the suffixed form of a shared name (rtmetrics.py:102-120, 137-151) *)
Definition unambiguous (s : sources) : Prop :=
  (forall src n m, available s src n -> ~ shared s n -> n <> m ++ "__" ++ src) /\
  (forall src n t m, available s src n -> ~ shared s n -> available s t m -> shared s m -> n <> m ++ "__" ++ t).

(** every variable has one key, and every key leads to a variable
    (rtmetrics.py:90-151) *)
Definition one_key_each (s : sources) : Prop :=
  (forall src n, available s src n ->
     exists! k, In k (keys (all_keys s)) /\ resolve_key (all_keys s) k = Ok (src, n)) /\
  (forall k, In k (keys (all_keys s)) -> exists src n, available s src n /\ resolve_key (all_keys s) k = Ok (src, n)).
