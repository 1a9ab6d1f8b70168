(** Specification: dumped fits *)
From Coq Require Import String List.
From Verif Require Import Base Dmp_Model.
Import ListNotations.
Local Open Scope string_scope.
Local Open Scope list_scope.

Section Spec.
Context {V : Type}.
(** the value of an attribute *)
Definition attr (d : fobj V) (k : string) : option (av V) := dget string_dec k d.

(** A Fits object as the current version creates it: each attribute once, the attributes of the constructor (with a
    dict of keyword arguments and an ID); numbers as results; not marked for a dump. *)
Definition current (d : fobj V) : Prop :=
  NoDup (map fst d) /\
  (forall k, In k ["plot"; "verbose"; "lsq_kwargs"; "int_Q"; "lambda_backend"; "_fnevals_input"; "_dataset"] -> attr d k <> None) /\
  (exists s, attr d "_ID" = Some (AStr s)) /\
  attr d "fitset" = None /\ attr d "_rt1_dump_mini" = None /\
  (forall rd, attr d "res_dict" = Some (ADict rd) -> forall k v, In (k, v) rd -> exists l, v = AList l /\ forall x, In x l -> exists y, x = AV y).

(** [e] is [d] up to the values of the attributes [ks] *)
Definition same_but (ks : list string) (d e : fobj V) : Prop := forall k, ~ In k ks -> attr e k = attr d k.
End Spec.
