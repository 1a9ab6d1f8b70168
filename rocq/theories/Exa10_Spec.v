(** Specification vocabulary for the exact form of C51. *)
From Coq Require Import List Arith Bool String.
From Verif Require Import Base Pip_Model.
Import ListNotations.

Section Spec.
Context {Job Row : Type}.
(** a writer that has tested [_stop] and will set or clear should_wait next *)
Definition at_gate (w : @wpc Row) : bool := match w with WGate => true | _ => false end.
(** a writer that is about to take a batch from the output queue *)
Definition at_get (w : @wpc Row) : bool := match w with WGet => true | _ => false end.
(** how many writers *)
Definition how_many (f : @wpc Row -> bool) (s : @state Job Row) : nat := List.length (filter f (writers s)).
(** the tasks that are left can still be started: they may start now, or a writer that has not yet noticed the stop may
    open the gate, possibly after others took batches out of the output queue *)
Definition gate_may_open (p : @params Job Row) (s : @state Job Row) : Prop :=
  1 <= how_many at_gate s /\ List.length (outq s) < cache p + how_many at_get s + (how_many at_gate s - 1).
End Spec.
