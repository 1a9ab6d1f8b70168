(** Specification vocabulary for the progress-line. *)
From Coq Require Import ZArith QArith List Arith Bool.
From Verif Require Import Base Pip_Model Prg_Model.
Import ListNotations.

(** the number of filled positions of a bar *)
Definition filled (bar : list bool) : nat := length (filter (fun b => b) bar).
(** an execution of the pipeline with a print-thread, from the start; the maximum of the progress is the number of tasks *)
Definition pexecutes {Job Row} (p : @params Job Row) (jobs : list Job) (es : list pevent) (s : @state Job Row) (x : ppc) : Prop :=
  prun p (length jobs) es (init p jobs, PIdle) = Some (s, x).
