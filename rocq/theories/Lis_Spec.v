(** Specification: what should be in the log-file of a run *)
From Coq Require Import String Arith Bool List.
From Verif Require Import Lis_Model.
Import ListNotations.

(** the messages that are logged before the end of the run is announced *)
Fixpoint logged (es : list event) : list record :=
  match es with
  | [] => []
  | Finish :: _ => []
  | Logs r :: t => r :: logged t
  | _ :: t => logged t
  end.
(** those that should be in the file *)
Definition wanted (level : nat) (es : list event) : list record := filter (fun r => Nat.leb level (r_level r)) (logged es).
(** the messages of one process *)
Definition of_proc (eqb : proc -> bool) (l : list record) : list record := filter (fun r => eqb (r_proc r)) l.
