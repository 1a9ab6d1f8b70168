(** Words for histories of a run with a printing thread. *)
From Coq Require Import Bool Arith List.
From Verif Require Import Base Thr_Model.
Import ListNotations.

(** the thread does nothing any more *)
Definition over (w : world) : Prop := th w = Ended \/ th w = Died.
(** the processing is being ended (or the manager is gone) *)
Definition final (w : world) : Prop := stopped w = true \/ (should_stop w = true /\ queue w = 0) \/ up w = false.
(** the number of steps of the thread *)
Fixpoint steps (es : list event) : nat := match es with [] => 0 | Step :: r => S (steps r) | _ :: r => steps r end.
(** the processing goes on *)
Definition ordinary (e : event) : Prop := e = Put \/ e = Get \/ e = Step.
