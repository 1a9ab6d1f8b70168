(** Specification vocabulary for C182 *)
From Coq Require Import List Arith.
From Verif Require Import Wnm_Model.
Import ListNotations.

(** the worker [i] is called RTprocess-k *)
Definition is_named (s : wstate) (i k : nat) : Prop := nth_error (workers s) i = Some (Named k).
(** the workers start one after the other, in this order *)
Definition one_by_one (l : list nat) : list nat := flat_map (fun i => [i; i; i]) l.
(** all read before any writes *)
Definition at_once (n : nat) : list nat := seq 0 n ++ seq 0 n ++ seq 0 n.
