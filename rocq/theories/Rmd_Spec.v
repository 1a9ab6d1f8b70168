(** Specification vocabulary for C186 *)
From Coq Require Import String List Arith Bool.
From Verif Require Import Base Log_Model.
Import ListNotations.

(** the handler writes to a file in the folder *)
Definition writes_there (in_cfg : string -> bool) (h : handler) : Prop := exists p, h_sink h = File p /\ in_cfg p = true.
(** no two neighbours in the list both write to the folder *)
Definition apart (in_cfg : string -> bool) (hs : list handler) : Prop :=
  forall l a b r, hs = l ++ a :: b :: r -> ~ (writes_there in_cfg a /\ writes_there in_cfg b).
(** handlers are different objects *)
Definition different (hs : list handler) : Prop := NoDup (map h_id hs).
