(** What hemreflect is expected to do with NormBRDF. *)
From Coq Require Import Reals String List.
From Verif Require Import Base Hem_Model Hmn_Model.
Import ListNotations.
Local Open Scope R_scope.

(** the value of NormBRDF for given parameters, if it is a single one *)
Definition value_of (pd : list (string * R)) (n : norm) (x : R) : Prop :=
  match n with
  | Num y => x = y
  | Sym s f => exists v, Forall2 (fun k y => dget string_dec k pd = Some y) s v /\ x = f v
  | _ => False
  end.
(** all points of the lines are below the limit of the axis *)
Definition within (ls : list (list (R * R))) (top : R) : Prop := forall l p, In l ls -> In p l -> snd p <= top.
