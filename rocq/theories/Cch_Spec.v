(** Specification for C206, C207. *)
From Coq Require Import List Arith Bool String.
From Verif Require Import Base Kwd_Model Cch_Model.
Import ListNotations.

Section Spec.
Context {V A L E : Type}.
(** the operation evaluates an object *)
Definition evaluates (o : nat) (x : cop V A) : Prop := match x with Value q _ | Slope q | Expand q => q = o | _ => False end.
(** the operation changes the parameters of an object *)
Definition changes (o : nat) (x : cop V A) : Prop := match x with SetT q _ | SetA q _ => q = o | _ => False end.
(** the attributes of an object after a sequence of operations: the last assignments *)
Fixpoint last_t (ops : list (cop V A)) (o : nat) (v : V) : V :=
  match ops with [] => v | SetT q w :: r => last_t r o (if Nat.eqb q o then w else v) | _ :: r => last_t r o v end.
Fixpoint last_a (ops : list (cop V A)) (o : nat) (v : A) : A :=
  match ops with [] => v | SetA q w :: r => last_a r o (if Nat.eqb q o then w else v) | _ :: r => last_a r o v end.
Fixpoint last_n (ops : list (cop V A)) (o : nat) (v : nat) : nat :=
  match ops with [] => v | SetN q w :: r => last_n r o (if Nat.eqb q o then w else v) | _ :: r => last_n r o v end.
End Spec.
(** the operation only assigns attributes *)
Definition assigns {V A} (x : cop V A) : Prop := match x with SetT _ _ | SetA _ _ | SetN _ _ => True | _ => False end.
(** the operation makes the expansion of an object *)
Definition expands {V A} (o : nat) (x : cop V A) : Prop := match x with Expand q => q = o | _ => False end.
