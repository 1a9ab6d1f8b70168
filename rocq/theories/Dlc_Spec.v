(** Specification vocabulary for C185: the definitions of the objects, without caches *)
From Coq Require Import String List Arith Bool.
From Verif Require Import Base Dlc_Model.
Import ListNotations.

Section Spec.
Context {F : Type}.
(** what an object is after a session: what was assigned last *)
Definition obj_step (f : nat -> robj F) (a : dop F) : nat -> robj F :=
  match a with
  | DSrf o d => fun q => if Nat.eqb q o then mkro d (o_v (f o)) (o_names (f o)) else f q
  | DV o d => fun q => if Nat.eqb q o then mkro (o_srf (f o)) d (o_names (f o)) else f q
  | DNames o l => fun q => if Nat.eqb q o then mkro (o_srf (f o)) (o_v (f o)) l else f q
  | _ => f
  end.
Definition objs (init : nat -> robj F) (ops : list (dop F)) : nat -> robj F := fold_left obj_step ops init.
(** the derivatives that the jacobian should use *)
Definition wanted (x : robj F) (key : string) : (F * string) * (F * string) := ((o_srf x, key), (o_v x, key)).
(** kinds of operations on the object [o] *)
Definition evaluates (o : nat) (a : dop F) : Prop := exists key, a = DJac o key.
Definition changes_srf (o : nat) (a : dop F) : Prop := exists d, a = DSrf o d.
Definition changes_v (o : nat) (a : dop F) : Prop := exists d, a = DV o d.
Definition changes_names (o : nat) (a : dop F) : Prop := exists l, a = DNames o l.
(** no such operation *)
Definition never (P : dop F -> Prop) (l : list (dop F)) : Prop := forall a, In a l -> ~ P a.
End Spec.
