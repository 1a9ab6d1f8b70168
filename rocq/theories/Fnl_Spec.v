(** Specification: the functions an evaluation of the interaction term has to use. *)
From Coq Require Import Bool String List.
From Verif Require Import Fnl_Model.
Import ListNotations.

Section Spec.
Context {M F E : Type}.
Variable expand : M -> F.
Variable compile : list string -> F -> E.
(** functions that were passed in are used as they are, otherwise the coefficients that were passed in or those of the
    definition are compiled for the names *)
Definition expected (m : M) (names : list string) (fn_input : option F) (ev_input : option E) : E :=
  match ev_input with
  | Some e => e
  | None => compile names (match fn_input with Some f => f | None => expand m end)
  end.
(** operations that only look at the object *)
Definition looks (a : op M F E) : Prop := match a with Eval | ReadFn | Pickle => True | _ => False end.
(** operations that are not an assignment to R._fnevals *)
Definition no_ev (a : op M F E) : Prop := match a with SetEv _ => False | _ => True end.
(** assignments of attributes, and pickling *)
Definition prepares (a : op M F E) : Prop := match a with SetModel _ | SetNames _ | SetIntQ _ | Pickle => True | _ => False end.
(** operations that do not change what the coefficients depend on *)
Definition keeps_fn (a : op M F E) : Prop := match a with SetModel _ | SetIntQ _ | SetFn _ => False | _ => True end.
(** the last definition, names, int_Q that were assigned *)
Fixpoint last_model (m : M) (l : list (op M F E)) : M := match l with [] => m | SetModel m' :: r => last_model m' r | _ :: r => last_model m r end.
Fixpoint last_names (n : list string) (l : list (op M F E)) : list string := match l with [] => n | SetNames n' :: r => last_names n' r | _ :: r => last_names n r end.
Fixpoint last_intQ (b : bool) (l : list (op M F E)) : bool := match l with [] => b | SetIntQ b' :: r => last_intQ b' r | _ :: r => last_intQ b r end.
(** the history without pickling *)
Definition unpickled (l : list (op M F E)) : list (op M F E) := filter (fun a => match a with Pickle => false | _ => true end) l.
End Spec.
