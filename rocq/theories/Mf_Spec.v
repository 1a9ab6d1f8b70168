(** Specification vocabulary for C62, C63, C98 *)
From Coq Require Import String Ascii List Arith ZArith Bool.
From Verif Require Import Base Ids_Model Mf_Model.
Import ListNotations.
Open Scope string_scope.

(** names accepted for configurations *)
Definition valid_name (s : string) : Prop := str_isidentifier s = true /\ ~ In s mf_dict.
(** the object added last under a name *)
Definition added_last (l : list (string * nat)) (name : string) : option nat := dget string_dec name (rev l).
(** the names in the order of their first occurrence, once each *)
Fixpoint first_occurrences (l : list string) : list string :=
  match l with
  | [] => []
  | x :: r => x :: filter (fun y => negb (String.eqb x y)) (first_occurrences r)
  end.

Section V.
Context {V : Type}.
(** no value is NaN *)
Definition complete (rd : resdict V) : Prop := forall k l, In (k, l) rd -> ~ In None l.
(** the values that are not NaN *)
Definition numbers (l : list (option V)) : list V := flat_map (fun c => match c with Some v => [v] | None => [] end) l.
(** the table that results from storing the fits [(id, res_dict)] one after the other *)
Inductive stored : list (Z * resdict V) -> list (row V) -> Prop :=
| stored_nil : stored [] []
| stored_cons : forall id rd rest t0 t, res_frame id "" rd = Ok t0 -> stored rest t -> stored ((id, rd) :: rest) (t0 ++ t).
(** the same for fits with several configurations *)
Inductive stored_multi : list (Z * list (string * resdict V)) -> list (row V) -> Prop :=
| storedm_nil : stored_multi [] []
| storedm_cons : forall id cs rest t0 t, multi_frame id cs = Ok t0 -> stored_multi rest t -> stored_multi ((id, cs) :: rest) (t0 ++ t).
End V.
