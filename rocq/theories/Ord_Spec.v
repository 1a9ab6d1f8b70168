(** Specification for C199: what the results of a model should be for parameters that
    are given by name. *)
From Coq Require Import Bool Arith String List.
From Verif Require Import Base Ord_Model.
Import ListNotations.
Local Open Scope list_scope.

Section Spec.
Context {T : Type}.

(** the value of a contribution depends only on the values of its own parameters *)
Definition names_only (c : part T) : Prop :=
  forall d d', (forall k, In k (syms c) -> dget string_dec k d = dget string_dec k d') -> value c d = value c d'.
Definition proper (f : fit T) : Prop := names_only (f_surf f) /\ names_only (f_vol f) /\ names_only (f_inter f).

(** the value given for the name k: a fixed value replaces another one *)
Definition given (ex : list string) (p x : dict string T) (k : string) : option T :=
  if in_dec string_dec k ex then None
  else match dget string_dec k x with Some v => Some v | None => dget string_dec k p end.

(** the names in the order in which they are given *)
Definition order (ex : list string) (p x : dict string T) : list string :=
  filter (fun k => negb (inb string_dec k ex)) (keys p ++ filter (fun k => negb (inb string_dec k (keys p))) (keys x)).

(** all parameters have a value *)
Definition complete (d : dict string T) (l : list string) : Prop := forall k, In k l -> dget string_dec k d <> None.

(** the result that belongs to the values in d *)
Definition result_for (f : fit T) (d : dict string T) (out : res (T * T * option T)) : Prop :=
  let all := syms (f_surf f) ++ syms (f_vol f) ++ (if f_intQ f then syms (f_inter f) else []) in
  (complete d all /\ out = Ok (value (f_surf f) d, value (f_vol f) d, if f_intQ f then Some (value (f_inter f) d) else None)) \/
  (~ complete d all /\ out = Err NameError).
Definition right (f : fit T) (p x : dict string T) (out : res (T * T * option T)) : Prop :=
  exists d, (forall k, dget string_dec k d = given (excl f) p x k) /\ result_for f d out.

(** the functions come from the fit itself or from one with the same interaction term
    and the same names in the same order *)
Definition own (f : fit T) (g : fns T) : Prop := f_part g = f_inter f /\ f_names g = order (excl f) (starts f) (fixed f).
Definition own_input (f : fit T) : Prop := forall g, f_input f = Some g -> own f g.
Definition own_shares (f : fit T) (l : list (op T)) : Prop := forall g, In (Share g) l -> own f g.
(** the dicts of a fit *)
Definition fit_dicts (f : fit T) : Prop := NoDup (keys (starts f) ++ keys (fixed f)).
End Spec.
