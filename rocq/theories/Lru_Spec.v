(** Specification for C156: what evaluations should give, no caches *)
From Coq Require Import List Arith Bool String.
From Verif Require Import Base Ses_Model Ses_Spec Lru_Model.
Import ListNotations.
Local Open Scope list_scope.

Section Spec.
Context {Val : Type}.
(** the numbers of omega and tau by their definition and the parameters *)
Definition lexpected (d : pval Val * pval Val) (ps : list (string * Val)) : res (pval Val * pval Val) :=
  do a <- value_of "omega" ps (fst d); do b <- value_of "tau" ps (snd d); Ok (a, b).

(** the definitions: those assigned last *)
Definition def_step (f : nat -> pval Val * pval Val) (a : lop Val) : nat -> pval Val * pval Val :=
  match a with LAssign o d => fun q => if Nat.eqb q o then d else f q | _ => f end.
Definition defs (init : nat -> pval Val * pval Val) (ops : list (lop Val)) := fold_left def_step ops init.

(** an evaluation and its parameters *)
Definition evaluation (a : lop Val) (o : nat) (ps : list (string * Val)) : Prop := a = LCalc o ps \/ a = LSlope o ps.
(** no parameter is passed for an omega or tau that is a constant by definition *)
Definition lrespects (d : pval Val * pval Val) (ps : list (string * Val)) : Prop :=
  (forall v, fst d = Num v -> dget string_dec "omega"%string ps = None) /\
  (forall v, snd d = Num v -> dget string_dec "tau"%string ps = None).
Definition lrespectful (init : nat -> pval Val * pval Val) (ops : list (lop Val)) : Prop :=
  forall l a r o ps, ops = l ++ a :: r -> evaluation a o ps -> lrespects (defs init l o) ps.

(** the objects used since all caches were cleared for the last time *)
Definition used_step (u : list nat) (a : lop Val) : list nat :=
  match a with LCalc o _ | LSlope o _ | LTouch o => o :: u | LAssign _ _ | LClear => [] end.
Definition used (ops : list (lop Val)) : list nat := fold_left used_step ops [].
(** number of different objects *)
Definition distinct (l : list nat) : nat := List.length (nodup Nat.eq_dec l).

(** evaluations, all of which succeed, and assignments only *)
Definition successful (init : nat -> pval Val * pval Val) (ops : list (lop Val)) : Prop :=
  forall l a r, ops = l ++ a :: r ->
    match a with
    | LCalc o ps | LSlope o ps => exists y, lexpected (defs init l o) ps = Ok y
    | LTouch _ => False
    | _ => True
    end.
End Spec.
