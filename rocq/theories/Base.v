(** Common vocabulary of the model: Python exceptions as values and
    insertion-ordered dictionaries.  Nothing in this file is specific to rt1. *)
From Coq Require Import List Arith Bool.
Import ListNotations.

(** Python exception classes that occur in the modelled code paths. *)
Inductive pyerr : Type :=
| AssertionError | AttributeError | IndexError | KeyError | NameError
| RuntimeError | StopIteration | SystemExit | TypeError | UnboundLocalError
| ValueError | ZeroDivisionError.

(** Outcome of a Python computation: a value or an exception. *)
Inductive res (A : Type) : Type :=
| Ok  (a : A)
| Err (e : pyerr).
Arguments Ok {A} a.
Arguments Err {A} e.

(** sequencing: an exception ends the computation (plain Python semantics, no /repo code) *)
Definition bind {A B} (m : res A) (f : A -> res B) : res B :=
  match m with Ok a => f a | Err e => Err e end.

Notation "'do' x <- m ; k" := (bind m (fun x => k))
  (at level 200, x name, m at level 100, k at level 200, right associativity).

(** [mapM f l]: evaluate [f] on the elements from left to right, stop at the
    first exception (a Python list comprehension). *)
Fixpoint mapM {A B} (f : A -> res B) (l : list A) : res (list B) :=
  match l with
  | [] => Ok []
  | x :: r => do y <- f x; do ys <- mapM f r; Ok (y :: ys)
  end.

(** did the computation end without an exception? (plain Python semantics) *)
Definition is_ok {A} (m : res A) : bool :=
  match m with Ok _ => true | Err _ => false end.

Section Dict.
  Context {K V : Type} (keq : forall x y : K, {x = y} + {x <> y}).

  (** A Python dict (>= 3.7): association list in insertion order. *)
  Definition dict := list (K * V).

  (** [d.keys()] *)
  Definition keys (d : dict) : list K := map fst d.

  (** [d.get(k)] *)
  Fixpoint dget (k : K) (d : dict) : option V :=
    match d with
    | [] => None
    | (k', v) :: r => if keq k k' then Some v else dget k r
    end.

  (** [d[k] = v]: replaces in place, or appends. *)
  Fixpoint dset (k : K) (v : V) (d : dict) : dict :=
    match d with
    | [] => [(k, v)]
    | (k', v') :: r => if keq k k' then (k', v) :: r else (k', v') :: dset k v r
    end.

  (** [del d[k]] (no-op if absent). *)
  Fixpoint ddel (k : K) (d : dict) : dict :=
    match d with
    | [] => []
    | (k', v') :: r => if keq k k' then r else (k', v') :: ddel k r
    end.

  (** [d.update(e)] *)
  Definition dupdate (d e : dict) : dict :=
    fold_left (fun acc kv => dset (fst kv) (snd kv) acc) e d.

  (** [k in d] *)
  Definition dmem (k : K) (d : dict) : bool :=
    match dget k d with Some _ => true | None => false end.

End Dict.
Arguments dict K V : clear implicits.

(** Membership test [x in l]. *)
Definition inb {A} (eqd : forall x y : A, {x = y} + {x <> y}) (x : A) (l : list A) : bool :=
  if in_dec eqd x l then true else false.
