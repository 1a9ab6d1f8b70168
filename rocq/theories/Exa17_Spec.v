(** Specification for repeated calls of an accessor callback
    (rt1/rtfits.py:3097-3115). *)
From Coq Require Import List String.
From Verif Require Import Base.
Import ListNotations.

(** the value of a keyword in the latest of the calls without positional
    arguments that give it (rtfits.py:3102-3113) *)
Fixpoint latest {A} (k : string) (l : list (list A * dict string A)) : option A :=
  match l with
  | [] => None
  | (a, kw) :: r =>
      match latest k r with
      | Some v => Some v
      | None => match a with [] => dget string_dec k kw | _ :: _ => None end
      end
  end.
