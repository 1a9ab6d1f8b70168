(** Model of the constructor of RT1 (/repo/rt1/rt1.py 124-200): which arguments are accepted. *)
From Coq Require Import List String Bool QArith.
From Verif Require Import Base.
Import ListNotations.
Local Open Scope string_scope.

(** the values of omega, tau, NormBRDF and bsf (rt1.py 128-200): None, a sympy-expression, a number, a numpy-array (its
    elements), anything else that has no order (list, string, ...).  A number that is None is nan *)
Inductive pval : Type := PNone | PSym | PNum (x : option Q) | PArr (l : list (option Q)) | PBad.
(** the arguments: geometry (None: not a string), volume (omega, tau), surface (NormBRDF), bsf; the angles are not
    checked (rt1.py 391-444) *)
Record rargs : Type := mkr { g_geometry : option string; g_V : option (pval * pval); g_SRF : option pval; g_bsf : pval }.

(** [x >= 0.0] for a number, False for nan *)
Definition ge0 (x : option Q) : bool := match x with Some q => Qle_bool 0 q | None => false end.
(** [np.any(v >= 0.0)] *)
Definition any_ge0 (v : pval) : res bool :=
  match v with
  | PNum x => Ok (ge0 x)
  | PArr l => Ok (existsb ge0 l)
  | PSym | PNone | PBad => Err TypeError
  end.
(** [assert b] *)
Definition assert_ (b : bool) : res unit := if b then Ok tt else Err AssertionError.
(** rt1.py 188-200: [if not isinstance(v, sp.Basic): assert np.any(v >= 0.0)] *)
Definition check (v : pval) : res unit := match v with PSym => Ok tt | _ => do b <- any_ge0 v; assert_ b end.
(** [v is not None] *)
Definition given (v : pval) : bool := match v with PNone => false | _ => true end.
(** rt1.py 124-200 [__init__] *)
Definition init (a : rargs) : res unit :=
  match g_geometry a with
  | None => Err AssertionError                                       (* 142-144 *)
  | Some g =>
      do u <- assert_ (Nat.eqb (String.length g) 4);                  (* 145 *)
      match g_V a with
      | None => Err AssertionError                                    (* 153 *)
      | Some (omega, tau) =>
          match g_SRF a with
          | None => Err AssertionError                                (* 156 *)
          | Some N =>
              do u <- assert_ (given omega); do u <- assert_ (given tau);    (* 180-183 *)
              do u <- check omega; do u <- check tau; check N         (* 189-200 *)
          end
      end
  end.
