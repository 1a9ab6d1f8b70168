(** Model of the caches of class Fits as functools.lru_cache(maxsize=128)
    really keeps them: /repo/rt1/rtfits.py [set_model] (535-552), [V]
    (1314-1323), [_omega_func], [_tau_func] (1407-1450), [_set_calc_values]
    (1651-1712), [_calc_model] (1715-1791), [_calc_slope_curv] (2003-2138),
    [_clear_cache] (487-499).

    Simplifications: the volume-scattering object with omega and tau only (SRF
    and NormBRDF are cached in the same way); [_omega_symb] and [_omega_func]
    are one entry, so are [_tau_symb] and [_tau_func]; the result is the pair
    of the numbers assigned to omega and tau. *)
From Coq Require Import List Arith Bool String.
From Verif Require Import Base Ses_Model.
Import ListNotations.
Local Open Scope list_scope.

Section Lru.
Context {Val : Type}.
(** functools.lru_cache(maxsize=n); rtfits.py uses the default 128 everywhere *)
Variable n : nat.

(** functools.lru_cache of one property: key (the object, rtfits.py objects
    are compared by identity) and value, most recently used first *)
Definition lcache (A : Type) : Type := list (nat * A).
(** is there an entry (functools.lru_cache: cache.get(key)) *)
Fixpoint lfind {A} (c : lcache A) (o : nat) : option A :=
  match c with
  | [] => None
  | (q, x) :: c => if Nat.eqb q o then Some x else lfind c o
  end.
(** functools.lru_cache: the entry is unlinked *)
Definition ldel {A} (c : lcache A) (o : nat) : lcache A := filter (fun e => negb (Nat.eqb (fst e) o)) c.
(** functools.lru_cache: a hit makes the entry the most recent one *)
Definition lhit {A} (c : lcache A) (o : nat) (x : A) : lcache A := (o, x) :: ldel c o.
(** functools.lru_cache: a miss adds the result, the oldest entry is dropped
    when there are more than [n] *)
Definition lmiss {A} (c : lcache A) (o : nat) (x : A) : lcache A := firstn n ((o, x) :: c).

(** rtfits.py 276-320: definition of omega and tau by set_V_SRF and defdict of
    each object; the four caches *)
Record lstate : Type := mkl {
  l_def : nat -> pval Val * pval Val;
  l_V : lcache (pval Val * pval Val);     (* V: current omega and tau of the cached object *)
  l_O : lcache (pval Val);                (* _omega_func, _omega_symb *)
  l_T : lcache (pval Val);                (* _tau_func, _tau_symb *)
  l_S : lcache unit }.                    (* set_model *)

(** rtfits.py 1314-1323 [V] *)
Definition get_V (s : lstate) (o : nat) : (pval Val * pval Val) * lstate :=
  match lfind (l_V s) o with
  | Some x => (x, mkl (l_def s) (lhit (l_V s) o x) (l_O s) (l_T s) (l_S s))
  | None => let x := l_def s o in (x, mkl (l_def s) (lmiss (l_V s) o x) (l_O s) (l_T s) (l_S s))
  end.
(** rtfits.py 1428-1435 [_omega_func], 1368-1392: made from what V.omega is at
    present *)
Definition get_O (s : lstate) (o : nat) : pval Val * lstate :=
  match lfind (l_O s) o with
  | Some g => (g, mkl (l_def s) (l_V s) (lhit (l_O s) o g) (l_T s) (l_S s))
  | None => let (x, s) := get_V s o in (fst x, mkl (l_def s) (l_V s) (lmiss (l_O s) o (fst x)) (l_T s) (l_S s))
  end.
(** rtfits.py 1413-1420 [_tau_func], in the same way *)
Definition get_T (s : lstate) (o : nat) : pval Val * lstate :=
  match lfind (l_T s) o with
  | Some g => (g, mkl (l_def s) (l_V s) (l_O s) (lhit (l_T s) o g) (l_S s))
  | None => let (x, s) := get_V s o in (snd x, mkl (l_def s) (l_V s) (l_O s) (lmiss (l_T s) o (snd x)) (l_S s))
  end.
(** rtfits.py 535-552 [set_model] *)
Definition lset_model (s : lstate) (o : nat) : lstate :=
  match lfind (l_S s) o with
  | Some x => mkl (l_def s) (l_V s) (l_O s) (l_T s) (lhit (l_S s) o x)
  | None =>
      let (_, s) := get_V s o in           (* 539 *)
      let (_, s) := get_T s o in           (* 542-544 *)
      let (_, s) := get_O s o in           (* 546-548 *)
      mkl (l_def s) (l_V s) (l_O s) (l_T s) (lmiss (l_S s) o tt)
  end.
(** R.V.omega = ..., R.V.tau = ...: R.V is the cached object, if it is still
    cached (rtfits.py 1666, 1677) *)
Definition lwrite (s : lstate) (o : nat) (x : pval Val * pval Val) : lstate :=
  mkl (l_def s) (map (fun e => if Nat.eqb (fst e) o then (fst e, x) else e) (l_V s)) (l_O s) (l_T s) (l_S s).

(** rtfits.py 1757-1773 [_calc_model] ([sm]: true) and 2029-2073
    [_calc_slope_curv] (without [set_model]): R = self.R (1346), omega
    (1663-1673), tau (1674-1684) *)
Definition leval (sm : bool) (s : lstate) (o : nat) (ps : list (string * Val)) : res (pval Val * pval Val) * lstate :=
  let s := if sm then lset_model s o else s in
  let (x, s) := get_V s o in
  let (g, s) := get_O s o in
  match new_value "omega" ps g (fst x) with
  | Err e => (Err e, s)
  | Ok a =>
    let s := lwrite s o (a, snd x) in
    let (g, s) := get_T s o in
    match new_value "tau" ps g (snd x) with
    | Err e => (Err e, s)
    | Ok b => (Ok (a, b), lwrite s o (a, b))
    end
  end.

(** what a user does with the objects *)
Inductive lop : Type :=
| LCalc (o : nat) (ps : list (string * Val))      (* an evaluation of the model: calc, calc_model, one by the optimiser *)
| LSlope (o : nat) (ps : list (string * Val))     (* slope, curvature *)
| LTouch (o : nat)                                (* fit.V, e.g. by printing fit.model_definition, 2619 *)
| LAssign (o : nat) (d : pval Val * pval Val)     (* fit.set_V_SRF = ..., fit.defdict = ... (406-415) *)
| LClear.                                         (* fit.performfit() (2278), any other assignment that clears *)

(** rtfits.py 406-415, 487-499: all caches of the class are cleared *)
Definition lclear (s : lstate) : lstate := mkl (l_def s) [] [] [] [].
(** the effect of one of these *)
Definition lstep (s : lstate) (a : lop) : lstate :=
  match a with
  | LCalc o ps => snd (leval true s o ps)
  | LSlope o ps => snd (leval false s o ps)
  | LTouch o => snd (get_V s o)
  | LAssign o d => let s := lclear s in mkl (fun q => if Nat.eqb q o then d else l_def s q) (l_V s) (l_O s) (l_T s) (l_S s)
  | LClear => lclear s
  end.
(** a session: objects with definitions [init] (e.g. loaded from dump-files),
    nothing cached *)
Definition lrun (init : nat -> pval Val * pval Val) (ops : list lop) : lstate := fold_left lstep ops (mkl init [] [] [] []).
End Lru.
Arguments lop : clear implicits.
Arguments lstate : clear implicits.
