(** Model of the cached properties of the scattering functions:
    /repo/rt1/surface.py and /repo/rt1/volume.py [_func], [legcoefs],
    [_lambda_func] (functools.lru_cache), [brdf], [p], [legexpansion],
    [brdf_theta_diff], [p_theta_diff], and attributes that are assigned later.

    Simplifications: a sympy-expression is what is made from the class, the
    parameter (t or i) and the list a ([efunc], [elegc]: arbitrary); the
    compiled function of an expression is the expression; lists are not changed
    in place (see Kwd_Model for this); combinations are not part of it. *)
From Coq Require Import List Arith Bool String.
From Verif Require Import Base Kwd_Model.
Import ListNotations.
Local Open Scope list_scope.

(** functools.lru_cache: key and value, most recently used first *)
Definition lru (K A : Type) : Type := list (K * A).
Section Lru.
Context {K A : Type}.
Variable dec : forall x y : K, {x = y} + {x <> y}.
(** functools.lru_cache: cache.get(key) *)
Fixpoint lget (c : lru K A) (k : K) : option A :=
  match c with
  | [] => None
  | (q, x) :: c => if dec q k then Some x else lget c k
  end.
(** functools.lru_cache: the entry is unlinked *)
Definition ldrop (c : lru K A) (k : K) : lru K A := filter (fun e => if dec (fst e) k then false else true) c.
(** functools.lru_cache: a hit makes the entry the most recent one; a miss adds
    it as the most recent one and drops the oldest if there are more than [n] *)
Definition lput (n : nat) (c : lru K A) (k : K) (x : A) : lru K A :=
  match lget c k with Some _ => (k, x) :: ldrop c k | None => firstn n ((k, x) :: c) end.
End Lru.

(** equality of classes, to have one cache for each: the properties _func and
    legcoefs are defined in each class (surface.py 602-912, volume.py 628-850) *)
Definition cls_dec : forall x y : cls, {x = y} + {x <> y}.
Proof. decide equality. Defined.
(** surface.py 857, volume.py 715: classes with [_func_numeric] *)
Definition numeric (c : cls) : bool := match c with SNadir | VHG => true | _ => false end.
(** surface.py 75 is the method of all surfaces, volume.py 73 of all volumes *)
Definition surface (c : cls) : bool := match c with SIso | SLobe | SHG | SNadir => true | _ => false end.
(** surface.py 596-601, volume.py 621-626: ncoefs is a property without setter *)
Definition fixed (c : cls) : option nat := match c with SIso => Some 1 | VRay => Some 3 | _ => None end.

Section Cch.
Context {V A L E : Type}.
(** surface.py 602-912, volume.py 628-850: the expressions of [_func] and
    [legcoefs] made from the parameter and the list a of an object *)
Variable efunc : cls -> V -> A -> E.
Variable elegc : cls -> V -> A -> L.
(** functools.lru_cache(maxsize=n), 128 in the code *)
Variable n : nat.

(** attributes of an object: surface.py 640-665, 730-752, 800-820, volume.py
    680-699, 770-789 *)
Record sobj : Type := mks { s_cls : cls; s_t : V; s_a : A; s_n : nat }.
(** the objects (compared by identity, there is no __eq__) and the caches *)
Record cstate : Type := mkc {
  c_obj : nat -> sobj;
  c_func : cls -> lru nat E;                         (* _func of each class *)
  c_legc : cls -> lru nat L;                         (* legcoefs of each class *)
  c_lam : bool -> lru (nat * list string) E }.       (* _lambda_func of Surface, Volume *)

(** equality of the arguments of [_lambda_func] (surface.py 76): the object and
    the names *)
Definition key_dec : forall x y : nat * list string, {x = y} + {x <> y}.
Proof. decide equality; [apply list_eq_dec, string_dec|apply Nat.eq_dec]. Defined.
(** surface.py 602-912: the cache of one class is replaced *)
Definition cset {X} (f : cls -> X) (c : cls) (x : X) : cls -> X := fun d => if cls_dec d c then x else f d.
(** surface.py 75, volume.py 73: the cache of one base class is replaced *)
Definition bset {X} (f : bool -> X) (b : bool) (x : X) : bool -> X := fun d => if Bool.eqb d b then x else f d.

(** the cached property _func: surface.py 609, 691, 755, 823, volume.py 629,
    701, 791 *)
Definition get_func (s : cstate) (o : nat) : E * cstate :=
  let p := c_obj s o in let c := s_cls p in
  let e := match lget Nat.eq_dec (c_func s c) o with Some e => e | None => efunc c (s_t p) (s_a p) end in
  (e, mkc (c_obj s) (cset (c_func s) c (lput Nat.eq_dec n (c_func s c) o e)) (c_legc s) (c_lam s)).
(** the cached property legcoefs: surface.py 603, 668, 772, 889, volume.py 640,
    729, 812 *)
Definition get_legc (s : cstate) (o : nat) : L * cstate :=
  let p := c_obj s o in let c := s_cls p in
  let l := match lget Nat.eq_dec (c_legc s c) o with Some l => l | None => elegc c (s_t p) (s_a p) end in
  (l, mkc (c_obj s) (c_func s) (cset (c_legc s) c (lput Nat.eq_dec n (c_legc s c) o l)) (c_lam s)).
(** surface.py 75-87, volume.py 73-85 [_lambda_func] *)
Definition get_lam (s : cstate) (o : nat) (names : list string) : E * cstate :=
  let b := surface (s_cls (c_obj s o)) in
  match lget key_dec (c_lam s b) (o, names) with
  | Some e => (e, mkc (c_obj s) (c_func s) (c_legc s) (bset (c_lam s) b (lput key_dec n (c_lam s b) (o, names) e)))
  | None =>
      let (e, s) := get_func s o in
      (e, mkc (c_obj s) (c_func s) (c_legc s) (bset (c_lam s) b (lput key_dec n (c_lam s b) (o, names) e)))
  end.

(** surface.py 89-140 [brdf], volume.py 87-140 [p]: the function that is
    evaluated; [_func_numeric] reads the attributes *)
Definition value (s : cstate) (o : nat) (names : list string) : E * cstate :=
  let p := c_obj s o in
  if numeric (s_cls p) then (efunc (s_cls p) (s_t p) (s_a p), s) else get_lam s o names.
(** surface.py 275-440 [brdf_theta_diff], volume.py [p_theta_diff]: the function
    that is differentiated; also by RT1._d_surface_dummy_lambda, rt1.py 1350 *)
Definition slope (s : cstate) (o : nat) : E * cstate := get_func s o.
(** surface.py 142-250 [legexpansion], volume.py likewise: coefficients, list a
    and number of coefficients of the expansion *)
Definition expansion (s : cstate) (o : nat) : (L * A * nat) * cstate :=
  let (l, s) := get_legc s o in let p := c_obj s o in
  (l, s_a p, match fixed (s_cls p) with Some k => k | None => s_n p end, s).

(** what is done with the objects *)
Inductive cop : Type :=
| Value (o : nat) (names : list string)      (* brdf, p *)
| Slope (o : nat)                            (* brdf_theta_diff, p_theta_diff, derivatives *)
| Expand (o : nat)                           (* legexpansion *)
| SetT (o : nat) (v : V)                     (* obj.t = v, obj.i = v *)
| SetA (o : nat) (a : A)                     (* obj.a = a *)
| SetN (o : nat) (k : nat).                  (* obj.ncoefs = k *)
(** assignment to an attribute (surface.py, volume.py: plain attributes) *)
Definition cupd (s : cstate) (o : nat) (f : sobj -> sobj) : cstate :=
  mkc (fun q => if Nat.eqb q o then f (c_obj s q) else c_obj s q) (c_func s) (c_legc s) (c_lam s).
(** the effect of one of these; surface.py 596-601: ncoefs of Isotropic (and of
    Rayleigh) cannot be assigned *)
Definition cstep (s : cstate) (x : cop) : cstate :=
  match x with
  | Value o names => snd (value s o names)
  | Slope o => snd (slope s o)
  | Expand o => snd (expansion s o)
  | SetT o v => cupd s o (fun p => mks (s_cls p) v (s_a p) (s_n p))
  | SetA o a => cupd s o (fun p => mks (s_cls p) (s_t p) a (s_n p))
  | SetN o k => cupd s o (fun p => mks (s_cls p) (s_t p) (s_a p) (match fixed (s_cls p) with Some _ => s_n p | None => k end))
  end.
(** a session with objects that were just made (surface.py, volume.py: nothing
    is cached) *)
Definition crun (init : nat -> sobj) (ops : list cop) : cstate := fold_left cstep ops (mkc init (fun _ => []) (fun _ => []) (fun _ => [])).
End Cch.
Arguments sobj V A : clear implicits.
Arguments cstate V A L E : clear implicits.
Arguments cop V A : clear implicits.
