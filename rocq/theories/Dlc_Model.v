(** Model of the caches of the derivative functions in class RT1: /repo/rt1/rt1.py [_d_surface_dummy_lambda] (1539-1568),
    [_d_volume_dummy_lambda] (1570-1587), [_d_surface_ddummy] (1589-1614), [_d_volume_ddummy] (1616-1628), [jacobian]
    (1693-1709, the branch of param_dict), [_clear_cache] (235-239).

    Simplifications: a scattering function is an opaque value of type [F]; the derivative of [d] with respect to [key] is the pair;
    the factors around it are those of C08 and left out here. *)
From Coq Require Import String List Arith Bool.
From Verif Require Import Base.
Import ListNotations.

Section Dlc.
Context {F : Type}.
(** @lru_cache(20), rt1.py 1539, 1570 *)
Variable n : nat.

(** what a RT1 object is at present (rt1.py 100-200): SRF._func, V._func, the keys of param_dict *)
Record robj : Type := mkro { o_srf : F; o_v : F; o_names : list string }.
(** rt1.py 1564-1568: a function made by lambdify: the expression, the parameter of the derivative, the names of the arguments *)
Definition dfun : Type := (F * string * list string)%type.
(** functools.lru_cache: the key is (self, key) where objects are compared by identity; most recent first *)
Definition dcache : Type := list ((nat * string) * dfun).
(** are the keys the same (functools.lru_cache) *)
Definition keq (a b : nat * string) : bool := Nat.eqb (fst a) (fst b) && (if string_dec (snd a) (snd b) then true else false).
(** functools.lru_cache: cache.get(key) *)
Fixpoint cfind (c : dcache) (k : nat * string) : option dfun :=
  match c with [] => None | (k', x) :: c => if keq k k' then Some x else cfind c k end.
(** functools.lru_cache: a hit makes the entry the most recent one *)
Definition chit (c : dcache) (k : nat * string) (x : dfun) : dcache := (k, x) :: filter (fun e => negb (keq k (fst e))) c.
(** functools.lru_cache: a miss adds the result, the oldest entry is dropped if there are more than [n] *)
Definition cmiss (c : dcache) (k : nat * string) (x : dfun) : dcache := firstn n ((k, x) :: c).
(** a call of a cached method: the cached value or [new] *)
Definition ccall (c : dcache) (k : nat * string) (new : dfun) : dfun * dcache :=
  match cfind c k with Some x => (x, chit c k x) | None => (new, cmiss c k new) end.

(** the objects and the two caches (of the class: 1539, 1570) *)
Record dstate : Type := mkd { d_obj : nat -> robj; d_srf : dcache; d_vol : dcache }.

(** rt1.py 1606-1608, 1624-1626: f(t_0, t_ex, p_0, p_ex, **self.param_dict): a TypeError for missing or unexpected names *)
Definition apply_fun (f : dfun) (names : list string) : res (F * string) :=
  let '(d, key, args) := f in
  if forallb (fun a => inb string_dec a names) args && forallb (fun a => inb string_dec a args) names then Ok (d, key) else Err TypeError.

(** rt1.py 1700-1709: (self._d_surface_ddummy(key) + self._d_volume_ddummy(key)): the two derivatives *)
Definition jac (s : dstate) (o : nat) (key : string) : res ((F * string) * (F * string)) * dstate :=
  let ob := d_obj s o in
  if negb (inb string_dec key (o_names ob)) then (Err AssertionError, s) else            (* 1699, 1703-1708 *)
  let (f, c) := ccall (d_srf s) (o, key) (o_srf ob, key, o_names ob) in                   (* 1606 *)
  let s := mkd (d_obj s) c (d_vol s) in
  match apply_fun f (o_names ob) with
  | Err e => (Err e, s)
  | Ok a =>
    let (g, c) := ccall (d_vol s) (o, key) (o_v ob, key, o_names ob) in                   (* 1624 *)
    let s := mkd (d_obj s) (d_srf s) c in
    match apply_fun g (o_names ob) with Err e => (Err e, s) | Ok b => (Ok (a, b), s) end
  end.

(** what a user does *)
Inductive dop : Type :=
| DSrf (o : nat) (d : F)                  (* R.SRF = ... *)
| DV (o : nat) (d : F)                    (* R.V = ... *)
| DNames (o : nat) (l : list string)      (* R.param_dict = ... *)
| DClear                                  (* R._clear_cache() of any object *)
| DJac (o : nat) (key : string).          (* R.jacobian(param_list=[..., key, ...]) *)

(** assignments to attributes change one object *)
Definition set_obj (f : nat -> robj) (o : nat) (x : robj) : nat -> robj := fun q => if Nat.eqb q o then x else f q.
(** the effect of one of these; rt1.py 235-239: [_clear_cache] clears the cache of the surface twice and not the one of the volume *)
Definition dstep (s : dstate) (a : dop) : dstate :=
  match a with
  | DSrf o d => mkd (set_obj (d_obj s) o (mkro d (o_v (d_obj s o)) (o_names (d_obj s o)))) (d_srf s) (d_vol s)
  | DV o d => mkd (set_obj (d_obj s) o (mkro (o_srf (d_obj s o)) d (o_names (d_obj s o)))) (d_srf s) (d_vol s)
  | DNames o l => mkd (set_obj (d_obj s) o (mkro (o_srf (d_obj s o)) (o_v (d_obj s o)) l)) (d_srf s) (d_vol s)
  | DClear => mkd (d_obj s) [] (d_vol s)
  | DJac o key => snd (jac s o key)
  end.
(** a session that starts with empty caches *)
Definition drun (init : nat -> robj) (ops : list dop) : dstate := fold_left dstep ops (mkd init [] []).
End Dlc.
Arguments robj : clear implicits.
Arguments dop : clear implicits.
Arguments dstate : clear implicits.
