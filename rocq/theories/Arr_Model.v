(** Model of the evaluation of RT1 objects with numpy-arrays: /repo/rt1/rt1.py [t_0], [p_0], [t_ex], [p_ex] (388-446),
    [surface] (722-748), [volume] (926-949), [interaction], [_calc_Fint_1], [_calc_Fint_2], [_S2_mu] (1215-1361), [calc]
    (660-720) and /repo/rt1/surface.py [brdf] (89-140), volume.py [p] (87-140): every arithmetic operation is numpy's
    operation with broadcasting.  The other models of RT1 (RT_Model, Int_Model) are about one element.

    The axes of an array are listed from the last to the first, so that broadcasting compares them from the head.
    Simplifications: floats are reals (with the infinities and nan of Int_Model in the interaction term); the angles are
    numbers or arrays (no lists); arrays have elements (no axis of length 0 in calls of vectorized functions); the cosine
    powers are not yet cached (C13). *)
From Coq Require Import Reals List String Bool Arith.
From Verif Require Import Base RT_Model Int_Model.
Import ListNotations.
Local Open Scope R_scope.

(** a numpy-array (no /repo code): its shape and its elements by index *)
Record arr (A : Type) : Type := mkarr { shape : list nat; data : list nat -> A }.
Arguments mkarr {A}. Arguments shape {A}. Arguments data {A}.
(** numpy: the shape to which two shapes are broadcast, if any *)
Fixpoint bshape (s t : list nat) : option (list nat) :=
  match s, t with
  | [], _ => Some t
  | _, [] => Some s
  | a :: s, b :: t =>
      match (if Nat.eqb a b then Some a else if Nat.eqb a 1 then Some b else if Nat.eqb b 1 then Some a else None), bshape s t with
      | Some c, Some u => Some (c :: u)
      | _, _ => None
      end
  end.
(** numpy: the index in an array of shape [s] that is used for an index of the result *)
Fixpoint pull (s ix : list nat) : list nat :=
  match s, ix with
  | d :: s, i :: ix => (if Nat.eqb d 1 then 0%nat else i) :: pull s ix
  | _, _ => []
  end.
(** numpy: the element of an array that is used for an index of the result *)
Definition at_ {A} (a : arr A) (ix : list nat) : A := data a (pull (shape a) ix).
(** numpy: a function of one array, of two arrays; ValueError if they cannot be broadcast *)
Definition op1 {A B} (f : A -> B) (a : arr A) : arr B := mkarr (shape a) (fun ix => f (data a ix)).
(** numpy: a binary operation *)
Definition op2 {A B C} (f : A -> B -> C) (a : arr A) (b : arr B) : res (arr C) :=
  match bshape (shape a) (shape b) with
  | Some s => Ok (mkarr s (fun ix => f (at_ a ix) (at_ b ix)))
  | None => Err ValueError
  end.
(** numpy: the common shape of several arrays *)
Fixpoint bshapes (l : list (list nat)) : option (list nat) :=
  match l with
  | [] => Some []
  | s :: l => match bshapes l with Some u => bshape s u | None => None end
  end.

(** a compiled scattering function or coefficient (sympy.lambdify or numpy.vectorize, surface.py 85-140): its values for
    (t_0, t_ex, p_0, p_ex, parameters), and which of the arguments occur in it (all of them if it is vectorized) *)
Record func : Type := mkfunc { f_val : list R -> R; f_uses : list bool }.
(** the arguments that do not occur have no influence, also not on the shape *)
Definition mask (u : list bool) (l : list R) : list R := map (fun q => if fst q : bool then snd q else 0) (combine u l).
(** the arguments that occur *)
Definition used {A} (u : list bool) (l : list A) : list A := map snd (filter fst (combine u l)).
(** calling it with arrays: surface.py 140, volume.py 135 *)
Definition call (f : func) (args : list (arr R)) : res (arr R) :=
  match bshapes (map shape (used (f_uses f) args)) with
  | Some s => Ok (mkarr s (fun ix => f_val f (mask (f_uses f) (map (fun a => at_ a ix) args))))
  | None => Err ValueError
  end.

(** the expressions of rt1.py 734-748, 937-949: evaluated operation by operation *)
Inductive ex : Type := Leaf (a : arr R) | Ap1 (f : R -> R) (e : ex) | Ap2 (f : R -> R -> R) (e1 e2 : ex) | Call (f : func) (args : list (arr R)).
(** plain Python: the operands are evaluated first *)
Fixpoint eval (e : ex) : res (arr R) :=
  match e with
  | Leaf a => Ok a
  | Ap1 f e => do a <- eval e; Ok (op1 f a)
  | Ap2 f e1 e2 => do a <- eval e1; do b <- eval e2; op2 f a b
  | Call f args => call f args
  end.

(** an RT1 object whose attributes are arrays (rt1.py 128-180); Python numbers and numpy-scalars have the shape [] *)
Record aobj : Type := mka {
  a_I0 : arr R; a_geometry : string; a_t0 : arr R; a_p0 : arr R; a_gtex : arr R; a_gpex : arr R;
  a_tau : arr R; a_omega : arr R; a_N : arr R; a_bsf : arr R; a_params : dict string (arr R);
  a_brdf : func; a_p : func }.
(** rt1.py 391-395, 402-406, 418-444: scalars become arrays of one axis *)
Definition set_angle (x : arr R) : arr R := match shape x with [] => mkarr [1%nat] (fun _ => data x []) | _ => x end.
(** rt1.py 410-414 *)
Definition a_tex (o : aobj) : arr R := if String.eqb (a_geometry o) "mono" then a_t0 o else a_gtex o.
(** rt1.py 429-433 *)
Definition a_pex (o : aobj) : arr R := if String.eqb (a_geometry o) "mono" then op1 (fun x => x + PI) (a_p0 o) else a_gpex o.
(** rt1.py 449-452 *)
Definition e_mu0 (o : aobj) : ex := Ap1 cos (Leaf (a_t0 o)).
(** rt1.py 454-457 *)
Definition e_muex (o : aobj) : ex := Ap1 cos (Leaf (a_tex o)).
(** rt1.py 737-744, 941-947: the arguments of brdf and p *)
Definition call_args (o : aobj) : list (arr R) := a_t0 o :: a_tex o :: a_p0 o :: a_pex o :: map snd (a_params o).
(** rt1.py 746, 939: [np.exp(-(tau / mu_0) - (tau / mu_ex))] *)
Definition e_trans (o : aobj) : ex :=
  Ap1 exp (Ap2 Rminus (Ap1 Ropp (Ap2 Rdiv (Leaf (a_tau o)) (e_mu0 o))) (Ap2 Rdiv (Leaf (a_tau o)) (e_muex o))).
(** rt1.py 734-744 *)
Definition e_Ibs (o : aobj) : ex := Ap2 Rmult (Ap2 Rmult (Leaf (a_I0 o)) (e_mu0 o)) (Call (a_brdf o) (call_args o)).
(** rt1.py 748, 949: [1.0 - self.bsf] *)
Definition e_1bsf (o : aobj) : ex := Ap1 (fun b => 1 - b) (Leaf (a_bsf o)).
(** rt1.py 722-748 [surface] *)
Definition e_surface (o : aobj) : ex :=
  Ap2 Rmult (Leaf (a_N o)) (Ap2 Rplus (Ap2 Rmult (e_1bsf o) (Ap2 Rmult (e_trans o) (e_Ibs o))) (Ap2 Rmult (Leaf (a_bsf o)) (e_Ibs o))).
(** rt1.py 926-949 [volume] *)
Definition e_volume (o : aobj) : ex :=
  Ap2 Rmult (e_1bsf o)
    (Ap2 Rmult (Ap2 Rmult (Ap2 Rdiv (Ap2 Rmult (Ap2 Rmult (Leaf (a_I0 o)) (Leaf (a_omega o))) (e_mu0 o)) (Ap2 Rplus (e_mu0 o) (e_muex o)))
                          (Ap1 (fun x => 1 - x) (e_trans o)))
               (Call (a_p o) (call_args o))).
(** rt1.py 722-748 *)
Definition asurface (o : aobj) : res (arr R) := eval (e_surface o).
(** rt1.py 926-949 *)
Definition avolume (o : aobj) : res (arr R) := eval (e_volume o).

(** rt1.py 660-720 [calc] with int_Q=False; [py]: V.tau is a Python int or float *)
Definition acalc (py : bool) (o : aobj) : res (arr R * arr R * arr R) :=
  do s <- asurface o;
  do v <- (if py then if Rlt_dec 0 (data (a_tau o) []) then avolume o else Ok (mkarr [1%nat] (fun _ => 0)) else avolume o);
  do t <- op2 Rplus s v; Ok (t, s, v).

(** ** the interaction term *)
(** np.array of n arrays of the shape [s] (rt1.py 1329-1337, 1354-1356): a new first axis *)
Definition stack {A} (n : nat) (s : list nat) (f : nat -> list nat -> A) : arr A :=
  mkarr (s ++ [n]) (fun ix => f (last ix 0%nat) (removelast ix)).
(** np.sum(..., axis=0) (rt1.py 1277, 1316) *)
Definition sum0 (a : arr num) : arr num :=
  mkarr (removelast (shape a)) (fun ix => fold_left nadd (map (fun k => data a (ix ++ [k])) (seq 0 (last (shape a) 0%nat))) (Fin 0)).
(** np.broadcast_arrays of the coefficients, then the list as an array (rt1.py 1273, 1277) *)
Definition fn_array (fn : list func) (args : list (arr R)) : res (arr R) :=
  do l <- mapM (fun f => call f args) fn;
  match bshapes (map shape l) with
  | Some s => Ok (stack (List.length l) s (fun k ix => at_ (nth k l (mkarr [] (fun _ => 0))) ix))
  | None => Err ValueError
  end.
Section Special.
(** scipy.special.expi and scipy.special.expn *)
Variables (expi : R -> R) (expn : nat -> R -> R).
(** rt1.py 1340-1361 [_S2_mu] *)
Definition aS2 (nmax : nat) (mu tau : arr R) : res (arr num) :=
  do h <- op2 (hlp1 expi) mu tau;
  op2 nadd (stack nmax (shape h) (fun n ix => Fin (fold_left Rplus (map (innerfunc expn (at_ mu ix) (at_ tau ix)) (seq 1 (n + 1))) 0))) h.
(** rt1.py 1326-1338 [_mu_0_x], [_mu_ex_x] *)
Definition amu_x (nmax : nat) (mu : arr R) : arr R := stack nmax (shape mu) (fun n ix => data mu ix ^ (n + 1)).
(** rt1.py 1242-1324 [_calc_Fint_1], [_calc_Fint_2]: [fn] are the compiled coefficients, as functions of (t_1, p_1, t_2, p_2,
    parameters); the arguments are broadcast before *)
Definition aFint (nmax : nat) (fn : list func) (tau t1 p1 t2 p2 : arr R) (params : list (arr R)) : res (arr num) :=
  match bshapes (map shape (t1 :: p1 :: t2 :: p2 :: params)) with
  | None => Err ValueError
  | Some s =>
      let args := map (fun a => mkarr s (at_ a)) (t1 :: p1 :: t2 :: p2 :: params) in
      do f <- fn_array fn args;
      let mu := op1 cos t1 in
      do S2 <- aS2 nmax mu tau;
      do multip <- op2 nscale (amu_x nmax mu) S2;
      do terms <- op2 nscale f multip;
      Ok (sum0 terms)
  end.
End Special.
