(** Model of [interaction] (/repo/rt1/rt1.py 1215-1240) with numpy-arrays; the factors are those of Arr_Model ([_calc_Fint_1],
    [_calc_Fint_2]).  Simplifications: those of Arr_Model. *)
From Coq Require Import Reals List.
From Verif Require Import Base RT_Model Int_Model Arr_Model.
Import ListNotations.
Local Open Scope R_scope.

Section Special.
(** scipy.special.expi and scipy.special.expn *)
Variables (expi : R -> R) (expn : nat -> R -> R).
(** rt1.py 1226-1240; [fn]: the compiled coefficients (rt1.py 305-386), [nmax]: their number *)
Definition ainteraction (nmax : nat) (fn : list func) (o : aobj) : res (arr num) :=
  let params := map snd (a_params o) in
  do Fint1 <- aFint expi expn nmax fn (a_tau o) (a_t0 o) (a_p0 o) (a_tex o) (a_pex o) params;              (* 1226 *)
  do Fint2 <- aFint expi expn nmax fn (a_tau o) (a_tex o) (a_pex o) (a_t0 o) (a_p0 o) params;              (* 1227 *)
  do f <- eval (Ap2 Rmult (Ap2 Rmult (Leaf (a_I0 o)) (e_mu0 o)) (Leaf (a_omega o)));                       (* 1230-1232 *)
  do e1 <- eval (Ap1 exp (Ap2 Rdiv (Ap1 Ropp (Leaf (a_tau o))) (e_muex o)));                               (* 1234 *)
  do x1 <- op2 nscale e1 Fint1;
  do e2 <- eval (Ap1 exp (Ap2 Rdiv (Ap1 Ropp (Leaf (a_tau o))) (e_mu0 o)));                                (* 1235 *)
  do x2 <- op2 nscale e2 Fint2;
  do s <- op2 nadd x1 x2;
  do Iint <- op2 nscale f s;
  do n <- eval (Ap2 Rmult (Leaf (a_N o)) (e_1bsf o));                                                      (* 1239 *)
  op2 nscale n Iint.
End Special.
