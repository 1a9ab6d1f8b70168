(** Model of Scatter._eval_legpoly (scatter.py 75-101) for numbers as angles, with the legexpansion of volumes and surfaces. *)
From Coq Require Import Reals List ZArith Bool.
From Verif Require Import Base Sca_Model.
Import ListNotations.
Local Open Scope R_scope.

(** the geometry argument: "mono" or a string, given by its characters (volume.py 378-436, surface.py 206-264) *)
Inductive geom := Mono | Chars (g : list gchar).
(** [geometry[k]] of a string: surface.py 221, 233, 245, 257 *)
Definition char_at (g : list gchar) (k : nat) : res gchar := match nth_error g k with Some c => Ok c | None => Err IndexError end.
(** the substitution of a symbol by its number, scatter.py 91-100; fixed angles are numbers already *)
Definition put (fixed : option R) (v : R) : R := match fixed with Some x => x | None => v end.
(** the angles of the expansion for numbers as arguments ([np.unique] of a number has one value): theta_0, theta_ex, phi_0, phi_ex
    after the substitution of scatter.py 91-100 (theta_ex := t_s, phi_ex := p_s) *)
Definition angles_of (g : geom) (t_0 t_s p_0 p_s : R) : res (R * R * R * R) :=
  match g with
  | Mono => Ok (t_0, t_0, p_0, p_0 + PI)     (* surface.py 207-217, volume.py 379-389 *)
  | Chars l =>                               (* surface.py 218-264, volume.py 390-436; the fourth check tests p_0 *)
      do c0 <- char_at l 0; do th0 <- resolve c0 [t_0] [t_0];
      do c1 <- char_at l 1; do thex <- resolve c1 [t_s] [t_s];
      do c2 <- char_at l 2; do ph0 <- resolve c2 [p_0] [p_0];
      do c3 <- char_at l 3; do phex <- resolve c3 [p_s] [p_0];
      Ok (put th0 t_0, put thex t_s, put ph0 p_0, put phex p_s)
  end.
(** [Surface._eval_legpoly]: scatter.py 75-101 with surface.py 198, 266-270 *)
Definition eval_legpoly_S (coefs : nat -> R) (ncoefs : nat) (a : avec) (g : option geom) (t_0 t_s p_0 p_s : R) : res R :=
  match g with
  | None => Err AssertionError
  | Some g => if Nat.ltb 0 ncoefs
              then do ang <- angles_of g t_0 t_s p_0 p_s;
                   let '(_, theta_ex, _, phi_ex) := ang in
                   Ok (legexpansion_S coefs ncoefs a t_s p_s theta_ex phi_ex)
              else Err AssertionError
  end.
(** [Volume._eval_legpoly]: scatter.py 75-101 with volume.py 370, 438-446 *)
Definition eval_legpoly_V (coefs : nat -> R) (ncoefs : nat) (a : avec) (g : option geom) (t_0 t_s p_0 p_s : R) : res R :=
  match g with
  | None => Err AssertionError
  | Some g => if Nat.ltb 0 ncoefs
              then do ang <- angles_of g t_0 t_s p_0 p_s;
                   let '(theta_0, _, phi_0, _) := ang in
                   Ok (legexpansion_V coefs ncoefs a theta_0 phi_0 t_s p_s)
              else Err AssertionError
  end.
