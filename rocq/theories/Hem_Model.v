(** Model of /repo/rt1/rtplots.py [hemreflect] (surface.py 29:
    [Surface.hemreflect]) with returnarray=True: the numerical evaluation of the
    hemispherical reflectance.  Real arithmetic; numpy and scipy from their
    documentation. *)
From Coq Require Import Reals Bool Arith List.
Import ListNotations.
Local Open Scope R_scope.

(** [np.arange(a, b, s)] for s > 0 (rtplots.py 349): ceil((b - a) / s) entries, none if b <= a *)
Definition arange (a b s : R) : list R :=
  map (fun i => a + INR i * s) (seq 0 (Z.to_nat (1 - up (- ((b - a) / s))))).
(** [np.linspace(a, b, n)] (rtplots.py 352, 353) *)
Definition linspace (a b : R) (n : nat) : list R :=
  map (fun i => a + INR i * ((b - a) / INR (n - 1))) (seq 0 n).
(** np.deg2rad (rtplots.py 363) *)
Definition deg2rad (x : R) : R := x * (PI / 180).

(** scipy.integrate [_basic_simpson]: Simpson's rule for the samples (x, y) with
    arbitrary spacing, two intervals at a time *)
Fixpoint simpson (l : list (R * R)) : R :=
  match l with
  | (x0, y0) :: ((x1, y1) :: (((x2, y2) :: _) as r)) =>
      let h0 := x1 - x0 in let h1 := x2 - x1 in
      let hsum := h0 + h1 in let hprod := h0 * h1 in let q := h0 / h1 in
      hsum / 6 * (y0 * (2 - 1 / q) + y1 * (hsum * hsum / hprod) + y2 * (2 - q)) + simpson r
  | _ => 0
  end.
(** the trapezoidal rule for one interval *)
Definition trap (p q : R * R) : R := (1 / 2) * (fst q - fst p) * (snd p + snd q).
(** scipy.integrate [simps(y, x)] with even="avg" (the default up to scipy
    1.10): for an even number of samples the average of Simpson's rule on all
    but the last interval and on all but the first one, with the trapezoidal
    rule for the interval left out.  (No samples at all: an error, here 0.) *)
Definition simps (l : list (R * R)) : R :=
  if Nat.odd (List.length l) then simpson l
  else match l, rev l with
       | p :: q :: _, z :: y :: _ => (trap y z + trap p q) / 2 + (simpson (removelast l) + simpson (tl l)) / 2
       | _, _ => 0
       end.

Section Hem.
(** [BRDF(theta_0, theta_s, phi_0, phi_s, param_dict)]: theta_0, theta_s, phi_0, phi_s *)
Variable brdf : R -> R -> R -> R -> R.

(** rtplots.py 368-373 [integfunkt] *)
Definition integfunkt (theta_0 phi_0 theta_s phi_s : R) : R :=
  sin theta_s * cos theta_s * brdf theta_0 theta_s phi_0 phi_s.
(** rtplots.py 376-377: Simpson's rule twice *)
Definition simps2 (N : nat) (theta_0 phi_0 : R) : R :=
  let x := linspace 0 (PI / 2) N in
  let y := linspace 0 (2 * PI) N in
  simps (map (fun ts => (ts, simps (map (fun ps => (ps, integfunkt theta_0 phi_0 ts ps)) y))) x).

(** rtplots.py 349, 356-379: the array that is returned; [NormBRDF]: the number
    (also after its symbols have been replaced, 330-343) *)
Definition hemreflect (NormBRDF phi_0 t_0_step t_0_min t_0_max : R) (simps_N : nat) : list R :=
  map (fun s => s * NormBRDF)
      (map (fun theta_0 => simps2 simps_N theta_0 phi_0) (map deg2rad (arange t_0_min t_0_max t_0_step))).
(** rtplots.py 382-383: is the warning printed that the reflectance exceeds 1? *)
Definition warned (sol : list R) : bool := existsb (fun s => if Rlt_dec 1 s then true else false) sol.
End Hem.
