(** Model of the interaction term of the class RT1 (rt1/rt1.py 459-658, 1215-1361): symbolic
    expansion, azimuth integration, extraction of the fn-coefficients, and their numerical
    evaluation.  Expanded sympy expressions are lists of monomials in sin/cos of the two
    integration angles; all other symbols (theta_0, phi_0, theta_ex, phi_ex, free parameters)
    only occur inside the coefficients and are modelled by their values, since none of the
    symbolic steps touches them.  sympy's [expand] is modelled by multiplying out. *)
From Coq Require Import Reals List Arith Bool.
From Verif Require Import Base Sca_Model.
Import ListNotations.
Local Open Scope R_scope.

(** one term of an expanded expression:
    c * sin(phi_s)^sp * cos(phi_s)^cp * sin(theta_s)^st * cos(theta_s)^ct *)
Record mono := Mo { mc : R; m_sp : nat; m_cp : nat; m_st : nat; m_ct : nat }.
(** an expanded sum (sympy [Add] of products), as handled in rt1.py 517-658 *)
Definition poly := list mono.

(** product of two terms (sympy [Mul] in the expansion at rt1.py 554) *)
Definition mmul (m n : mono) : mono :=
  Mo (mc m * mc n) (m_sp m + m_sp n) (m_cp m + m_cp n) (m_st m + m_st n) (m_ct m + m_ct n).
(** numeric factor times a term (rt1.py 554) *)
Definition mscale (c : R) (m : mono) : mono := Mo (c * mc m) (m_sp m) (m_cp m) (m_st m) (m_ct m).
(** numeric factor times a sum (rt1.py 554) *)
Definition pscale (c : R) (p : poly) : poly := map (mscale c) p.
(** product of two sums, multiplied out ([.expand()] at rt1.py 554) *)
Definition pmul (p q : poly) : poly := flat_map (fun m => map (mmul m) q) p.
(** the constant 1 *)
Definition pone : poly := [Mo 1 0 0 0 0].
(** nonnegative power of a sum, multiplied out (sympy [expand], rt1.py 565, 640) *)
Fixpoint ppow (p : poly) (k : nat) : poly :=
  match k with O => pone | S k => pmul p (ppow p k) end.

(** the scattering angle as polynomial in the integration angles (scatter.py 52-56) for
    volume.py 443: scat_angle(pi - theta_0, theta_s, phi_0, phi_s, a) *)
Definition x_V (a : avec) (theta_0 phi_0 : R) : poly :=
  [Mo (a0 a * cos (PI - theta_0)) 0 0 0 1;
   Mo (a1 a * sin (PI - theta_0) * cos phi_0) 0 1 1 0;
   Mo (a2 a * sin (PI - theta_0) * sin phi_0) 1 0 1 0].
(** surface.py 268: scat_angle(theta_s, theta_ex, phi_s, phi_ex, a) *)
Definition x_S (a : avec) (theta_ex phi_ex : R) : poly :=
  [Mo (a0 a * cos theta_ex) 0 0 0 1;
   Mo (a1 a * sin theta_ex * cos phi_ex) 0 1 1 0;
   Mo (a2 a * sin theta_ex * sin phi_ex) 1 0 1 0].

(** [sp.legendre(n, x)] expanded, by the three-term recurrence: (P_n, P_(n+1)) *)
Fixpoint pleg2 (n : nat) (x : poly) : poly * poly :=
  match n with
  | O => (pone, x)
  | S m => let '(p, q) := pleg2 m x in
           (q, pscale ((2 * INR (S m) + 1) / INR (S (S m))) (pmul x q)
               ++ pscale (- (INR (S m) / INR (S (S m)))) p)
  end.
(** [sp.legendre(n, x)] (volume.py 441, surface.py 268) *)
Definition pleg (n : nat) (x : poly) : poly := fst (pleg2 n x).

(** a Legendre expansion [Sum(legcoefs * legendre(n, x), (n, 0, NP-1)).doit()]: volume.py
    439-446, surface.py 266-270 *)
Definition pleg_sum (coefs : nat -> R) (NP : nat) (x : poly) : poly :=
  flat_map (fun n => pscale (coefs n) (pleg n x)) (seq 0 NP).

(** a scattering object as seen by the interaction term: [ncoefs] and the list of expansions
    that [legexpansion] adds up -- one for an ordinary object (volume.py 439-446, surface.py
    266-270), one per group of equal weights for a linear combination (volume.py 582-584,
    surface.py 566-569) *)
Record expansion := Exp { e_coefs : nat -> R; e_np : nat; e_a : avec }.
(** a Volume / Surface object as used by rt1.py 517-573 *)
Record sobj := SObj { ncoefs : nat; expansions : list expansion }.
(** an ordinary object (volume.py 439-446, surface.py 266-270) *)
Definition plain_obj (n : nat) (coefs : nat -> R) (a : avec) : sobj := SObj n [Exp coefs n a].
(** volume.py 557-580, surface.py 526-564 *)
Definition comb_obj (cs : list choice) (dflt : avec) : sobj :=
  SObj (max_ncoefs cs)
       (map (fun idx => let g := take_choices cs idx in
                        Exp (group_coefs g) (max_ncoefs g) (group_a g dflt)) (equal_a cs)).

(** [self.V.legexpansion(...)] at rt1.py 544-546 *)
Definition volexp (V : sobj) (theta_0 phi_0 : R) : poly :=
  flat_map (fun e => pleg_sum (e_coefs e) (e_np e) (x_V (e_a e) theta_0 phi_0)) (expansions V).
(** [self.SRF.legexpansion(...)] at rt1.py 548-550 *)
Definition brdfexp (S : sobj) (theta_ex phi_ex : R) : poly :=
  flat_map (fun e => pleg_sum (e_coefs e) (e_np e) (x_S (e_a e) theta_ex phi_ex)) (expansions S).

(** [_cosintegral] (rt1.py 575-596); [sp.binomial] = [C] *)
Definition cosintegral (i : nat) : R :=
  if Nat.even i then / (2 ^ i) * C i (i / 2) else 0.

(** [expand((1.0 - cos(phi_s)**2) ** Rational(i, 2))] for even i: rt1.py 640; theta_s: 565 *)
Definition sin2_phi : poly := [Mo 1 0 0 0 0; Mo (-1) 0 2 0 0].
(** [1.0 - cos(theta_s)**2], rt1.py 565 *)
Definition sin2_theta : poly := [Mo 1 0 0 0 0; Mo (-1) 0 0 0 2].

(** sympy removes terms with coefficient 0 *)
Definition drop_zero (p : poly) : poly :=
  filter (fun m => if Req_EM_T (mc m) 0 then false else true) p.

(** one simultaneous [xreplace] of the powers of sin(phi_s) in 1..N (rt1.py 628-645,
    N = SRF.ncoefs + V.ncoefs).  A power above N is not a key itself, but its base sin(phi_s)
    is (with value 0.0). *)
Definition pass_sin (N : nat) (m : mono) : poly :=
  if Nat.eqb (m_sp m) 0 then [m]
  else if Nat.leb (m_sp m) N then
    if Nat.even (m_sp m) then
      pmul [Mo (mc m) 0 (m_cp m) (m_st m) (m_ct m)] (ppow sin2_phi (m_sp m / 2))
    else [Mo 0 0 (m_cp m) (m_st m) (m_ct m)]
  else [Mo 0 0 (m_cp m) (m_st m) (m_ct m)].
(** the powers of cos(phi_s) in 1..N (rt1.py 651-657); a power above N has its base
    replaced by [_cosintegral(1)] = 0.0 *)
Definition pass_cos (N : nat) (m : mono) : poly :=
  if Nat.eqb (m_cp m) 0 then [m]
  else if Nat.leb (m_cp m) N then [Mo (mc m * cosintegral (m_cp m)) (m_sp m) 0 (m_st m) (m_ct m)]
  else [Mo (mc m * cosintegral 1 ^ m_cp m) (m_sp m) 0 (m_st m) (m_ct m)].
(** [_integrate_0_2pi_phis] (rt1.py 598-658) *)
Definition integrate_phis (N : nat) (p : poly) : poly :=
  drop_zero (flat_map (pass_cos N) (drop_zero (flat_map (pass_sin N) p))).

(** even powers of sin(theta_s) in 1..N-2 (rt1.py 561-569); others are not keys and stay *)
Definition pass_theta (N : nat) (m : mono) : poly :=
  if Nat.eqb (m_st m) 0 then [m]
  else if Nat.leb (m_st m) (N - 2) && Nat.even (m_st m) then
    pmul [Mo (mc m) (m_sp m) (m_cp m) 0 (m_ct m)] (ppow sin2_theta (m_st m / 2))
  else [m].

(** [_calc_interaction_expansion] (rt1.py 517-573) *)
Definition interaction_expansion (V S : sobj) (theta_0 phi_0 theta_ex phi_ex : R) : poly :=
  let N := (ncoefs S + ncoefs V)%nat in
  let fPoly := drop_zero (pscale (2 * PI) (pmul (volexp V theta_0 phi_0) (brdfexp S theta_ex phi_ex))) in
  drop_zero (flat_map (pass_theta N) (integrate_phis N fPoly)).

(** *** [_extract_coefficients] (rt1.py 459-515) *)
(** [xreplace({cos(theta_s): 0})] (486-487) *)
Definition xrepl0 (p : poly) : poly := filter (fun m => Nat.eqb (m_ct m) 0) p.
(** cos(theta_s) replaced by 1 (rt1.py 490-499) *)
Definition without_ct (m : mono) : mono := Mo (mc m) (m_sp m) (m_cp m) (m_st m) 0.
(** 490-494: powers 2..N_fn become 0, the base becomes 1 (also inside powers above N_fn) *)
Definition xrepl1 (N_fn : nat) (p : poly) : poly :=
  map without_ct (filter (fun m => negb (Nat.leb 2 (m_ct m) && Nat.leb (m_ct m) N_fn)) p).
(** 497-499: cos(theta_s)^n becomes 1 *)
Definition xrepln (n : nat) (p : poly) : poly :=
  map (fun m => if Nat.eqb (m_ct m) n then without_ct m else m) p.
(** difference of two expressions (rt1.py 494, 499) *)
Definition psub (p q : poly) : poly := p ++ pscale (-1) q.
(** the list of coefficient expressions, rt1.py 459-515 *)
Definition extract_coefficients (N_fn : nat) (expr : poly) : list poly :=
  let f0 := xrepl0 expr in
  f0 :: psub (xrepl1 N_fn expr) f0
     :: map (fun n => psub (xrepl0 (xrepln n expr)) f0) (seq 2 (N_fn - 2)).

(** numerical value of one lambdified coefficient (rt1.py 311-369): theta_s or phi_s left in
    the expression are unknown names.  (Sympy would also cancel equal terms; not modelled.) *)
Definition is_const (m : mono) : bool :=
  Nat.eqb (m_sp m) 0 && Nat.eqb (m_cp m) 0 && Nat.eqb (m_st m) 0 && Nat.eqb (m_ct m) 0.
(** rt1.py 311-369: evaluation of one lambdified coefficient *)
Definition const_value (p : poly) : res R :=
  if forallb is_const p then Ok (fold_right Rplus 0 (map mc p)) else Err NameError.

(** *** evaluation geometries in [legexpansion] (volume.py 378-436, surface.py 206-264): an angle
    is a symbol ([None]) or the fixed value the data had when the coefficients were built.
    "mono": theta_ex is the symbol theta_0, the azimuths are fixed to p_0 and p_0 + pi. *)
Inductive geom :=
| GMono (p_0 : R)
| GQuad (fix_t_0 fix_t_ex fix_p_0 fix_p_ex : option R).
(** volume.py 378-436, surface.py 206-264 *)
Definition pick (fixed : option R) (arg : R) : R := match fixed with Some v => v | None => arg end.
(** the angles the expressions really see when [_fnevals] is called with the given arguments:
    (theta_0, phi_0, theta_ex, phi_ex) *)
Definition seen (g : geom) (theta_0 phi_0 theta_ex phi_ex : R) : R * R * R * R :=
  match g with
  | GMono p_0 => (theta_0, p_0, theta_0, p_0 + PI)
  | GQuad f0 fex fp0 fpex => (pick f0 theta_0, pick fp0 phi_0, pick fex theta_ex, pick fpex phi_ex)
  end.

(** [_fnevals(theta_0, phi_0, theta_ex, phi_ex)] (rt1.py 305-386 with 276-303) *)
Definition fnevals (V S : sobj) (g : geom) (theta_0 phi_0 theta_ex phi_ex : R) : res (list R) :=
  let '(t0, p0, tex, pex) := seen g theta_0 phi_0 theta_ex phi_ex in
  mapM const_value
       (extract_coefficients (ncoefs S + ncoefs V - 1) (interaction_expansion V S t0 p0 tex pex)).

(** *** numpy floats with infinities: only the operations of rt1.py 1340-1361 *)
Inductive num := Fin (x : R) | PInf | NInf | NaN.
(** IEEE addition (rt1.py 1343-1361) *)
Definition nadd (x y : num) : num :=
  match x, y with
  | Fin a, Fin b => Fin (a + b)
  | NaN, _ | _, NaN | PInf, NInf | NInf, PInf => NaN
  | PInf, _ | _, PInf => PInf
  | NInf, _ | _, NInf => NInf
  end.
(** IEEE negation (rt1.py 1345) *)
Definition nopp (x : num) : num :=
  match x with Fin a => Fin (- a) | PInf => NInf | NInf => PInf | NaN => NaN end.
(** a finite factor *)
Definition nscale (a : R) (y : num) : num :=
  match y with
  | Fin b => Fin (a * b)
  | NaN => NaN
  | PInf => if Rlt_dec 0 a then PInf else if Rlt_dec a 0 then NInf else NaN
  | NInf => if Rlt_dec 0 a then NInf else if Rlt_dec a 0 then PInf else NaN
  end.
(** [a / b] for a zero divisor of positive sign ([1.0 - 1.0]) *)
Definition ndiv (a b : R) : num :=
  if Req_EM_T b 0 then if Rlt_dec 0 a then PInf else if Rlt_dec a 0 then NInf else NaN
  else Fin (a / b).
(** [np.log], rt1.py 1344 *)
Definition nlog (x : num) : num :=
  match x with
  | Fin a => if Rlt_dec 0 a then Fin (ln a) else if Rlt_dec a 0 then NaN else NInf
  | PInf => PInf
  | NInf | NaN => NaN
  end.
(** [scipy.special.expi] with its value at 0; [expi] is its value elsewhere *)
Definition nexpi (expi : R -> R) (x : R) : num :=
  if Req_EM_T x 0 then NInf else Fin (expi x).

Section Special.
  (** scipy.special.expi and scipy.special.expn *)
  Variables (expi : R -> R) (expn : nat -> R -> R).

  (** [_S2_mu] (rt1.py 1340-1361), mu > 0 *)
  Definition hlp1 (mu tau : R) : num :=
    nadd (nadd (nscale (exp (- tau / mu)) (nlog (ndiv mu (1 - mu))))
               (nopp (nexpi expi (- tau))))
         (nscale (exp (- tau / mu)) (nexpi expi (tau / mu - tau))).
  (** rt1.py 1350-1352 *)
  Definition innerfunc (mu tau : R) (k : nat) : R :=
    / (mu ^ k) * (expn (k + 1) tau - exp (- tau / mu) / INR k).
  (** rt1.py 1340-1361 *)
  Definition S2_mu (nmax : nat) (mu tau : R) : list num :=
    map (fun n => nadd (Fin (fold_left Rplus (map (innerfunc mu tau) (seq 1 (n + 1))) 0)) (hlp1 mu tau))
        (seq 0 nmax).
  (** [_mu_0_x], [_mu_ex_x] (rt1.py 1326-1338) for a freshly created object *)
  Definition mu_x (nmax : nat) (mu : R) : list R := map (fun n => mu ^ (n + 1)) (seq 0 nmax).

  (** numpy's product [fn * multip] along the first axis: equal lengths, or a single entry is
      broadcast *)
  Definition bcast (fn : list R) (multip : list num) : res (list num) :=
    if Nat.eqb (length fn) (length multip) then Ok (map (fun q => nscale (fst q) (snd q)) (combine fn multip))
    else match multip with
         | [m] => Ok (map (fun f => nscale f m) fn)
         | _ => match fn with
                | [f] => Ok (map (nscale f) multip)
                | _ => Err ValueError
                end
         end.
  (** [_calc_Fint_1], [_calc_Fint_2] (rt1.py 1242-1324); [np.arccos(np.cos(t))] = t for the
      zenith angles 0 <= t <= pi *)
  Definition calc_Fint (V S : sobj) (g : geom) (tau t1 p1 t2 p2 : R) : res num :=
    let nmax := (ncoefs V + ncoefs S - 1)%nat in
    do fn <- fnevals V S g t1 p1 t2 p2;
    let multip := map (fun q => nscale (fst q) (snd q)) (combine (mu_x nmax (cos t1)) (S2_mu nmax (cos t1) tau)) in
    do terms <- bcast fn multip;
    Ok (fold_left nadd terms (Fin 0)).

  (** [interaction] (rt1.py 1215-1240) *)
  Definition interaction (V S : sobj) (g : geom) (I0 omega tau NormBRDF bsf t_0 p_0 t_ex p_ex : R) : res num :=
    do Fint1 <- calc_Fint V S g tau t_0 p_0 t_ex p_ex;
    do Fint2 <- calc_Fint V S g tau t_ex p_ex t_0 p_0;
    Ok (nscale (NormBRDF * (1 - bsf) * (I0 * cos t_0 * omega))
          (nadd (nscale (exp (- tau / cos t_ex)) Fint1) (nscale (exp (- tau / cos t_0)) Fint2))).
End Special.
