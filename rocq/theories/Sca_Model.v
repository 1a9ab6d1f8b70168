(** Model of rt1/scatter.py, rt1/volume.py and rt1/surface.py: scattering angles, scattering
    functions, Legendre coefficients and expansions, linear combinations. *)
From Coq Require Import Reals List ZArith Bool.
From Verif Require Import Base.
Import ListNotations.
Local Open Scope R_scope.

(** generalisation parameter a = [a0, a1, a2] (volume.py 24, surface.py 22) *)
Record avec := A3 { a0 : R; a1 : R; a2 : R }.

(** scatter.py 14-64 (symbolic and numeric version are the same formula) *)
Definition scat_angle (t_0 t_ex p_0 p_ex : R) (a : avec) : R :=
  a0 a * cos t_0 * cos t_ex
  + a1 a * sin t_0 * sin t_ex * cos p_0 * cos p_ex
  + a2 a * sin t_0 * sin t_ex * sin p_0 * sin p_ex.

(** [sp.legendre(n, x)] used in volume.py 441 and surface.py 268: sympy's Legendre polynomial,
    modelled by the three-term recurrence sympy uses.  [leg2 n x] = (P_n, P_(n+1)). *)
Fixpoint leg2 (n : nat) (x : R) : R * R :=
  match n with
  | O => (1, x)
  | S m => let '(p, q) := leg2 m x in
           (q, ((2 * INR (S m) + 1) * x * q - INR (S m) * p) / INR (S (S m)))
  end.
(** [sp.legendre(n, x)], volume.py 441, surface.py 268 *)
Definition leg (n : nat) (x : R) : R := fst (leg2 n x).

(** [sp.Sum(legcoefs * legendre(n, x), (n, 0, NP - 1)).doit()] *)
Definition leg_sum (coefs : nat -> R) (NP : nat) (x : R) : R :=
  fold_right Rplus 0 (map (fun n => coefs n * leg n x) (seq 0 NP)).

(** volume.py 310-446: expansion of the phase function for the incident direction and the
    scattering direction s; the incident zenith angle enters as pi - theta_0 (443) *)
Definition legexpansion_V (coefs : nat -> R) (NP : nat) (a : avec)
           (theta_0 phi_0 theta_s phi_s : R) : R :=
  leg_sum coefs NP (scat_angle (PI - theta_0) theta_s phi_0 phi_s a).

(** surface.py 140-270 *)
Definition legexpansion_S (coefs : nat -> R) (NP : nat) (a : avec)
           (theta_s phi_s theta_ex phi_ex : R) : R :=
  leg_sum coefs NP (scat_angle theta_s theta_ex phi_s phi_ex a).

(** Python's [b ** 1.5] for a nonnegative base *)
Definition pow15 (b : R) : R := b * sqrt b.

(** [sp.KroneckerDelta], volume.py 641-655, surface.py 604-608 *)
Definition kron (i n : nat) : R := if Nat.eqb i n then 1 else 0.

(** *** volume phase functions as functions of the scattering-angle cosine x *)

(** Rayleigh: volume.py 622-655 *)
Definition rayleigh_func (x : R) : R := 3 / (16 * PI) * (1 + x ^ 2).
(** volume.py 622-655 *)
Definition rayleigh_ncoefs : nat := 3.
(** volume.py 622-655 (legcoefs) *)
Definition rayleigh_coefs (n : nat) : R :=
  (3 / (16 * PI)) * ((4 / 3) * kron 0 n + (2 / 3) * kron 2 n).

(** HenyeyGreenstein (volume): volume.py 700-737 *)
Definition hgV_func (t x : R) : R := (1 - t ^ 2) / ((4 * PI) * pow15 (1 + t ^ 2 - 2 * t * x)).
(** volume.py 728-737 *)
Definition hgV_coefs (t : R) (n : nat) : R := (1 / (4 * PI)) * (2 * INR n + 1) * t ^ n.

(** HGRayleigh: volume.py 790-845 *)
Definition hgray_func (t x : R) : R :=
  3 / (8 * PI) * (1 / (2 + t ^ 2) * (1 + x ^ 2) * (1 - t ^ 2) / pow15 (1 + t ^ 2 - 2 * t * x)).
(** volume.py 790-845 (legcoefs) *)
Definition hgray_coefs (t : R) (n : nat) : R :=
  let m := INR n in
  if Nat.ltb n 2 then
    3 / (8 * PI) * 1 / (2 + t ^ 2)
    * ((m + 2) * (m + 1) / (2 * m + 3) * t ^ (n + 2)
       + (m + 1) ^ 2 / (2 * m + 3) * t ^ n
       + (5 * m ^ 2 - 1) / (2 * m - 1) * t ^ n)
  else
    3 / (8 * PI) * 1 / (2 + t ^ 2)
    * (m * (m - 1) / (2 * m - 1) * t ^ (n - 2)
       + (m + 2) * (m + 1) / (2 * m + 3) * t ^ (n + 2)
       + (m + 1) ^ 2 / (2 * m + 3) * t ^ n
       + (5 * m ^ 2 - 1) / (2 * m - 1) * t ^ n).

(** *** surface BRDFs *)

(** Isotropic: surface.py 595-612 *)
Definition iso_func (x : R) : R := 1 / PI.
(** surface.py 595-612 *)
Definition iso_ncoefs : nat := 1.
(** surface.py 595-612 (legcoefs) *)
Definition iso_coefs (n : nat) : R := (1 / PI) * kron 0 n.

(** CosineLobe: surface.py 667-709.  [sp.sign] *)
Definition sgn (x : R) : R := if Rlt_dec 0 x then 1 else if Rlt_dec x 0 then -1 else 0.
(** surface.py 690-709 *)
Definition coslobe_func (i : nat) (x : R) : R := 1 / PI * (x * (1 + sgn x) / 2) ^ i.

(** Gamma function at positive half-integers: [gam2 k] = Gamma(k/2), k >= 1 *)
Fixpoint gam2 (k : nat) : R :=
  match k with
  | O => 0
  | S O => sqrt PI
  | S (S O) => 1
  | S (S m) => (INR m / 2) * gam2 m
  end.
(** [1 / sp.gamma(z/2)] for an integer z; sympy's gamma is complex infinity at the poles
    z = 0, -2, -4, ..., where the quotient is 0.  For z <= 0 the functional equation
    1/Gamma(z/2) = (z/2) / Gamma(z/2 + 1) is applied [fuel] times. *)
Fixpoint rgam2_up (fuel : nat) (z : Z) : R :=
  if (1 <=? z)%Z then / gam2 (Z.to_nat z)
  else match fuel with
       | O => 0
       | S f => (IZR z / 2) * rgam2_up f (z + 2)
       end.
(** [1 / sp.gamma(z / 2)] in surface.py 667-688 *)
Definition rgam2 (z : Z) : R := rgam2_up (S (Z.to_nat (- z))) z.

(** surface.py 667-688; gamma(1+i) = Gamma((2+2i)/2) *)
Definition coslobe_coefs (i n : nat) : R :=
  1 / PI * ((/ (2 ^ (2 + i)) * (1 + 2 * INR n) * sqrt PI * gam2 (2 + 2 * i))
            * (rgam2 (2 - Z.of_nat n + Z.of_nat i) * rgam2 (3 + Z.of_nat n + Z.of_nat i))).

(** HenyeyGreenstein (surface): surface.py 754-775 *)
Definition hgS_func (t x : R) : R :=
  1 * (1 - t ^ 2) / (PI * pow15 (1 + t ^ 2 - 2 * t * x)).
(** surface.py 754-775 (legcoefs) *)
Definition hgS_coefs (t : R) (n : nat) : R := 1 * (1 / PI) * (2 * INR n + 1) * t ^ n.

(** HG_nadirnorm: surface.py 833-848 *)
Definition nadir_hemreflect (t : R) (a : avec) : R :=
  4 * ((1 - t ^ 2)
       * (1 - t * (- t + a0 a) - sqrt ((1 + t ^ 2 - 2 * a0 a * t) * (1 + t ^ 2)))
       / (2 * a0 a ^ 2 * t ^ 2 * sqrt (1 + t ^ 2 - 2 * a0 a * t))).
(** surface.py 850-855 (and the numeric version 857-886) *)
Definition hgnadir_func (t : R) (a : avec) (x : R) : R :=
  (1 / nadir_hemreflect t a) * ((1 - t ^ 2) / (PI * pow15 (1 + t ^ 2 - 2 * t * x))).
(** surface.py 888-913 *)
Definition hgnadir_coefs (t : R) (a : avec) (n : nat) : R :=
  (1 / nadir_hemreflect t a) * ((1 / PI) * (2 * INR n + 1) * t ^ n).

(** *** linear combinations: volume.py 449-591, surface.py 446-575 *)

(** one (fraction, element) choice *)
Record choice := Choice {
  ch_frac : R;
  ch_a : avec;
  ch_ncoefs : nat;
  ch_coefs : nat -> R;
  ch_func : R -> R -> R -> R -> R }.   (* value of [_func] at t_0, t_ex, p_0, p_ex *)

(** a scattering element with its own expansion *)
Definition avec_eqb (x y : avec) : bool :=
  if Req_EM_T (a0 x) (a0 y) then if Req_EM_T (a1 x) (a1 y) then
  if Req_EM_T (a2 x) (a2 y) then true else false else false else false.

(** volume.py 539-547 / surface.py 530-538: for each choice the indices with an equal [a] *)
Definition equals_row (cs : list choice) (a : avec) : list nat :=
  filter (fun i => match nth_error cs i with
                   | Some c => avec_eqb (ch_a c) a
                   | None => false end) (seq 0 (length cs)).
(** volume.py 539-547, surface.py 530-538 *)
Definition equals (cs : list choice) : list (list nat) := map (fun c => equals_row cs (ch_a c)) cs.

(** volume.py 549-550: [list({tuple(row) for row in equals})]: every distinct row once; the
    order of a Python set is unspecified, the model takes the order of last occurrence *)
Definition equal_a (cs : list choice) : list (list nat) :=
  nodup (list_eq_dec Nat.eq_dec) (equals cs).

(** [np.take(self.Vchoices, idx, axis=0)] *)
Definition take_choices (cs : list choice) (idx : list nat) : list choice :=
  flat_map (fun i => match nth_error cs i with Some c => [c] | None => [] end) idx.

(** largest ncoefs of a list of choices, volume.py 557, 571-576; surface.py 526, 555-561 *)
Definition max_ncoefs (cs : list choice) : nat :=
  fold_right (fun c m => Nat.max (ch_ncoefs c) m) 0%nat cs.

(** the combined coefficients of one group (volume.py 571-576, surface.py 555-561) *)
Definition group_coefs (g : list choice) (n : nat) : R :=
  fold_left (fun acc c => acc + ch_coefs c n * ch_frac c) g 0.
(** the [a] of the last element of the group (574) *)
Definition group_a (g : list choice) (dflt : avec) : avec :=
  fold_left (fun _ c => ch_a c) g dflt.

(** [_func] of the combination: volume.py 586-589, surface.py 571-574 *)
Definition comb_func (cs : list choice) (t_0 t_ex p_0 p_ex : R) : R :=
  fold_left (fun acc c => acc + ch_func c t_0 t_ex p_0 p_ex * ch_frac c) cs 0.

(** [ncoefs] of the combination: volume.py 557, surface.py 526 ([max] of an empty list:
    ValueError) *)
Definition comb_ncoefs (cs : list choice) : res nat :=
  match cs with [] => Err ValueError | _ => Ok (max_ncoefs cs) end.

Definition default_a_V : avec := A3 (-1) 1 1.   (* volume.py 24 *)
Definition default_a_S : avec := A3 1 1 1.      (* surface.py 22 *)

(** combined expansion as a function of "the scattering angle for weights a":
    volume.py 561-584, surface.py 545-569 *)
Definition comb_leg (cs : list choice) (dflt : avec) (x : avec -> R) : R :=
  fold_right Rplus 0
    (map (fun idx => let g := take_choices cs idx in
                     leg_sum (group_coefs g) (max_ncoefs g) (x (group_a g dflt)))
         (equal_a cs)).
(** volume.py 561-584 *)
Definition comb_legexpansion_V (cs : list choice) (theta_0 phi_0 theta_s phi_s : R) : R :=
  comb_leg cs default_a_V (fun a => scat_angle (PI - theta_0) theta_s phi_0 phi_s a).
(** surface.py 545-569 *)
Definition comb_legexpansion_S (cs : list choice) (theta_s phi_s theta_ex phi_ex : R) : R :=
  comb_leg cs default_a_S (fun a => scat_angle theta_s theta_ex phi_s phi_ex a).

(** a LinCombV / LinCombSRF object: the choices and the instance attributes [ncoefs] and
    [legexpansion], which exist only after [_set_legexpansion] ran *)
Record lcobj := LC { lc_choices : list choice; lc_set : option nat }.
(** [_set_legexpansion]: volume.py 500-504, surface.py 486-490 *)
Definition set_legexpansion (o : lcobj) : res lcobj :=
  do n <- comb_ncoefs (lc_choices o); Ok (LC (lc_choices o) (Some n)).
(** [LinCombV.__init__] (volume.py 483-491) never calls [_set_legexpansion];
    [LinCombSRF.__init__] does (surface.py 474) *)
Definition lincombV_init (cs : list choice) : res lcobj := Ok (LC cs None).
(** surface.py 466-474 *)
Definition lincombSRF_init (cs : list choice) : res lcobj := set_legexpansion (LC cs None).
(** [X.ncoefs], as read by rt1.py 1329 *)
Definition lc_ncoefs (o : lcobj) : res nat :=
  match lc_set o with Some n => Ok n | None => Err AttributeError end.
(** [X.legexpansion(...)]: without the instance attribute the inherited method is called, which
    reads [self.ncoefs] first (volume.py 370, surface.py 198) *)
Definition lcV_legexpansion (o : lcobj) (theta_0 phi_0 theta_s phi_s : R) : res R :=
  do _ <- lc_ncoefs o; Ok (comb_legexpansion_V (lc_choices o) theta_0 phi_0 theta_s phi_s).
(** surface.py 198, 486-490 *)
Definition lcS_legexpansion (o : lcobj) (theta_s phi_s theta_ex phi_ex : R) : res R :=
  do _ <- lc_ncoefs o; Ok (comb_legexpansion_S (lc_choices o) theta_s phi_s theta_ex phi_ex).

(** *** geometry strings: volume.py 202-263, 378-436; surface.py 206-264, 337-398 *)

(** number of distinct values: [len(np.unique(v))] *)
Definition single_value (v : list R) : bool :=
  match nodup Req_EM_T v with [_] => true | _ => false end.
(** [np.unique(v)[0]], volume.py 378-436 *)
Definition minimum (v : list R) : R :=
  match v with [] => 0 | x :: r => fold_left Rmin r x end.

(** one character of the geometry string: [None] = the symbol stays (evaluated per data point),
    [Some v] = fixed to the value [np.unique(values)[0]]; [checked] is the array the code passes
    to the uniqueness assertion *)
Inductive gchar := GV | GF | GOther.
(** volume.py 378-436, surface.py 206-264 *)
Definition resolve (g : gchar) (values checked : list R) : res (option R) :=
  match g with
  | GV => Ok None
  | GF => if single_value checked then Ok (Some (minimum values)) else Err AssertionError
  | GOther => Err AssertionError
  end.

(** the four angles for a non-monostatic geometry; the exit azimuth check tests p_0 instead of
    p_ex (volume.py 256, 429; surface.py 257, 391) *)
Definition resolve_geometry (g0 g1 g2 g3 : gchar) (t_0 t_ex p_0 p_ex : list R)
  : res (option R * option R * option R * option R) :=
  do th0 <- resolve g0 t_0 t_0;
  do thex <- resolve g1 t_ex t_ex;
  do ph0 <- resolve g2 p_0 p_0;
  do phex <- resolve g3 p_ex p_0;
  Ok (th0, thex, ph0, phex).
(** value of an angle at data point i after the substitution *)
Definition angle_at (fixed : option R) (values : list R) (i : nat) : option R :=
  match fixed with Some v => Some v | None => nth_error values i end.

(** *** history of one Henyey-Greenstein object (surface.py 712-775, volume.py 658-737)
    [_func] and [legcoefs] are properties behind [lru_cache] keyed by the object itself, so the
    first evaluation is kept whatever happens to the attributes (eviction after 128 further
    objects is not modelled).  [Volume.p] uses the uncached [_func_numeric] (volume.py 114,
    715-726), [Surface.brdf] the lambdified, cached [_func] (surface.py 75-87, 116-119). *)
Record hgobj := HGobj { h_t : R; h_a : avec;
                        h_func : option (R * avec);   (* attributes captured by the cached _func *)
                        h_coefs : option R }.         (* t captured by the cached legcoefs *)
Inductive hgop :=
| HSetT (t : R) | HSetA (a : avec)                    (* obj.t = ..., obj.a = ... *)
| HEval (t_0 t_ex p_0 p_ex : R)                       (* obj.brdf(...) / obj.p(...) *)
| HCoef (n : nat).                                    (* obj._get_legcoef(n), legexpansion *)
Definition hg_new (t : R) (a : avec) : hgobj := HGobj t a None None.
(** what the cached [_func] was built from (surface.py 754-771, volume.py 700-712) *)
Definition captured (o : hgobj) : R * avec :=
  match h_func o with Some c => c | None => (h_t o, h_a o) end.
(** what the cached [legcoefs] was built from (surface.py 772-775, volume.py 728-737) *)
Definition captured_t (o : hgobj) : R := match h_coefs o with Some c => c | None => h_t o end.
(** one operation of the surface object: new state and returned number *)
Definition hgS_step (o : hgobj) (op : hgop) : hgobj * option R :=
  match op with
  | HSetT t => (HGobj t (h_a o) (h_func o) (h_coefs o), None)
  | HSetA a => (HGobj (h_t o) a (h_func o) (h_coefs o), None)
  | HEval t_0 t_ex p_0 p_ex =>
      let '(t, a) := captured o in
      (HGobj (h_t o) (h_a o) (Some (t, a)) (h_coefs o),
       Some (hgS_func t (scat_angle t_0 t_ex p_0 p_ex a)))
  | HCoef n => (HGobj (h_t o) (h_a o) (h_func o) (Some (captured_t o)), Some (hgS_coefs (captured_t o) n))
  end.
(** the volume object: evaluation uses the current attributes, coefficients are cached *)
Definition hgV_step (o : hgobj) (op : hgop) : hgobj * option R :=
  match op with
  | HSetT t => (HGobj t (h_a o) (h_func o) (h_coefs o), None)
  | HSetA a => (HGobj (h_t o) a (h_func o) (h_coefs o), None)
  | HEval t_0 t_ex p_0 p_ex => (o, Some (hgV_func (h_t o) (scat_angle t_0 t_ex p_0 p_ex (h_a o))))
  | HCoef n => (HGobj (h_t o) (h_a o) (h_func o) (Some (captured_t o)), Some (hgV_coefs (captured_t o) n))
  end.
(** a history of operations on one object (surface.py 712-775, volume.py 658-737) *)
Definition hg_run (step : hgobj -> hgop -> hgobj * option R) (o : hgobj) (ops : list hgop) : hgobj :=
  fold_left (fun o op => fst (step o op)) ops o.
