(** C200-C202: the numbers that are computed with doubles. *)
From Coq Require Import Reals List String ZArith Lra Lia Psatz.
From Flocq Require Import Core.
From Verif Require Import RT_Model Flt_Model Flt_Spec Flt_Proofs Flt2_Proofs.
Import ListNotations.
Local Open Scope R_scope.

Lemma exact_surface_eq o bf pf : exact_surface (inputs_of o bf pf) (brdf_val o) = surface o.
Proof.
  unfold exact_surface, surface, path, mu_0, mu_ex. cbn.
  replace (- (tau (V o) / cos (t_0 o) + tau (V o) / cos (t_ex o))) with (- (tau (V o) / cos (t_0 o)) - tau (V o) / cos (t_ex o)) by ring. ring.
Qed.
Lemma exact_volume_eq o bf pf : exact_volume (inputs_of o bf pf) (p_val o) = volume o.
Proof.
  unfold exact_volume, volume, path, mu_0, mu_ex. cbn.
  replace (- (tau (V o) / cos (t_0 o) + tau (V o) / cos (t_ex o))) with (- (tau (V o) / cos (t_0 o)) - tau (V o) / cos (t_ex o)) by ring. reflexivity.
Qed.

(** ** C200: accuracy *)

(** the surface contribution that is computed is the exact one up to the accuracy a of np.exp, c of np.cos, b of the
    BRDF, seven roundings, and the optical path times the accuracy of the exponent *)
Theorem C200_surface : forall expf cosf o bf pf a b c, let i := inputs_of o bf pf in
  sane i -> 0 <= a -> 0 <= b -> 0 <= c -> 0 < cos (t_0 o) -> 0 < cos (t_ex o) -> path i * exp (c + 2 * w) <= 600 -> 0 <= brdf_val o ->
  accurate_exp a expf -> accurate_cos c cosf (t_0 o) -> accurate_cos c cosf (t_ex o) -> near b bf (brdf_val o) ->
  List.Forall normal (surface_steps expf cosf i) ->
  near (a + path i * (exp (c + 2 * w) - 1) + b + c + 7 * w) (fsurface dbl expf cosf i) (surface o).
Proof.
  intros expf cosf o bf pf a b c i S Ha Hb Hc P0 P1 PL PB Ae A0 A1 Nb N. rewrite <- (exact_surface_eq o bf pf).
  exact (surface_near expf cosf i a c S Ha Hc Ae A0 A1 P0 P1 PL b (brdf_val o) Hb PB Nb N).
Qed.
Print Assumptions C200_surface.

(** the volume contribution: the error of np.exp counts divided by the optical path *)
Theorem C200_volume : forall expf cosf o bf pf a b c, let i := inputs_of o bf pf in
  let d := a + path i * (exp (c + 2 * w) - 1) in
  sane i -> 0 <= a -> 0 <= b -> 0 <= c -> 0 < cos (t_0 o) -> 0 < cos (t_ex o) -> path i * exp (c + 2 * w) <= 600 -> 0 <= p_val o ->
  accurate_exp a expf -> accurate_cos c cosf (t_0 o) -> accurate_cos c cosf (t_ex o) -> near b pf (p_val o) ->
  List.Forall normal (volume_steps expf cosf i) -> 0 < path i -> (exp d - 1) / path i < 1 ->
  near (- ln (1 - (exp d - 1) / path i) + b + 2 * c + 9 * w) (fvolume dbl expf cosf i) (volume o).
Proof.
  intros expf cosf o bf pf a b c i d S Ha Hb Hc P0 P1 PL PB Ae A0 A1 Nb N HX Hq. rewrite <- (exact_volume_eq o bf pf).
  exact (volume_near expf cosf i a c S Ha Hc Ae A0 A1 P0 P1 PL b (p_val o) Hb PB Nb N HX Hq).
Qed.
Print Assumptions C200_volume.

(** the sum is as accurate as its parts, and one rounding *)
Theorem C200_total : forall expf cosf o bf pf e, let i := inputs_of o bf pf in
  0 <= surface o -> 0 <= volume o -> normal (fsurface dbl expf cosf i + fvolume dbl expf cosf i) ->
  near e (fsurface dbl expf cosf i) (surface o) -> near e (fvolume dbl expf cosf i) (volume o) ->
  near (e + w) (ftotal dbl expf cosf i) (surface o + volume o).
Proof. intros expf cosf o bf pf e i HS HV N H1 H2. unfold ftotal. apply near_round; [now apply near_plus|lra|exact N]. Qed.
Print Assumptions C200_total.

(** what this means as relative error *)
Lemma exp_le_inv x y : exp x <= exp y -> x <= y.
Proof. intros [H|H]; [left; now apply exp_lt_inv|right; now apply exp_inv]. Qed.
Lemma near_abs e x y : 0 <= e <= 1 -> 0 <= y -> near e x y -> Rabs (x - y) <= 2 * e * y.
Proof.
  intros [H0 H1] Hy [A B].
  assert (L : exp e <= 1 + 2 * e).
  { destruct H0 as [H0|<-]; [|rewrite exp_0; lra].
    assert (D : forall t : R, derivable_pt_lim exp t (exp t)) by apply derivable_pt_lim_exp.
    destruct (MVT_cor2 exp exp 0 e H0 (fun t _ => D t)) as [t [E [t0 t1]]]. rewrite exp_0 in E.
    (* exp is convex: the chord from 0 to 1 *)
    destruct (MVT_cor2 exp exp 0 1 Rlt_0_1 (fun t _ => D t)) as [s [Es [s0 s1]]]. rewrite exp_0 in Es.
    pose proof exp_le_3 as E3. destruct (Rle_lt_dec (exp t) 2) as [T|T]; [nra|].
    destruct (MVT_cor2 exp exp 0 t t0 (fun t _ => D t)) as [r [Er [r0 r1]]]. rewrite exp_0 in Er.
    destruct (Rle_lt_or_eq_dec _ _ H1) as [H1'|H1']; [|subst e; lra].
    destruct (MVT_cor2 exp exp e 1 H1' (fun t _ => D t)) as [q [Eq [q0 q1]]].
    assert (exp t < exp q) by (apply exp_increasing; lra). nra. }
  assert (M : 1 - 2 * e <= exp (- e)).
  { assert (1 + - e <= exp (- e)). { destruct H0 as [H0|<-]; [left; apply exp_ineq1; lra|rewrite Ropp_0, exp_0; lra]. } lra. }
  apply Rabs_le. nra.
Qed.
Lemma w_small : w <= bpow radix2 (-52).
Proof.
  assert (E : bpow radix2 (-52) = 2 * bpow radix2 (-53)). { change (-52)%Z with (1 + -53)%Z. rewrite bpow_plus. reflexivity. }
  pose proof u_small as U. set (u := bpow radix2 (-53)) in *. apply exp_le_inv. rewrite E.
  assert (X : exp w * exp (- w) = 1) by (rewrite <- exp_plus, Rplus_opp_r; apply exp_0). rewrite w_exp in X. fold u in X.
  assert (1 + 2 * u <= exp (2 * u)) by (left; apply exp_ineq1; lra). pose proof (exp_pos w). nra.
Qed.

(** if np.exp, np.cos are accurate up to 4 roundings and the BRDF up to 1000, and the optical path is not above 100,
    the relative error of the surface contribution is below 2^-39 *)
Theorem C200_simple : forall expf cosf o bf pf, let i := inputs_of o bf pf in
  sane i -> 0 < cos (t_0 o) -> 0 < cos (t_ex o) -> 0 <= brdf_val o -> path i <= 100 ->
  accurate_exp (4 * w) expf -> accurate_cos (4 * w) cosf (t_0 o) -> accurate_cos (4 * w) cosf (t_ex o) -> near (1000 * w) bf (brdf_val o) ->
  List.Forall normal (surface_steps expf cosf i) ->
  Rabs (fsurface dbl expf cosf i - surface o) <= bpow radix2 (-39) * surface o.
Proof.
  intros expf cosf o bf pf i S P0 P1 PB PX Ae A0 A1 Nb N. pose proof w_pos as W. pose proof w_small as W'.
  assert (PP : 0 <= path i) by exact (path_pos i S P0 P1).
  assert (B52 : bpow radix2 (-52) * 8192 = bpow radix2 (-39)). { change 8192 with (bpow radix2 13). rewrite <- bpow_plus. reflexivity. }
  assert (B39 : bpow radix2 (-39) <= / 1024). { apply Rle_trans with (bpow radix2 (-10)); [apply bpow_le; lia|]. change (bpow radix2 (-10)) with (/ IZR 1024). lra. }
  assert (E6 : exp (6 * w) - 1 <= 12 * w).
  { pose proof (near_abs (6 * w) (exp (6 * w)) 1 ltac:(lra) ltac:(lra)) as Z. rewrite Rabs_pos_eq in Z by (pose proof (exp_ge1 (6 * w) ltac:(lra)); lra).
    assert (1 - 6 * w <= exp (- (6 * w)) <= 1) as [_ Z2].
    { split; [apply Rle_trans with (1 + - (6 * w)); [lra|left; apply exp_ineq1; lra]|]. rewrite <- exp_0. left. apply exp_increasing. lra. }
    pose proof (exp_ge1 (6 * w) ltac:(lra)). unfold near in Z. specialize (Z ltac:(lra)). lra. }
  assert (S0 : 0 <= surface o).
  { rewrite <- (exact_surface_eq o bf pf). fold i. unfold exact_surface. destruct S as (HI & _ & _ & HN & Hb & _). fold i in HN, Hb, HI. cbn in HI.
    apply Rmult_le_pos; [exact HN|]. apply Rplus_le_le_0_compat; repeat apply Rmult_le_pos; try lra; try (left; apply exp_pos); try exact PB; try (cbn; lra). }
  pose proof (C200_surface expf cosf o bf pf (4 * w) (1000 * w) (4 * w) S ltac:(lra) ltac:(lra) ltac:(lra) P0 P1) as H.
  fold i in H. replace (4 * w + 2 * w) with (6 * w) in H by ring. specialize (H ltac:(pose proof (exp_pos (6 * w)); nra) PB Ae A0 A1 Nb N).
  set (e := 4 * w + path i * (exp (6 * w) - 1) + 1000 * w + 4 * w + 7 * w) in *.
  assert (E0 : 0 <= path i * (exp (6 * w) - 1)) by (apply Rmult_le_pos; [exact PP|pose proof (exp_ge1 (6 * w) ltac:(lra)); lra]).
  assert (E1 : path i * (exp (6 * w) - 1) <= 1200 * w) by nra.
  assert (HE : 0 <= e <= 2215 * w) by (unfold e; lra).
  pose proof (near_abs e _ _ ltac:(lra) S0 H) as R. apply Rle_trans with (1 := R). apply Rmult_le_compat_r; [exact S0|]. lra.
Qed.
Print Assumptions C200_simple.

(** ** C201: the volume contribution of thin layers *)

(** a correctly rounded np.exp *)
Theorem C201_cancellation_refuted : forall cosf o bf pf, let i := inputs_of o bf pf in
  let expf := fun x => dbl (exp x) in
  sane i -> 0 < tau (V o) -> 0 < cos (t_0 o) -> 0 < cos (t_ex o) -> 0 < I0 o -> 0 < omega (V o) -> 0 < p_val o -> bsf o < 1 ->
  0 < cosf (t_0 o) -> 0 < cosf (t_ex o) ->
  tau (V o) / cosf (t_0 o) <= bpow radix2 (-56) -> tau (V o) / cosf (t_ex o) <= bpow radix2 (-56) ->
  fvolume dbl expf cosf i = 0 /\ 0 < volume o.
Proof.
  intros cosf o bf pf i expf S Ht P0 P1 HI Ho Hp Hb C0 C1 T0 T1.
  assert (D56 : is_double (bpow radix2 (-56))) by (apply generic_format_bpow'; [apply FLT_exp_valid; exact Hp53|unfold FLT_exp; lia]).
  assert (D55 : is_double (bpow radix2 (-55))) by (apply generic_format_bpow'; [apply FLT_exp_valid; exact Hp53|unfold FLT_exp; lia]).
  assert (E55 : bpow radix2 (-55) = 2 * bpow radix2 (-56)). { change (-55)%Z with (1 + -56)%Z. rewrite bpow_plus. reflexivity. }
  assert (E54 : bpow radix2 (-54) = 2 * bpow radix2 (-55)). { change (-54)%Z with (1 + -55)%Z. rewrite bpow_plus. reflexivity. }
  pose proof (bpow_gt_0 radix2 (-56)) as G.
  assert (X : - bpow radix2 (-55) <= farg dbl cosf i).
  { unfold farg, fmu_0, fmu_ex, i, inputs_of. cbn [i_tau i_t0 i_tex]. rewrite <- (dbl_id (bpow radix2 (-55))) by exact D55. rewrite <- (dbl_opp (bpow radix2 (-55))). apply dbl_le.
    apply dbl_le in T0, T1. rewrite (dbl_id _ D56) in T0, T1. lra. }
  assert (U : upward cosf i) by (split; assumption).
  pose proof (arg_nonpos cosf i S U) as X0.
  split.
  - assert (A : fabsorbed dbl expf cosf i = 0).
    { unfold fabsorbed, expf. rewrite (round_to_one (exp (farg dbl cosf i))).
      - replace (1 - 1) with 0 by ring. apply dbl_0.
      - assert (1 + farg dbl cosf i <= exp (farg dbl cosf i)) by (destruct (Req_dec (farg dbl cosf i) 0) as [->|Z]; [rewrite exp_0; lra|left; now apply exp_ineq1]). lra.
      - rewrite <- exp_0. destruct X0 as [X0|X0]; [left; now apply exp_increasing|rewrite X0; lra]. }
    unfold fvolume. rewrite A, Rmult_0_r, dbl_0, Rmult_0_l, dbl_0, Rmult_0_r. apply dbl_0.
  - rewrite <- (exact_volume_eq o bf pf). fold i. unfold exact_volume.
    assert (Q : 0 < path i). { unfold path. cbn. assert (0 < / cos (t_0 o)) by now apply Rinv_0_lt_compat. assert (0 < / cos (t_ex o)) by now apply Rinv_0_lt_compat. unfold Rdiv. nra. }
    assert (exp (- path i) < 1) by (rewrite <- exp_0; apply exp_increasing; lra).
    cbn. assert (0 < / (cos (t_0 o) + cos (t_ex o))) by (apply Rinv_0_lt_compat; lra).
    repeat apply Rmult_lt_0_compat; lra.
Qed.
Print Assumptions C201_cancellation_refuted.

(** for thicker layers (optical path from 2^-20 to 100) the relative error of the volume contribution is below 2^-26 *)
Theorem C201_not_thin : forall expf cosf o bf pf, let i := inputs_of o bf pf in
  sane i -> 0 < cos (t_0 o) -> 0 < cos (t_ex o) -> 0 <= p_val o -> bpow radix2 (-20) <= path i <= 100 ->
  accurate_exp (4 * w) expf -> accurate_cos (4 * w) cosf (t_0 o) -> accurate_cos (4 * w) cosf (t_ex o) -> near (1000 * w) pf (p_val o) ->
  List.Forall normal (volume_steps expf cosf i) ->
  Rabs (fvolume dbl expf cosf i - volume o) <= bpow radix2 (-26) * volume o.
Proof.
  intros expf cosf o bf pf i S P0 P1 PB [PX0 PX1] Ae A0 A1 Nb N. pose proof w_pos as W. pose proof w_small as W'.
  assert (PP : 0 < path i) by (pose proof (bpow_gt_0 radix2 (-20)); lra).
  assert (B52 : bpow radix2 (-52) * 8192 = bpow radix2 (-39)). { change 8192 with (bpow radix2 13). rewrite <- bpow_plus. reflexivity. }
  assert (B39 : bpow radix2 (-39) <= / 1024). { apply Rle_trans with (bpow radix2 (-10)); [apply bpow_le; lia|]. change (bpow radix2 (-10)) with (/ IZR 1024). lra. }
  assert (EX : forall e, 0 <= e <= 1 -> exp e - 1 <= 2 * e).
  { intros e H. pose proof (near_abs e (exp e) 1 H ltac:(lra)) as Z. pose proof (exp_ge1 e ltac:(lra)) as G1.
    rewrite Rabs_pos_eq in Z by lra. assert (exp (- e) <= 1). { rewrite <- exp_0. destruct H as [[H| <-] _]; [left; apply exp_increasing; lra|rewrite Ropp_0; lra]. }
    unfold near in Z. specialize (Z ltac:(lra)). lra. }
  set (d := 4 * w + path i * (exp (4 * w + 2 * w) - 1)).
  assert (E6 : 0 <= exp (4 * w + 2 * w) - 1 <= 12 * w).
  { pose proof (EX (4 * w + 2 * w) ltac:(lra)). pose proof (exp_ge1 (4 * w + 2 * w) ltac:(lra)). lra. }
  assert (D : 0 <= d <= 4 * w + path i * (12 * w)) by (unfold d; split; nra).
  assert (D1 : d <= 1204 * w) by nra.
  assert (Q : (exp d - 1) / path i <= bpow radix2 (-28)).
  { apply Rmult_le_reg_r with (path i); [exact PP|]. unfold Rdiv. rewrite Rmult_assoc, Rinv_l, Rmult_1_r by lra.
    apply Rle_trans with (2 * d); [apply EX; lra|].
    assert (B28 : bpow radix2 (-52) * 8 <= bpow radix2 (-29) * bpow radix2 (-20)). { change 8 with (bpow radix2 3). rewrite <- !bpow_plus. apply bpow_le. lia. }
    assert (B29 : bpow radix2 (-28) = 2 * bpow radix2 (-29)). { change (-28)%Z with (1 + -29)%Z. rewrite bpow_plus. reflexivity. }
    assert (B24 : 24 * bpow radix2 (-52) <= bpow radix2 (-29)). { apply Rle_trans with (bpow radix2 5 * bpow radix2 (-52)); [apply Rmult_le_compat_r; [apply bpow_ge_0|change (bpow radix2 5) with 32; lra]|rewrite <- bpow_plus; apply bpow_le; lia]. }
    pose proof (bpow_gt_0 radix2 (-29)). nra. }
  assert (B28s : bpow radix2 (-28) <= / 1024). { apply Rle_trans with (bpow radix2 (-10)); [apply bpow_le; lia|]. change (bpow radix2 (-10)) with (/ IZR 1024). lra. }
  set (q := (exp d - 1) / path i) in *.
  assert (q0 : 0 <= q). { unfold q. apply Rmult_le_pos; [pose proof (exp_ge1 d ltac:(lra)); lra|left; now apply Rinv_0_lt_compat]. }
  pose proof (C200_volume expf cosf o bf pf (4 * w) (1000 * w) (4 * w) S ltac:(lra) ltac:(lra) ltac:(lra) P0 P1 ltac:(fold i; nra) PB Ae A0 A1 Nb N PP) as H.
  fold i in H. fold d in H. fold q in H. specialize (H ltac:(lra)).
  assert (L : 0 <= - ln (1 - q) <= q * (1 + / 100)).
  { assert (LE : ln (1 - q) <= 0). { apply exp_le_inv. rewrite exp_ln, exp_0 by lra. lra. }
    split; [lra|]. apply exp_le_inv. rewrite exp_Ropp, exp_ln by lra.
    apply Rle_trans with (1 + q * (1 + / 100)); [|destruct (Req_dec q 0) as [->|Z]; [rewrite Rmult_0_l, Rplus_0_r, exp_0; lra|left; apply exp_ineq1; lra]].
    apply Rmult_le_reg_r with (1 - q); [lra|]. rewrite Rinv_l by lra. nra. }
  assert (V0 : 0 <= volume o).
  { rewrite <- (exact_volume_eq o bf pf). fold i. unfold exact_volume. destruct S as (HI & Ho & _ & HN & Hb & _). fold i in HN, Hb, HI, Ho.
    assert (exp (- path i) < 1) by (rewrite <- exp_0; apply exp_increasing; lra).
    assert (0 < / (cos (t_0 o) + cos (t_ex o))) by (apply Rinv_0_lt_compat; lra).
    apply Rmult_le_pos; [lra|]. apply Rmult_le_pos; [|exact PB]. apply Rmult_le_pos; [|lra].
    apply Rmult_le_pos; [|cbn; lra]. apply Rmult_le_pos; [|cbn; lra]. apply Rmult_le_pos; assumption. }
  assert (B27 : bpow radix2 (-26) = 4 * bpow radix2 (-28)). { change (-26)%Z with (2 + -28)%Z. rewrite bpow_plus. reflexivity. }
  assert (B41 : 1024 * bpow radix2 (-52) <= / 4 * bpow radix2 (-28)). { change 1024 with (bpow radix2 10). change (/ 4) with (bpow radix2 (-2)). rewrite <- !bpow_plus. apply bpow_le. lia. }
  set (e := - ln (1 - q) + 1000 * w + 2 * (4 * w) + 9 * w) in *.
  pose proof (near_abs e _ _ ltac:(unfold e; split; lra) V0 H) as R.
  apply Rle_trans with (1 := R). apply Rmult_le_compat_r; [exact V0|]. unfold e. lra.
Qed.
Print Assumptions C201_not_thin.

(** ** C202: signs, monotonicity and limits hold exactly in doubles *)

(** no contribution is negative, the total is not below its parts *)
Theorem C202_signs : forall expf cosf i, exp_range expf -> sane i -> upward cosf i ->
  0 <= fsurface dbl expf cosf i /\ 0 <= fvolume dbl expf cosf i /\
  fsurface dbl expf cosf i <= ftotal dbl expf cosf i /\ fvolume dbl expf cosf i <= ftotal dbl expf cosf i.
Proof.
  intros expf cosf i Hr S U. pose proof (surface_pos expf cosf Hr i S U) as A. pose proof (volume_pos expf cosf Hr i S U) as B.
  split; [exact A|]. split; [exact B|]. unfold ftotal. split.
  - rewrite <- (dbl_id (fsurface dbl expf cosf i)) at 1 by apply dbl_is. apply dbl_le. lra.
  - rewrite <- (dbl_id (fvolume dbl expf cosf i)) at 1 by apply dbl_is. apply dbl_le. lra.
Qed.
Print Assumptions C202_signs.

(** a larger optical depth never increases the surface and never decreases the volume contribution *)
Theorem C202_monotone : forall expf cosf i t t', exp_range expf -> exp_mono expf -> sane i -> upward cosf i -> 0 <= t -> t <= t' ->
  fsurface dbl expf cosf (with_tau i t') <= fsurface dbl expf cosf (with_tau i t) /\
  fvolume dbl expf cosf (with_tau i t) <= fvolume dbl expf cosf (with_tau i t').
Proof.
  intros expf cosf i t t' Hr Hm S U T0 T. pose proof (arg_mono cosf i t t' U T) as A.
  assert (S1 : sane (with_tau i t)) by (unfold sane in *; cbn; tauto).
  assert (S2 : sane (with_tau i t')) by (unfold sane in *; cbn; intuition lra).
  pose proof (arg_nonpos cosf (with_tau i t) S1 U) as N. pose proof (Hm _ _ A N) as E.
  pose proof (I_bs_pos cosf i S U) as B. pose proof (factor_pos cosf i S U) as F.
  destruct S as (_ & _ & _ & HN & Hb & _ & Hp). split.
  - unfold fsurface. cbn. apply dbl_le, Rmult_le_compat_l; [exact HN|]. apply dbl_le, Rplus_le_compat_r. apply dbl_le, Rmult_le_compat_l; [apply dbl_pos; lra|].
    unfold fIsurf. apply dbl_le, Rmult_le_compat_r; [exact B|exact E].
  - unfold fvolume. cbn. apply dbl_le, Rmult_le_compat_l; [apply dbl_pos; lra|]. apply dbl_le, Rmult_le_compat_r; [exact Hp|].
    apply dbl_le, Rmult_le_compat_l; [exact F|]. unfold fabsorbed. apply dbl_le. lra.
Qed.
Print Assumptions C202_monotone.

(** bare soil: no volume contribution, and the surface contribution is not attenuated; the same for a layer of no
    optical depth *)
Theorem C202_bare : forall expf cosf i, expf 0 = 1 ->
  (i_bsf i = 1 -> fvolume dbl expf cosf i = 0 /\ fsurface dbl expf cosf i = dbl (i_N i * fI_bs dbl cosf i)) /\
  (i_tau i = 0 -> fvolume dbl expf cosf i = 0 /\ (i_bsf i = 0 -> fsurface dbl expf cosf i = dbl (i_N i * fI_bs dbl cosf i))).
Proof.
  intros expf cosf i E. assert (D : dbl (fI_bs dbl cosf i) = fI_bs dbl cosf i) by (apply dbl_id, dbl_is). split; intros H.
  - unfold fvolume, fsurface. rewrite H. replace (1 - 1) with 0 by ring. rewrite dbl_0, !Rmult_0_l, dbl_0, Rplus_0_l, Rmult_1_l, !D. auto.
  - assert (A : farg dbl cosf i = 0). { unfold farg. rewrite H. unfold Rdiv. rewrite !Rmult_0_l, dbl_0. replace (-0 - 0) with 0 by ring. apply dbl_0. }
    split.
    + unfold fvolume, fabsorbed. rewrite A, E. replace (1 - 1) with 0 by ring. rewrite dbl_0, Rmult_0_r, dbl_0, Rmult_0_l, dbl_0, Rmult_0_r. apply dbl_0.
    + intros Hb. unfold fsurface, fIsurf. rewrite A, E, Hb, Rminus_0_r, Rmult_0_l, dbl_1, dbl_0, !Rmult_1_l, Rplus_0_r, !D. reflexivity.
Qed.
Print Assumptions C202_bare.

(** a layer over a Lambert-like surface, seen at nadir *)
Definition ex_o : RT := mkRT 1 "mono" 0 0 0 0 (mkV (bpow radix2 (-60)) (1 / 2) (fun _ _ _ _ _ => 1 / 4)) (mkSRF 1 (fun _ _ _ _ _ => 1 / 2)) 0 [] 1 None None.
Definition ex_t (t : R) : RT := mkRT 1 "mono" 0 0 0 0 (mkV t (1 / 2) (fun _ _ _ _ _ => 1 / 4)) (mkSRF 1 (fun _ _ _ _ _ => 1 / 2)) 0 [] 1 None None.
Lemma dbl_exp_range : exp_range (fun x => dbl (exp x)) /\ exp_mono (fun x => dbl (exp x)).
Proof.
  assert (L : forall a b, a <= b -> exp a <= exp b) by (intros a b [H| ->]; [left; now apply exp_increasing|lra]).
  split.
  - intros x Hx. split; [apply dbl_pos; left; apply exp_pos|]. rewrite <- dbl_1. apply dbl_le. rewrite <- exp_0. now apply L.
  - intros x y H _. apply dbl_le. now apply L.
Qed.
Example C201_example : fvolume dbl (fun x => dbl (exp x)) cos (inputs_of ex_o (1 / 2) (1 / 4)) = 0 /\ 0 < volume ex_o.
Proof.
  pose proof (bpow_gt_0 radix2 (-60)) as G. assert (K : bpow radix2 (-60) / cos 0 <= bpow radix2 (-56)). { rewrite cos_0. unfold Rdiv. rewrite Rinv_1, Rmult_1_r. apply bpow_le. lia. }
  apply C201_cancellation_refuted; unfold sane, inputs_of, ex_o, p_val, t_0, t_ex; cbn; rewrite ?cos_0; try lra; rewrite <- ?cos_0 at 1; exact K.
Qed.
Example C202_example : 0 <= fsurface dbl (fun x => dbl (exp x)) cos (inputs_of (ex_t 3) (1 / 2) (1 / 4)) /\
  fvolume dbl (fun x => dbl (exp x)) cos (inputs_of (ex_t 1) (1 / 2) (1 / 4)) <= fvolume dbl (fun x => dbl (exp x)) cos (inputs_of (ex_t 3) (1 / 2) (1 / 4)).
Proof.
  destruct dbl_exp_range as [R M].
  assert (S : forall t, 0 <= t -> sane (inputs_of (ex_t t) (1 / 2) (1 / 4)) /\ upward cos (inputs_of (ex_t t) (1 / 2) (1 / 4))).
  { intros t Ht. unfold sane, upward, inputs_of, ex_t, t_0, t_ex. cbn. rewrite cos_0. lra. }
  split.
  - destruct (S 3 ltac:(lra)). now apply C202_signs.
  - destruct (S 1 ltac:(lra)) as [A B]. exact (proj2 (C202_monotone _ cos _ 1 3 R M A B ltac:(lra) ltac:(lra))).
Qed.

(** C200: a correctly rounded np.exp is accurate, and a layer of optical depth 1 has only normal steps *)
Lemma dbl_ge k x : (-1074 <= k)%Z -> bpow radix2 k <= x -> bpow radix2 k <= dbl x.
Proof.
  intros Hk H. rewrite <- (dbl_id (bpow radix2 k)); [now apply dbl_le|]. apply generic_format_bpow'; [apply FLT_exp_valid; exact Hp53|unfold FLT_exp; lia].
Qed.
Lemma normal_ge k x : (-1022 <= k)%Z -> bpow radix2 k <= x -> normal x.
Proof. intros Hk H. right. pose proof (bpow_ge_0 radix2 k). rewrite Rabs_pos_eq by lra. apply Rle_trans with (2 := H). now apply bpow_le. Qed.
Lemma dbl_exp_accurate : accurate_exp w (fun x => dbl (exp x)).
Proof.
  intros x [H0 H1]. apply near_rnd; [left; apply exp_pos|]. apply (normal_ge (-960)); [lia|].
  assert (L : exp (-600) <= exp x) by (destruct H0 as [H0| <-]; [left; now apply exp_increasing|lra]). apply Rle_trans with (2 := L).
  assert (A : exp 5 <= bpow radix2 8).
  { replace 5 with (1 + (1 + (1 + (1 + 1)))) by lra. rewrite !exp_plus. pose proof exp_le_3 as E. pose proof (exp_pos 1) as E0. set (z := exp 1) in *.
    apply Rle_trans with (3 * (3 * (3 * (3 * 3)))); [|cbn; lra]. repeat (apply Rmult_le_compat; try lra; try (repeat apply Rmult_le_pos; lra)). }
  assert (B : forall n : nat, exp (5 * INR n) <= bpow radix2 (8 * Z.of_nat n)).
  { induction n as [|n IH]; [cbn [INR Z.of_nat Z.mul]; rewrite Rmult_0_r, exp_0; cbn; lra|]. rewrite S_INR. replace (5 * (INR n + 1)) with (5 + 5 * INR n) by ring.
    rewrite exp_plus. replace (8 * Z.of_nat (S n))%Z with (8 + 8 * Z.of_nat n)%Z by lia. rewrite bpow_plus.
    apply Rmult_le_compat; [left; apply exp_pos|left; apply exp_pos|exact A|exact IH]. }
  specialize (B 120%nat). replace (5 * INR 120) with 600 in B by (rewrite INR_IZR_INZ; cbn; lra). change (8 * Z.of_nat 120)%Z with 960%Z in B.
  change (-960)%Z with (- (960))%Z. rewrite bpow_opp. replace (-600) with (- (600)) by lra. rewrite exp_Ropp. apply Rinv_le_contravar; [apply exp_pos|exact B].
Qed.
Definition ex_1 : RT := mkRT 1 "mono" 0 0 0 0 (mkV 1 (1 / 2) (fun _ _ _ _ _ => 1 / 4)) (mkSRF 1 (fun _ _ _ _ _ => 1 / 2)) (1 / 2) [] 1 None None.
Example C200_example : Rabs (fsurface dbl (fun x => dbl (exp x)) cos (inputs_of ex_1 (1 / 2) (1 / 4)) - surface ex_1) <= bpow radix2 (-39) * surface ex_1.
Proof.
  pose proof w_pos as W. assert (RF : forall y, 0 <= y -> near (4 * w) y y) by (intros; apply near_refl; lra).
  assert (D2 : forall k, (-1074 <= k)%Z -> dbl (bpow radix2 k) = bpow radix2 k).
  { intros k Hk. apply dbl_id. apply generic_format_bpow'; [apply FLT_exp_valid; exact Hp53|unfold FLT_exp; lia]. }
  assert (Dh : dbl (1 / 2) = 1 / 2). { replace (1 / 2) with (bpow radix2 (-1)) by (cbn; lra). apply D2. lia. }
  assert (Dm : dbl (- (2)) = -2). { rewrite dbl_opp. replace 2 with (bpow radix2 1) at 1 by (cbn; lra). rewrite D2 by lia. cbn. lra. }
  apply C200_simple.
  - unfold sane, inputs_of, ex_1. cbn. lra.
  - cbn. rewrite cos_0. lra.
  - cbn. rewrite cos_0. lra.
  - unfold brdf_val. cbn. lra.
  - unfold path. cbn. rewrite cos_0. lra.
  - intros x Hx. apply near_weak with w; [now apply dbl_exp_accurate|lra|left; apply exp_pos].
  - unfold accurate_cos. cbn. rewrite cos_0. apply RF. lra.
  - unfold accurate_cos. cbn. rewrite cos_0. apply RF. lra.
  - unfold brdf_val. cbn. apply near_refl; lra.
  - change (inputs_of ex_1 (1 / 2) (1 / 4)) with (mkin 1 (1 / 2) 1 1 (1 / 2) 0 0 (1 / 2) (1 / 4)).
    unfold surface_steps. cbv zeta. cbn [i_tau i_t0 i_tex i_I0 i_N i_bsf i_brdf]. rewrite !cos_0.
    replace (1 / 1) with 1 by lra. rewrite !dbl_1, !Rmult_1_l, !dbl_1, !Rmult_1_l, !Dh. replace (1 - 1 / 2) with (1 / 2) by lra. rewrite !Dh.
    replace (- (1) - 1) with (- (2)) by lra. rewrite Dm.
    assert (X : bpow radix2 (-4) <= dbl (exp (-2))).
    { apply dbl_ge; [lia|]. replace (-2) with (- (1 + 1)) by lra. rewrite exp_Ropp, exp_plus. change (bpow radix2 (-4)) with (/ 16). pose proof exp_le_3. pose proof (exp_pos 1).
      apply Rinv_le_contravar; nra. }
    assert (M : forall k x, (-1074 <= k - 1)%Z -> bpow radix2 k <= x -> bpow radix2 (k - 1) <= 1 / 2 * x).
    { intros k x _ H. unfold Z.sub. rewrite bpow_plus. change (bpow radix2 (- (1))) with (/ 2). lra. }
    assert (X1 : bpow radix2 (-4 - 1) <= dbl (exp (-2)) * (1 / 2)) by (rewrite Rmult_comm; apply M; [lia|exact X]).
    assert (X2 : bpow radix2 (-5 - 1) <= 1 / 2 * dbl (dbl (exp (-2)) * (1 / 2))) by (apply M; [lia|]; apply dbl_ge; [lia|exact X1]).
    assert (X3 : bpow radix2 (-6) <= dbl (1 / 2 * dbl (dbl (exp (-2)) * (1 / 2)))) by (apply dbl_ge; [lia|exact X2]).
    assert (Y : dbl (1 / 2 * (1 / 2)) = / 4). { replace (1 / 2 * (1 / 2)) with (bpow radix2 (-2)) by (cbn; lra). rewrite D2 by lia. reflexivity. }
    rewrite Y. assert (X4 : bpow radix2 (-6) <= dbl (1 / 2 * dbl (dbl (exp (-2)) * (1 / 2))) + / 4) by lra.
    assert (one : normal 1) by (apply (normal_ge 0); [lia|cbn; lra]).
    assert (half : normal (1 / 2)) by (apply (normal_ge (-1)); [lia|cbn; lra]).
    repeat apply List.Forall_cons; try assumption; try apply List.Forall_nil.
    + right. rewrite Rabs_Ropp, Rabs_pos_eq by lra. apply Rle_trans with (bpow radix2 1); [apply bpow_le; lia|cbn; lra].
    + now apply (normal_ge (-5)).
    + now apply (normal_ge (-6)).
    + apply (normal_ge (-2)); [lia|cbn; lra].
    + now apply (normal_ge (-6)).
    + apply (normal_ge (-6)); [lia|]. apply dbl_ge; [lia|exact X4].
Qed.
