(** C193: values of Legendre expansions *)
From Coq Require Import Reals List ZArith Bool Lia Lra.
From Verif Require Import Base Sca_Model Sca_Spec Leg_Proofs Evp_Model Evp_Spec.
Import ListNotations.
Local Open Scope R_scope.

Lemma scat_wdot t t' p p' a : scat_angle t t' p p' a = wdot a (dir t p) (dir t' p').
Proof. unfold scat_angle, wdot, dir. ring. Qed.
Lemma resolve_one c x y : c <> GOther -> exists f, resolve c [x] [y] = Ok f /\ put f x = x.
Proof.
  intros H. destruct c; [exists None; split; reflexivity| |elim H; reflexivity]. exists (Some x). unfold resolve, single_value. cbn [nodup in_dec minimum fold_left].
  cbn. split; reflexivity.
Qed.
Lemma angles_ok g t_0 t_s p_0 p_s : accepted g -> angles_of g t_0 t_s p_0 p_s = Ok (match g with Mono => (t_0, t_0, p_0, p_0 + PI) | _ => (t_0, t_s, p_0, p_s) end).
Proof.
  destruct g as [|l]; [reflexivity|]. intros [L H]. destruct l as [|c0 [|c1 [|c2 [|c3 l]]]]; try (cbn in L; lia).
  assert (N0 : c0 <> GOther) by (apply (H 0%nat); [lia|reflexivity]). assert (N1 : c1 <> GOther) by (apply (H 1%nat); [lia|reflexivity]).
  assert (N2 : c2 <> GOther) by (apply (H 2%nat); [lia|reflexivity]). assert (N3 : c3 <> GOther) by (apply (H 3%nat); [lia|reflexivity]).
  destruct (resolve_one c0 t_0 t_0 N0) as (f0 & E0 & P0). destruct (resolve_one c1 t_s t_s N1) as (f1 & E1 & P1). destruct (resolve_one c2 p_0 p_0 N2) as (f2 & E2 & P2). destruct (resolve_one c3 p_s p_0 N3) as (f3 & E3 & P3).
  unfold angles_of, char_at. cbn [nth_error bind]. rewrite E0, E1, E2, E3. cbn [bind]. rewrite P0, P1, P2, P3. reflexivity.
Qed.

(** volumes: the value of the phase function for the incidence direction pi - t_0, whatever the geometry *)
Theorem C193_volume : forall coefs ncoefs f a g t_0 t_s p_0 p_s, (0 < ncoefs)%nat -> represents coefs ncoefs f -> accepted g ->
  eval_legpoly_V coefs ncoefs a (Some g) t_0 t_s p_0 p_s = Ok (between_dirs f a (PI - t_0) p_0 t_s p_s).
Proof.
  intros coefs nc f a g t_0 t_s p_0 p_s Hn Hf Ha. unfold eval_legpoly_V. rewrite (proj2 (Nat.ltb_lt 0 nc) Hn), (angles_ok _ _ _ _ _ Ha). unfold between_dirs. rewrite <- scat_wdot, <- Hf.
  destruct g; reflexivity.
Qed.
Print Assumptions C193_volume.
(** surfaces, monostatic geometry: the value between the direction s and the direction back to the sensor *)
Theorem C193_surface_mono : forall coefs ncoefs f a t_0 t_s p_0 p_s, (0 < ncoefs)%nat -> represents coefs ncoefs f ->
  eval_legpoly_S coefs ncoefs a (Some Mono) t_0 t_s p_0 p_s = Ok (between_dirs f a t_s p_s t_0 (p_0 + PI)).
Proof.
  intros coefs nc f a t_0 t_s p_0 p_s Hn Hf. unfold eval_legpoly_S. rewrite (proj2 (Nat.ltb_lt 0 nc) Hn). unfold between_dirs. rewrite <- scat_wdot, <- Hf. reflexivity.
Qed.
Print Assumptions C193_surface_mono.
(** surfaces, other geometries: the value between the direction s and itself; the incidence direction does not enter *)
Theorem C193_surface : forall coefs ncoefs f a l t_0 t_s p_0 p_s, (0 < ncoefs)%nat -> represents coefs ncoefs f -> accepted (Chars l) ->
  eval_legpoly_S coefs ncoefs a (Some (Chars l)) t_0 t_s p_0 p_s = Ok (between_dirs f a t_s p_s t_s p_s).
Proof.
  intros coefs nc f a l t_0 t_s p_0 p_s Hn Hf Ha. unfold eval_legpoly_S. rewrite (proj2 (Nat.ltb_lt 0 nc) Hn), (angles_ok _ _ _ _ _ Ha). unfold between_dirs. rewrite <- scat_wdot, <- Hf. reflexivity.
Qed.
Print Assumptions C193_surface.
(** ... for the default weights: the sum of the coefficients, for all angles *)
Theorem C193_surface_constant : forall coefs ncoefs l t_0 t_s p_0 p_s, (0 < ncoefs)%nat -> accepted (Chars l) ->
  eval_legpoly_S coefs ncoefs (A3 1 1 1) (Some (Chars l)) t_0 t_s p_0 p_s = Ok (fold_right Rplus 0 (map coefs (seq 0 ncoefs))).
Proof.
  intros coefs nc l t_0 t_s p_0 p_s Hn Ha. rewrite (C193_surface coefs nc (leg_sum coefs nc)); [|exact Hn|intros x; reflexivity|exact Ha]. f_equal. unfold between_dirs, wdot, dir. cbn [a0 a1 a2].
  replace (_ + _ + _) with 1 by (pose proof (sin2_cos2 t_s) as A; pose proof (sin2_cos2 p_s) as B; unfold Rsqr in A, B; transitivity (cos t_s * cos t_s + sin t_s * sin t_s * (sin p_s * sin p_s + cos p_s * cos p_s)); [rewrite B; lra|ring]).
  unfold leg_sum. f_equal. apply map_ext. intros n. rewrite leg_at_1. ring.
Qed.
Print Assumptions C193_surface_constant.
(** so it is not the value of the BRDF for the given angles *)
Theorem C193_surface_refuted : exists coefs ncoefs f, represents coefs ncoefs f /\ accepted (Chars [GV; GV; GV; GV]) /\
  exists t_0 t_s p_0 p_s, eval_legpoly_S coefs ncoefs (A3 1 1 1) (Some (Chars [GV; GV; GV; GV])) t_0 t_s p_0 p_s <> Ok (between_dirs f (A3 1 1 1) t_0 p_0 t_s p_s).
Proof.
  assert (R1 : represents (fun n => INR n) 2 (fun x => x)) by (intros x; cbn [seq map fold_right]; rewrite leg_0, leg_1; cbn; ring).
  assert (A : accepted (Chars [GV; GV; GV; GV])). { split; [cbn; lia|]. intros k c _ E D. subst c. destruct k as [|[|[|[|k]]]]; cbn in E; try discriminate. destruct k; discriminate. }
  exists (fun n => INR n), 2%nat, (fun x => x). split; [exact R1|]. split; [exact A|]. exists (PI/2), 0, 0, 0.
  rewrite (C193_surface (fun n => INR n) 2 (fun x => x) (A3 1 1 1) _ (PI/2) 0 0 0 ltac:(lia) R1 A). unfold between_dirs, wdot, dir. cbn [a0 a1 a2]. rewrite cos_PI2, !cos_0, !sin_0. intros E. injection E as E. lra.
Qed.
Print Assumptions C193_surface_refuted.
(** a geometry has to be given, of four characters v and f (or mono) *)
Theorem C193_rejects : forall coefs ncoefs a g t_0 t_s p_0 p_s,
  (exists r, eval_legpoly_S coefs ncoefs a g t_0 t_s p_0 p_s = Ok r) <-> (exists g', g = Some g' /\ accepted g') /\ (0 < ncoefs)%nat.
Proof.
  intros coefs nc a g t_0 t_s p_0 p_s. split.
  - intros (r & E). destruct g as [g|]; [|discriminate E]. unfold eval_legpoly_S in E. destruct (Nat.ltb_spec 0 nc) as [H|H]; [|discriminate E]. split; [|exact H]. exists g. split; [reflexivity|].
    destruct g as [|l]; [exact I|]. assert (B : forall T U (x : res T) (f : T -> res U) s, bind x f = Ok s -> exists t, x = Ok t /\ f t = Ok s) by (intros T U [t|e] f s Q; [exists t; auto|discriminate]).
    apply B in E. destruct E as (ang & E & _). unfold angles_of in E.
    apply B in E. destruct E as (c0 & C0 & E). apply B in E. destruct E as (q0 & Q0 & E). apply B in E. destruct E as (c1 & C1 & E). apply B in E. destruct E as (q1 & Q1 & E).
    apply B in E. destruct E as (c2 & C2 & E). apply B in E. destruct E as (q2 & Q2 & E). apply B in E. destruct E as (c3 & C3 & E). apply B in E. destruct E as (q3 & Q3 & _).
    unfold char_at in *. destruct l as [|d0 [|d1 [|d2 [|d3 l]]]]; try discriminate. cbn in C0, C1, C2, C3. injection C0 as ->. injection C1 as ->. injection C2 as ->. injection C3 as ->.
    split; [cbn; lia|]. intros k c Hk En D. subst c. destruct k as [|[|[|[|k]]]]; cbn in En; try lia; injection En as ->; discriminate.
  - intros [(g' & -> & Ha) Hn]. unfold eval_legpoly_S. rewrite (proj2 (Nat.ltb_lt 0 nc) Hn), (angles_ok _ _ _ _ _ Ha). destruct g'; eexists; reflexivity.
Qed.
Print Assumptions C193_rejects.
(** the isotropic BRDF and the Rayleigh phase function have such expansions *)
Example C193_example : represents iso_coefs iso_ncoefs iso_func /\ represents rayleigh_coefs rayleigh_ncoefs rayleigh_func /\ accepted (Chars [GF; GF; GV; GV]) /\ ~ accepted (Chars [GF; GF]) /\
  eval_legpoly_S iso_coefs iso_ncoefs (A3 1 1 1) None 0 0 0 0 = Err AssertionError.
Proof.
  pose proof PI_RGT_0. split; [|split; [|split; [|split]]].
  - intros x. unfold iso_ncoefs, iso_coefs, iso_func, kron. cbn [seq map fold_right Nat.eqb]. rewrite leg_0. ring.
  - intros x. unfold rayleigh_ncoefs, rayleigh_coefs, rayleigh_func, kron. cbn [seq map fold_right Nat.eqb]. rewrite leg_0, leg_1. unfold leg. cbn. field. lra.
  - split; [cbn; lia|]. intros k c _ E D. subst c. destruct k as [|[|[|[|k]]]]; cbn in E; try discriminate. destruct k; discriminate.
  - intros [L _]. cbn in L. lia.
  - reflexivity.
Qed.
