(** Properties C15-C20, C24 and C69-C73: scattering functions and their Legendre expansions. *)
From Coq Require Import Reals List Lra Lia Arith Permutation Psatz.
From Coquelicot Require Import Coquelicot.
From Verif Require Import Base Sca_Model Sca_Spec Leg_Proofs Sca_Proofs Sca2_Proofs Sca3_Proofs.
Import ListNotations.
Local Open Scope R_scope.

(** ** C15 *)
Theorem C15_dot_product : forall t_0 t_ex p_0 p_ex a,
  scat_angle t_0 t_ex p_0 p_ex a = wdot a (dir t_0 p_0) (dir t_ex p_ex).
Proof. exact scat_dot. Qed.
Print Assumptions C15_dot_product.

Theorem C15_bounds : forall t_0 t_ex p_0 p_ex a, unit_weights a ->
  -1 <= scat_angle t_0 t_ex p_0 p_ex a <= 1.
Proof. exact scat_bound. Qed.
Print Assumptions C15_bounds.

Theorem C15_exchange : forall t_0 t_ex p_0 p_ex a,
  scat_angle t_0 t_ex p_0 p_ex a = scat_angle t_ex t_0 p_ex p_0 a.
Proof. intros. unfold scat_angle. ring. Qed.
Print Assumptions C15_exchange.

Theorem C15_rotation : forall t_0 t_ex p_0 p_ex d a, a1 a = a2 a ->
  scat_angle t_0 t_ex (p_0 + d) (p_ex + d) a = scat_angle t_0 t_ex p_0 p_ex a.
Proof.
  intros t_0 t_ex p_0 p_ex d a H. unfold scat_angle. rewrite H, !cos_plus, !sin_plus.
  pose proof (sin2_cos2 d) as D. unfold Rsqr in D.
  replace (a2 a * sin t_0 * sin t_ex * cos p_0 * cos p_ex) with
    (a2 a * sin t_0 * sin t_ex * cos p_0 * cos p_ex * (sin d * sin d + cos d * cos d)) by (rewrite D; ring).
  replace (a2 a * sin t_0 * sin t_ex * sin p_0 * sin p_ex) with
    (a2 a * sin t_0 * sin t_ex * sin p_0 * sin p_ex * (sin d * sin d + cos d * cos d)) by (rewrite D; ring).
  ring.
Qed.
Print Assumptions C15_rotation.

Theorem C15_backscatter : forall t p,
  scat_angle t t p (p + PI) (A3 (-1) 1 1) = -1 /\ scat_angle t t p (p + PI) (A3 1 1 1) = cos (2 * t).
Proof.
  intros t p. unfold scat_angle; simpl. rewrite neg_cos, neg_sin, cos_2a.
  pose proof (sin2_cos2 t) as D. pose proof (sin2_cos2 p) as E. unfold Rsqr in *.
  split.
  - replace (-1 * cos t * cos t + 1 * sin t * sin t * cos p * - cos p + 1 * sin t * sin t * sin p * - sin p)
      with (- (cos t * cos t) - sin t * sin t * (sin p * sin p + cos p * cos p)) by ring. rewrite E. lra.
  - replace (1 * cos t * cos t + 1 * sin t * sin t * cos p * - cos p + 1 * sin t * sin t * sin p * - sin p)
      with (cos t * cos t - sin t * sin t * (sin p * sin p + cos p * cos p)) by ring. rewrite E. ring.
Qed.
Print Assumptions C15_backscatter.

Example C15_example : unit_weights (A3 (-1) 1 1) /\ a1 (A3 (-1) 1 1) = a2 (A3 (-1) 1 1).
Proof. unfold unit_weights; simpl. rewrite Rabs_left, Rabs_R1 by lra. lra. Qed.

(** ** C16 *)
Theorem C16_isotropic_exact : forall NP x, (iso_ncoefs <= NP)%nat -> leg_sum iso_coefs NP x = iso_func x.
Proof.
  intros NP x H. unfold iso_ncoefs in H. rewrite (leg_sum_stop iso_coefs 1 NP x).
  - unfold leg_sum, iso_coefs, iso_func, kron; simpl. rewrite leg_0. ring.
  - intros n Hn. unfold iso_coefs, kron. destruct n; [lia|]. simpl. ring.
  - exact H.
Qed.
Print Assumptions C16_isotropic_exact.

Theorem C16_rayleigh_exact : forall NP x, (rayleigh_ncoefs <= NP)%nat ->
  leg_sum rayleigh_coefs NP x = rayleigh_func x.
Proof.
  intros NP x H. unfold rayleigh_ncoefs in H. rewrite (leg_sum_stop rayleigh_coefs 3 NP x).
  - pose proof (leg_rec 0 x) as L. simpl in L. rewrite leg_0, leg_1 in L.
    unfold leg_sum, rayleigh_coefs, rayleigh_func, kron; simpl. rewrite leg_0, leg_1.
    replace (leg 2 x) with ((3 * x * x - 1) / 2) by lra. pose proof PI_pos. field. lra.
  - intros n Hn. unfold rayleigh_coefs, kron. destruct n as [|[|[|n]]]; try lia. simpl. ring.
  - exact H.
Qed.
Print Assumptions C16_rayleigh_exact.

(** the expansions the objects hand to the interaction term are the scattering functions
    themselves, for every direction *)
Theorem C16_expansions_exact : forall a theta_0 phi_0 theta_s phi_s theta_ex phi_ex,
  legexpansion_V rayleigh_coefs rayleigh_ncoefs a theta_0 phi_0 theta_s phi_s
    = rayleigh_func (scat_angle theta_0 (PI - theta_s) phi_0 phi_s a)
  /\ legexpansion_S iso_coefs iso_ncoefs a theta_s phi_s theta_ex phi_ex = 1 / PI.
Proof.
  intros. unfold legexpansion_V, legexpansion_S. rewrite C16_rayleigh_exact, C16_isotropic_exact by lia.
  rewrite scat_refl_s. split; reflexivity.
Qed.
Print Assumptions C16_expansions_exact.

Example C16_example : leg_sum rayleigh_coefs 5 (1 / 2) = 3 / (16 * PI) * (5 / 4).
Proof. rewrite C16_rayleigh_exact by (unfold rayleigh_ncoefs; lia). unfold rayleigh_func. f_equal. field. Qed.

(** ** C17 *)
Theorem C17_volume_hg_series : forall t x, -1 < t < 1 -> -1 <= x <= 1 ->
  is_lim_seq (fun N => leg_sum (hgV_coefs t) N x) (hgV_func t x).
Proof.
  intros t x Ht Hx. apply leg_sum_lim. pose proof PI_pos as Pp. pose proof (pow15_pos _ (dpos x t Hx Ht)).
  replace (hgV_func t x) with (1 / (4 * PI) * ((1 - t ^ 2) / pow15 (1 + t ^ 2 - 2 * t * x)))
    by (unfold hgV_func; field; lra).
  eapply ser_ext; [|apply ser_scal, hg_series; assumption]. intros n. unfold hgV_coefs. ring.
Qed.
Print Assumptions C17_volume_hg_series.

Theorem C17_surface_hg_series : forall t x, -1 < t < 1 -> -1 <= x <= 1 ->
  is_lim_seq (fun N => leg_sum (hgS_coefs t) N x) (hgS_func t x).
Proof.
  intros t x Ht Hx. apply leg_sum_lim. pose proof PI_pos as Pp. pose proof (pow15_pos _ (dpos x t Hx Ht)).
  replace (hgS_func t x) with (1 / PI * ((1 - t ^ 2) / pow15 (1 + t ^ 2 - 2 * t * x)))
    by (unfold hgS_func; field; lra).
  eapply ser_ext; [|apply ser_scal, hg_series; assumption]. intros n. unfold hgS_coefs. ring.
Qed.
Print Assumptions C17_surface_hg_series.

(** object level: the expansion used by the interaction term converges to the phase function
    for scattering downwards (zenith angle pi - theta_s), resp. to the BRDF *)
Theorem C17_expansions_converge : forall t a theta_0 phi_0 theta_s phi_s theta_ex phi_ex,
  -1 < t < 1 -> unit_weights a ->
  is_lim_seq (fun N => legexpansion_V (hgV_coefs t) N a theta_0 phi_0 theta_s phi_s)
             (hgV_func t (scat_angle theta_0 (PI - theta_s) phi_0 phi_s a))
  /\ is_lim_seq (fun N => legexpansion_S (hgS_coefs t) N a theta_s phi_s theta_ex phi_ex)
             (hgS_func t (scat_angle theta_s theta_ex phi_s phi_ex a)).
Proof.
  intros t a theta_0 phi_0 theta_s phi_s theta_ex phi_ex Ht Ha. split.
  - rewrite <- scat_refl_s. apply C17_volume_hg_series; [exact Ht|apply scat_bound, Ha].
  - apply C17_surface_hg_series; [exact Ht|apply scat_bound, Ha].
Qed.
Print Assumptions C17_expansions_converge.

Example C17_example : -1 < -1/3 < 1 /\ unit_weights (A3 (-1/2) 1 (3/10)).
Proof. unfold unit_weights; simpl. repeat split; try lra; apply Rabs_le; lra. Qed.

(** ** C18 *)
Theorem C18_hgrayleigh_series : forall t x, -1 < t < 1 -> -1 <= x <= 1 ->
  is_lim_seq (fun N => leg_sum (hgray_coefs t) N x) (hgray_func t x).
Proof. intros t x Ht Hx. apply leg_sum_lim, hgray_series; assumption. Qed.
Print Assumptions C18_hgrayleigh_series.

Theorem C18_expansion_converges : forall t a theta_0 phi_0 theta_s phi_s,
  -1 < t < 1 -> unit_weights a ->
  is_lim_seq (fun N => legexpansion_V (hgray_coefs t) N a theta_0 phi_0 theta_s phi_s)
             (hgray_func t (scat_angle theta_0 (PI - theta_s) phi_0 phi_s a)).
Proof.
  intros t a theta_0 phi_0 theta_s phi_s Ht Ha. rewrite <- scat_refl_s.
  apply C18_hgrayleigh_series; [exact Ht|apply scat_bound, Ha].
Qed.
Print Assumptions C18_expansion_converges.

Example C18_example : -1 < 0 < 1 /\ hgray_func 0 1 = 3 / (8 * PI).
Proof.
  split; [lra|]. unfold hgray_func, pow15. replace (1 + 0 ^ 2 - 2 * 0 * 1) with 1 by ring.
  rewrite sqrt_1. pose proof PI_pos. field. lra.
Qed.

(** ** C19 *)
Theorem C19_normalised_cosine : forall t, -1 < t < 1 ->
  2 * PI * RInt rayleigh_func (-1) 1 = 1 /\ 2 * PI * RInt (hgV_func t) (-1) 1 = 1
  /\ 2 * PI * RInt (hgray_func t) (-1) 1 = 1.
Proof.
  intros t Ht. pose proof PI_pos.
  rewrite (is_RInt_unique _ _ _ _ rayleigh_norm), (is_RInt_unique _ _ _ _ (hgV_norm t Ht)),
          (is_RInt_unique _ _ _ _ (hgray_norm t Ht)).
  repeat split; field; lra.
Qed.
Print Assumptions C19_normalised_cosine.

(** the double integral over all exit directions for nadir incidence and a forward-type weight *)
Theorem C19_normalised_sphere : forall t a p_0, -1 < t < 1 -> a0 a = -1 ->
  sphere (fun th phi => rayleigh_func (scat_angle 0 th p_0 phi a)) PI = 1
  /\ sphere (fun th phi => hgV_func t (scat_angle 0 th p_0 phi a)) PI = 1
  /\ sphere (fun th phi => hgray_func t (scat_angle 0 th p_0 phi a)) PI = 1.
Proof.
  intros t a p_0 Ht Ha. repeat split; apply sphere_nadir; try exact Ha.
  - intros x _; apply rayleigh_cont.
  - exact rayleigh_norm.
  - intros x Hx; apply hgV_cont; assumption.
  - apply hgV_norm, Ht.
  - intros x Hx; apply hgray_cont; assumption.
  - apply hgray_norm, Ht.
Qed.
Print Assumptions C19_normalised_sphere.

Example C19_example : -1 < 7/10 < 1 /\ a0 default_a_V = -1.
Proof. simpl. lra. Qed.

(** ** C20 *)
Theorem C20_nadir_reflectance : forall t a p_0,
  t <> 0 -> -1 < t < 1 -> a0 a <> 0 -> Rabs (a0 a) <= 1 ->
  sphere (fun th phi => hgnadir_func t a (scat_angle 0 th p_0 phi a) * cos th) (PI / 2) = 1.
Proof. intros t a p_0 H1 H2 H3 H4. apply nadir_sphere; assumption. Qed.
Print Assumptions C20_nadir_reflectance.

Example C20_example : 1/2 <> 0 /\ -1 < 1/2 < 1 /\ a0 default_a_S <> 0 /\ Rabs (a0 default_a_S) <= 1.
Proof. simpl. rewrite Rabs_R1. repeat split; lra. Qed.

(** ** C24 *)
Theorem C24_function : forall cs t_0 t_ex p_0 p_ex,
  comb_func cs t_0 t_ex p_0 p_ex = wsum (fun c => ch_func c t_0 t_ex p_0 p_ex) cs.
Proof.
  intros. unfold comb_func. rewrite fold_left_sum, wsum_sumR, Rplus_0_l. f_equal. apply map_ext. intros; ring.
Qed.
Print Assumptions C24_function.

(** every component contributes its own coefficients at its own weights a, up to the largest
    ncoefs of the components sharing these weights *)
Theorem C24_expansion : forall cs (m : avec -> nat) theta_0 phi_0 theta_s phi_s theta_ex phi_ex,
  (forall c, In c cs -> largest_ncoefs cs (ch_a c) (m (ch_a c))) ->
  comb_legexpansion_S cs theta_s phi_s theta_ex phi_ex
    = wsum (fun c => legexpansion_S (ch_coefs c) (m (ch_a c)) (ch_a c) theta_s phi_s theta_ex phi_ex) cs
  /\ comb_legexpansion_V cs theta_0 phi_0 theta_s phi_s
    = wsum (fun c => legexpansion_V (ch_coefs c) (m (ch_a c)) (ch_a c) theta_0 phi_0 theta_s phi_s) cs.
Proof.
  intros cs m theta_0 phi_0 theta_s phi_s theta_ex phi_ex Hm.
  unfold comb_legexpansion_S, comb_legexpansion_V. rewrite !comb_leg_sum, !wsum_sumR.
  split; f_equal; apply map_ext_in; intros c Hc; rewrite (largest_unique cs c _ Hc (Hm c Hc)); reflexivity.
Qed.
Print Assumptions C24_expansion.

(** in particular plain weighted sums when components sharing their weights use the same ncoefs *)
Theorem C24_expansion_plain : forall cs theta_0 phi_0 theta_s phi_s theta_ex phi_ex,
  (forall c d, In c cs -> In d cs -> ch_a c = ch_a d -> ch_ncoefs c = ch_ncoefs d) ->
  comb_legexpansion_S cs theta_s phi_s theta_ex phi_ex
    = wsum (fun c => legexpansion_S (ch_coefs c) (ch_ncoefs c) (ch_a c) theta_s phi_s theta_ex phi_ex) cs
  /\ comb_legexpansion_V cs theta_0 phi_0 theta_s phi_s
    = wsum (fun c => legexpansion_V (ch_coefs c) (ch_ncoefs c) (ch_a c) theta_0 phi_0 theta_s phi_s) cs.
Proof.
  intros cs theta_0 phi_0 theta_s phi_s theta_ex phi_ex Hn.
  unfold comb_legexpansion_S, comb_legexpansion_V. rewrite !comb_leg_sum, !wsum_sumR.
  assert (L : forall c, In c cs -> max_ncoefs (same_a cs (ch_a c)) = ch_ncoefs c).
  { intros c Hc. apply largest_unique; [exact Hc|]. split.
    - exists c. auto.
    - intros d Hd E. rewrite (Hn d c Hd Hc E). lia. }
  split; f_equal; apply map_ext_in; intros c Hc; rewrite (L c Hc); reflexivity.
Qed.
Print Assumptions C24_expansion_plain.

Theorem C24_order_independent : forall cs cs' t_0 t_ex p_0 p_ex, Permutation cs cs' ->
  comb_func cs t_0 t_ex p_0 p_ex = comb_func cs' t_0 t_ex p_0 p_ex
  /\ comb_legexpansion_S cs t_0 p_0 t_ex p_ex = comb_legexpansion_S cs' t_0 p_0 t_ex p_ex
  /\ comb_legexpansion_V cs t_0 p_0 t_ex p_ex = comb_legexpansion_V cs' t_0 p_0 t_ex p_ex
  /\ comb_ncoefs cs = comb_ncoefs cs'.
Proof.
  intros cs cs' t_0 t_ex p_0 p_ex H. repeat split.
  - rewrite !C24_function, !wsum_sumR. apply sumR_perm, Permutation_map, H.
  - unfold comb_legexpansion_S. rewrite !comb_leg_sum.
    etransitivity; [apply sumR_perm, Permutation_map, H|]. f_equal. apply map_ext. intros c.
    rewrite (max_ncoefs_perm (same_a cs (ch_a c)) (same_a cs' (ch_a c))); [reflexivity|apply filter_perm, H].
  - unfold comb_legexpansion_V. rewrite !comb_leg_sum.
    etransitivity; [apply sumR_perm, Permutation_map, H|]. f_equal. apply map_ext. intros c.
    rewrite (max_ncoefs_perm (same_a cs (ch_a c)) (same_a cs' (ch_a c))); [reflexivity|apply filter_perm, H].
  - unfold comb_ncoefs. destruct cs, cs'; try reflexivity.
    + apply Permutation_nil in H. discriminate.
    + apply Permutation_sym, Permutation_nil in H. discriminate.
    + f_equal. apply max_ncoefs_perm, H.
Qed.
Print Assumptions C24_order_independent.

Example C24_example :
  let A := A3 1 1 1 in let B := A3 (1/2) 1 1 in
  let cs := [Choice (1/4) A 3 (hgS_coefs (1/2)) (fun _ _ _ _ => 0);
             Choice (1/4) B 7 (hgS_coefs (1/3)) (fun _ _ _ _ => 0);
             Choice (1/2) A 3 iso_coefs (fun _ _ _ _ => 0)] in
  forall c d, In c cs -> In d cs -> ch_a c = ch_a d -> ch_ncoefs c = ch_ncoefs d.
Proof.
  intros A B cs c d Hc Hd E. unfold cs in *. simpl in Hc, Hd.
  destruct Hc as [<-|[<-|[<-|[]]]], Hd as [<-|[<-|[<-|[]]]]; try reflexivity; simpl in E;
    unfold A, B in E; injection E; intros; lra.
Qed.

(** ** C69: 'f' in the geometry string needs a single value of that angle *)
Theorem C69_fixed_angle_partial : forall g0 g1 g2 g3 t_0 t_ex p_0 p_ex r,
  resolve_geometry g0 g1 g2 g3 t_0 t_ex p_0 p_ex = Ok r ->
  (g3 = GF -> forall x y, In x p_ex -> In y p_ex -> x = y) ->
  let '(th0, thex, ph0, phex) := r in
  forall i a b c d, nth_error t_0 i = Some a -> nth_error t_ex i = Some b ->
    nth_error p_0 i = Some c -> nth_error p_ex i = Some d ->
    angle_at th0 t_0 i = Some a /\ angle_at thex t_ex i = Some b
    /\ angle_at ph0 p_0 i = Some c /\ angle_at phex p_ex i = Some d.
Proof.
  intros g0 g1 g2 g3 t_0 t_ex p_0 p_ex r H Hp.
  assert (Min : forall v, v <> [] -> In (minimum v) v).
  { intros [|x v] Hv; [congruence|]. clear Hv. simpl. revert x. induction v as [|y v IH]; intros x; [left; reflexivity|].
    simpl. destruct (IH (Rmin x y)) as [E|E]; [|right; right; exact E].
    unfold Rmin in E at 1. rewrite <- E. destruct (Rle_dec x y); auto. }
  assert (Sing : forall v, single_value v = true -> forall x y, In x v -> In y v -> x = y).
  { intros v Hs x y Hx Hy. unfold single_value in Hs. apply (nodup_In Req_EM_T) in Hx. apply (nodup_In Req_EM_T) in Hy.
    destruct (nodup Req_EM_T v) as [|z [|w u]]; try discriminate. simpl in *. destruct Hx as [<-|[]], Hy as [<-|[]]. reflexivity. }
  assert (Res : forall g v ch f i a, resolve g v ch = Ok f ->
     (g = GF -> forall x y, In x v -> In y v -> x = y) -> nth_error v i = Some a -> angle_at f v i = Some a).
  { intros g v ch f i a Hr Hs Ha. destruct g; simpl in Hr; try discriminate.
    - injection Hr as <-. exact Ha.
    - destruct (single_value ch); [|discriminate]. injection Hr as <-. simpl. f_equal.
      apply (Hs eq_refl); [apply Min; intros ->; destruct i; discriminate|eapply nth_error_In, Ha]. }
  assert (Chk : forall g v f, resolve g v v = Ok f -> g = GF -> forall x y, In x v -> In y v -> x = y).
  { intros g v f Hr -> x y. simpl in Hr. destruct (single_value v) eqn:E; [|discriminate]. apply (Sing v E). }
  unfold resolve_geometry in H.
  destruct (resolve g0 t_0 t_0) as [f0|] eqn:E0; [|discriminate]. destruct (resolve g1 t_ex t_ex) as [f1|] eqn:E1; [|discriminate].
  destruct (resolve g2 p_0 p_0) as [f2|] eqn:E2; [|discriminate]. destruct (resolve g3 p_ex p_0) as [f3|] eqn:E3; [|discriminate].
  simpl in H. injection H as <-. intros i a b c d Ha Hb Hc Hd. repeat split.
  - eapply Res; [exact E0| |exact Ha]. eapply Chk, E0.
  - eapply Res; [exact E1| |exact Hb]. eapply Chk, E1.
  - eapply Res; [exact E2| |exact Hc]. eapply Chk, E2.
  - eapply Res; [exact E3| exact Hp |exact Hd].
Qed.
Print Assumptions C69_fixed_angle_partial.

(** without the side condition a wrong exit azimuth is used silently *)
Theorem C69_fixed_angle_refuted :
  exists t_0 t_ex p_0 p_ex r i d, resolve_geometry GV GV GF GF t_0 t_ex p_0 p_ex = Ok r /\
    nth_error p_ex i = Some d /\ angle_at (snd r) p_ex i <> Some d.
Proof.
  exists [1/2; 1/2], [1/2; 1/2], [0; 0], [1; 2], (None, None, Some 0, Some (minimum [1; 2])), 1%nat, 2.
  split; [|split; [reflexivity|]].
  - unfold resolve_geometry. simpl. unfold single_value. simpl.
    destruct (Req_EM_T 0 0); [|congruence]. simpl. unfold Rmin. destruct (Rle_dec 0 0); reflexivity.
  - simpl. unfold Rmin. destruct (Rle_dec 1 2); [|lra]. intros E. injection E. lra.
Qed.
Print Assumptions C69_fixed_angle_refuted.

Example C69_example : exists r, resolve_geometry GV GF GF GF [1/2; 1/3] [1/5; 1/5] [0; 0] [3; 3] = Ok r.
Proof.
  unfold resolve_geometry. simpl. unfold single_value. simpl.
  destruct (Req_EM_T (1/5) (1/5)); [|congruence]. simpl. destruct (Req_EM_T 0 0); [|congruence]. simpl. eauto.
Qed.

(** ** C70: cosine-lobe coefficients *)
Theorem C70_coslobe_projection_partial : forall i n, (1 <= i)%nat ->
  coslobe_coefs i n = leg_projection (coslobe_func i) n.
Proof.
  intros i n Hi. unfold leg_projection. rewrite (is_RInt_unique _ _ _ _ (coslobe_int i n Hi)). apply coslobe_coefs_clv.
Qed.
Print Assumptions C70_coslobe_projection_partial.

(** the power 0 is accepted by the constructor, but there the function is the constant 1/pi
    while the coefficients are those of the step function *)
Theorem C70_coslobe_projection_refuted :
  coslobe_coefs 0 0 <> leg_projection (coslobe_func 0) 0.
Proof.
  unfold leg_projection. rewrite coslobe_coefs_clv, clv_0. simpl.
  assert (I : is_RInt (fun x => coslobe_func 0 x * leg 0 x) (-1) 1 ((1 - -1) * (1 / PI))).
  { eapply is_RInt_extR; [lra| |apply is_RInt_constR]. intros x _. unfold coslobe_func. rewrite leg_0. simpl. ring. }
  rewrite (is_RInt_unique _ _ _ _ I). pose proof PI_pos. assert (0 < / PI) by (apply Rinv_0_lt_compat; lra).
  unfold Rdiv. rewrite Rinv_1. lra.
Qed.
Print Assumptions C70_coslobe_projection_refuted.

Example C70_example : coslobe_coefs 1 0 = 1 / 4 * (1 / PI) /\ coslobe_coefs 1 1 = 1 / 2 * (1 / PI).
Proof. rewrite !coslobe_coefs_clv, clv_0, clv_1. simpl. pose proof PI_pos. split; field; lra. Qed.

(** ** C71: Legendre series of HG_nadirnorm *)
Theorem C71_nadirnorm_series : forall t a x, -1 < t < 1 -> -1 <= x <= 1 ->
  is_lim_seq (fun N => leg_sum (hgnadir_coefs t a) N x) (hgnadir_func t a x).
Proof.
  intros t a x Ht Hx. apply leg_sum_lim. pose proof PI_pos as Pp. pose proof (pow15_pos _ (dpos x t Hx Ht)).
  replace (hgnadir_func t a x) with (1 / nadir_hemreflect t a * (1 / PI) * ((1 - t ^ 2) / pow15 (1 + t ^ 2 - 2 * t * x))).
  2:{ unfold hgnadir_func. unfold Rdiv. rewrite (Rinv_mult PI). ring. }
  eapply ser_ext; [|apply ser_scal, hg_series; assumption]. intros n. unfold hgnadir_coefs. ring.
Qed.
Print Assumptions C71_nadirnorm_series.

Example C71_example : -1 < 2/5 < 1 /\ 0 < nadir_hemreflect (2/5) default_a_S.
Proof.
  split; [lra|]. apply (nadir_hem_int (2/5) default_a_S); simpl; lra.
Qed.

(** ** C72: linear combinations can be used in the interaction term *)
Theorem C72_lincomb_surface_usable : forall cs theta_s phi_s theta_ex phi_ex, cs <> [] ->
  exists o n, lincombSRF_init cs = Ok o /\ lc_ncoefs o = Ok n
    /\ (forall c, In c cs -> (ch_ncoefs c <= n)%nat) /\ (exists c, In c cs /\ ch_ncoefs c = n)
    /\ lcS_legexpansion o theta_s phi_s theta_ex phi_ex
       = Ok (comb_legexpansion_S cs theta_s phi_s theta_ex phi_ex).
Proof.
  intros cs theta_s phi_s theta_ex phi_ex H. exists (LC cs (Some (max_ncoefs cs))), (max_ncoefs cs).
  unfold lincombSRF_init, set_legexpansion, comb_ncoefs. destruct cs as [|c cs]; [congruence|]. repeat split.
  - intros d Hd. apply max_ncoefs_le, Hd.
  - apply max_ncoefs_in. discriminate.
Qed.
Print Assumptions C72_lincomb_surface_usable.

Theorem C72_lincomb_volume_refuted : exists cs, cs <> [] /\ exists o, lincombV_init cs = Ok o
  /\ lc_ncoefs o = Err AttributeError
  /\ forall theta_0 phi_0 theta_s phi_s, lcV_legexpansion o theta_0 phi_0 theta_s phi_s = Err AttributeError.
Proof.
  exists [Choice 1 default_a_V 3 rayleigh_coefs (fun t_0 t_ex p_0 p_ex => rayleigh_func (scat_angle t_0 t_ex p_0 p_ex default_a_V))].
  split; [discriminate|]. eexists. split; [reflexivity|]. split; reflexivity.
Qed.
Print Assumptions C72_lincomb_volume_refuted.

(** if the user calls [_set_legexpansion] on the volume combination it works *)
Theorem C72_lincomb_volume_partial : forall cs o theta_0 phi_0 theta_s phi_s, cs <> [] ->
  lincombV_init cs = Ok o -> exists o', set_legexpansion o = Ok o'
  /\ lcV_legexpansion o' theta_0 phi_0 theta_s phi_s = Ok (comb_legexpansion_V cs theta_0 phi_0 theta_s phi_s).
Proof.
  intros cs o theta_0 phi_0 theta_s phi_s H E. assert (E' : o = LC cs None) by (unfold lincombV_init in E; congruence). subst o. unfold set_legexpansion, comb_ncoefs. simpl.
  destruct cs; [congruence|]. eexists. split; reflexivity.
Qed.
Print Assumptions C72_lincomb_volume_partial.

Example C72_example : [Choice 1 default_a_S 1 iso_coefs (fun _ _ _ _ => 1 / PI)] <> [].
Proof. discriminate. Qed.

(** ** C73: changing the attributes of a scattering object takes effect *)
(** volume: evaluation follows the attributes after every history *)
Theorem C73_volume_evaluation_follows : forall t a ops t_0 t_ex p_0 p_ex,
  snd (hgV_step (hg_run hgV_step (hg_new t a) ops) (HEval t_0 t_ex p_0 p_ex))
  = Some (hgV_func (last_t t ops) (scat_angle t_0 t_ex p_0 p_ex (last_a a ops))).
Proof.
  intros. destruct (hg_attrs hgV_step (or_intror eq_refl) ops (hg_new t a)) as [A B].
  simpl in A, B |- *. rewrite A, B. reflexivity.
Qed.
Print Assumptions C73_volume_evaluation_follows.

(** surface: only as long as no evaluation happened before the last assignment *)
Theorem C73_surface_evaluation_partial : forall t a sets evals t_0 t_ex p_0 p_ex,
  (forall op, In op sets -> is_set op = true) -> (forall op, In op evals -> is_set op = false) ->
  snd (hgS_step (hg_run hgS_step (hg_new t a) (sets ++ evals)) (HEval t_0 t_ex p_0 p_ex))
  = Some (hgS_func (last_t t sets) (scat_angle t_0 t_ex p_0 p_ex (last_a a sets))).
Proof.
  intros t a sets evals t_0 t_ex p_0 p_ex Hs He.
  unfold hg_run. rewrite fold_left_app. fold (hg_run hgS_step (hg_new t a) sets).
  destruct (hg_attrs hgS_step (or_introl eq_refl) sets (hg_new t a)) as [A B].
  assert (C : h_func (hg_run hgS_step (hg_new t a) sets) = None).
  { clear A B. assert (G : forall o, h_func o = None -> h_func (hg_run hgS_step o sets) = None); [|apply G; reflexivity].
    induction sets as [|op sets IH]; intros o Ho; [exact Ho|]. unfold hg_run in *. cbn [fold_left]. apply IH.
    - intros; apply Hs; right; assumption.
    - specialize (Hs op (or_introl eq_refl)). destruct op; simpl in *; try discriminate; exact Ho. }
  set (o := hg_run hgS_step (hg_new t a) sets) in *. simpl in A, B.
  assert (Cap : captured o = (last_t t sets, last_a a sets)) by (unfold captured; rewrite C, A, B; reflexivity).
  assert (G : forall l o', (forall op, In op l -> is_set op = false) -> captured (fold_left (fun o op => fst (hgS_step o op)) l o') = captured o').
  { induction l as [|op l IH]; intros o' Hl; [reflexivity|]. cbn [fold_left]. rewrite IH by (intros; apply Hl; right; assumption).
    specialize (Hl op (or_introl eq_refl)). destruct op; simpl in *; try discriminate.
    - destruct (captured o') as [x y] eqn:E. reflexivity.
    - reflexivity. }
  cbn [hgS_step]. rewrite (G evals o He), Cap. reflexivity.
Qed.
Print Assumptions C73_surface_evaluation_partial.

Theorem C73_surface_evaluation_refuted : exists t a ops t_0 t_ex p_0 p_ex,
  snd (hgS_step (hg_run hgS_step (hg_new t a) ops) (HEval t_0 t_ex p_0 p_ex))
  <> Some (hgS_func (last_t t ops) (scat_angle t_0 t_ex p_0 p_ex (last_a a ops))).
Proof.
  exists 0, (A3 1 1 1), [HEval 0 0 0 0; HSetT (1/2)], 0, 0, 0, 0.
  simpl. intros E. injection E. clear E. unfold scat_angle, hgS_func, pow15; simpl. rewrite !cos_0, !sin_0.
  replace (1 + 0 * (0 * 1) - 2 * 0 * (1 * 1 * 1 + 1 * 0 * 0 * 1 * 1 + 1 * 0 * 0 * 0 * 0)) with 1 by ring.
  replace (1 + 1 / 2 * (1 / 2 * 1) - 2 * (1 / 2) * (1 * 1 * 1 + 1 * 0 * 0 * 1 * 1 + 1 * 0 * 0 * 0 * 0)) with ((1/2) * (1/2)) by field.
  rewrite sqrt_1, sqrt_square by lra. pose proof PI_pos.
  replace (1 * (1 - 0 * (0 * 1)) / (PI * (1 * 1))) with (/ PI) by (field; lra).
  replace (1 * (1 - 1 / 2 * (1 / 2 * 1)) / (PI * (1 / 2 * (1 / 2) * (1 / 2)))) with (6 * / PI) by (field; lra).
  assert (0 < / PI) by (apply Rinv_0_lt_compat; lra). lra.
Qed.
Print Assumptions C73_surface_evaluation_refuted.

(** the volume's Legendre coefficients (interaction term) go stale in the same way *)
Theorem C73_volume_coefficients_refuted : exists t a ops n,
  snd (hgV_step (hg_run hgV_step (hg_new t a) ops) (HCoef n)) <> Some (hgV_coefs (last_t t ops) n).
Proof.
  exists 0, (A3 (-1) 1 1), [HCoef 0; HSetT (1/2)], 1%nat.
  change (Some (hgV_coefs 0 1) <> Some (hgV_coefs (1 / 2) 1)). intros E.
  assert (F : hgV_coefs 0 1 = hgV_coefs (1 / 2) 1) by congruence. unfold hgV_coefs in F.
  pose proof PI_pos. assert (0 < / (4 * PI)) by (apply Rinv_0_lt_compat; lra).
  unfold Rdiv in F. rewrite Rmult_1_l in F. simpl INR in F. rewrite !pow_1 in F. nra.
Qed.
Print Assumptions C73_volume_coefficients_refuted.

Example C73_example : (forall op, In op [HSetT (1/3); HSetA (A3 1 1 1)] -> is_set op = true) /\
  (forall op, In op [HEval 1 1 0 PI; HCoef 3] -> is_set op = false).
Proof. split; intros op; simpl; intros [<-|[<-|[]]]; reflexivity. Qed.
