(** C196: the scene does not reflect more than it receives *)
From Coq Require Import Reals List Lra Lia Psatz String FunctionalExtensionality.
From Coquelicot Require Import Coquelicot.
From Verif Require Import Base Sca_Model Int_Model Int_Spec Int_Proofs Int2_Proofs Sca_Props Int_Props RTE_Spec RTE_Proofs RTE2_Proofs RTE3_Proofs RTE_Props RT_Model RT_Spec Nrg_Spec Nrg_Proofs Nrg2_Proofs Nrg3_Proofs.
Local Open Scope R_scope.

(** ** the power that leaves the scene *)
Lemma seen_total o th ph : is_mono o = false ->
  RT_Spec.total (seen_from o th ph) =
  NormBRDF (SRF o) * ((1 - bsf o) * (exp (- (tau (V o) / cos (t_0 o)) - tau (V o) / cos th) * (I0 o * cos (t_0 o) * brdf (SRF o) (param_dict o) (t_0 o) th (p_0 o) ph))
                      + bsf o * (I0 o * cos (t_0 o) * brdf (SRF o) (param_dict o) (t_0 o) th (p_0 o) ph))
  + (1 - bsf o) * (I0 o * omega (V o) * cos (t_0 o) / (cos (t_0 o) + cos th) * (1 - exp (- (tau (V o) / cos (t_0 o)) - tau (V o) / cos th))
                   * p (V o) (param_dict o) (t_0 o) th (p_0 o) ph).
Proof.
  intros H. unfold seen_from, set_t_ex. rewrite H. unfold set_p_ex, is_mono in *. cbn [geometry]. rewrite H.
  unfold RT_Spec.total, surface, volume, brdf_val, p_val, mu_0, mu_ex, t_ex, p_ex, t_0, p_0, is_mono. cbn [geometry]. rewrite H. reflexivity.
Qed.

(** for every direction of the incident beam: what leaves the scene is at most what the surface and the layer send
    upwards of the part of the beam that reaches them *)
Theorem C196_bound : forall o e r u, physical o -> nonneg_scene o -> leaves o e -> reflects o r -> scatters_up o u ->
  e <= arrives o *
       (bsf o * (NormBRDF (SRF o) * r)
        + (1 - bsf o) * (exp (- (tau (V o) / cos (t_0 o))) * (NormBRDF (SRF o) * r)
                         + (1 - exp (- (tau (V o) / cos (t_0 o)))) * (omega (V o) * u))).
Proof.
  intros o e r u (Hm & Hi & H0 & Ht & Ho & Hb & Hn) Hpos He Hr Hu. unfold arrives.
  set (E := exp (- (tau (V o) / cos (t_0 o)))).
  replace (I0 o * cos (t_0 o) * (bsf o * (NormBRDF (SRF o) * r) + (1 - bsf o) * (E * (NormBRDF (SRF o) * r) + (1 - E) * (omega (V o) * u))))
    with (I0 o * cos (t_0 o) * (NormBRDF (SRF o) * (bsf o + (1 - bsf o) * E)) * r + I0 o * cos (t_0 o) * ((1 - bsf o) * (1 - E) * omega (V o)) * u) by ring.
  eapply hemi_le; [exact He|apply hemi_lin; [exact Hr|exact Hu]|]. intros th ph Hth. cbv beta. rewrite seen_total by exact Hm.
  destruct (Hpos th ph) as [Bp Pp]. set (B := brdf (SRF o) (param_dict o) (t_0 o) th (p_0 o) ph) in *.
  set (P := p (V o) (param_dict o) (t_0 o) th (p_0 o) ph) in *.
  destruct (removed (tau (V o)) (cos (t_0 o)) (cos th) Ht H0 (proj1 Hth)) as [_ Q]. fold E in Q.
  set (X := exp (- (tau (V o) / cos (t_0 o)) - tau (V o) / cos th)) in *.
  assert (XE : X <= E).
  { unfold X, E. apply exp_le. assert (0 <= tau (V o) / cos th) by (apply Rdiv_le_0_compat; lra). lra. }
  set (m0 := cos (t_0 o)) in *. set (m := cos th) in *. set (b := bsf o) in *. set (N := NormBRDF (SRF o)) in *. set (w := omega (V o)) in *. set (i := I0 o) in *.
  replace (m * (N * ((1 - b) * (X * (i * m0 * B)) + b * (i * m0 * B)) + (1 - b) * (i * w * m0 / (m0 + m) * (1 - X) * P)))
    with (i * m0 * (N * (b + (1 - b) * X)) * (m * B) + i * m0 * ((1 - b) * (/ (m0 + m) * m * (1 - X)) * w) * P) by (field; lra).
  assert (A0 : 0 <= i * m0) by (apply Rmult_le_pos; lra). assert (A1 : 0 <= 1 - b) by lra. assert (A2 : 0 <= m * B) by (apply Rmult_le_pos; lra).
  apply Rplus_le_compat.
  - apply Rmult_le_compat_r; [exact A2|]. apply Rmult_le_compat_l; [exact A0|]. apply Rmult_le_compat_l; [exact Hn|].
    apply Rplus_le_compat_l. apply Rmult_le_compat_l; assumption.
  - apply Rmult_le_compat_r; [exact Pp|]. apply Rmult_le_compat_l; [exact A0|]. apply Rmult_le_compat_r; [exact Ho|].
    apply Rmult_le_compat_l; assumption.
Qed.
Print Assumptions C196_bound.

(** hence: no more than the larger of the two reflectances; and a scene that absorbs, or conserves, the radiation does
    not send back more than arrives *)
Theorem C196_conserved : forall o e r u m, physical o -> nonneg_scene o -> leaves o e -> reflects o r -> scatters_up o u ->
  NormBRDF (SRF o) * r <= m -> omega (V o) * u <= m -> e <= arrives o * m.
Proof.
  intros o e r u m Hp Hpos He Hr Hu Rm Um. pose proof (C196_bound o e r u Hp Hpos He Hr Hu) as X.
  destruct Hp as (Hm & Hi & H0 & Ht & Ho & Hb & Hn). eapply Rle_trans; [exact X|]. unfold arrives.
  apply Rmult_le_compat_l; [apply Rmult_le_pos; lra|].
  assert (T : 0 <= tau (V o) / cos (t_0 o)) by (apply Rdiv_le_0_compat; lra).
  assert (L : 0 < exp (- (tau (V o) / cos (t_0 o))) <= 1). { split; [apply exp_pos|]. rewrite <- exp_0. apply exp_le. lra. }
  set (E := exp (- (tau (V o) / cos (t_0 o)))) in *. set (a := NormBRDF (SRF o) * r) in *. set (c := omega (V o) * u) in *. set (b := bsf o) in *.
  assert (Y : E * a + (1 - E) * c <= m) by nra. nra.
Qed.
Print Assumptions C196_conserved.

(** the integral exists if phase function and BRDF depend continuously on the direction *)
Theorem C196_exists : forall o, physical o -> 0 < tau (V o) ->
  continuous_dir (fun th ph => brdf (SRF o) (param_dict o) (t_0 o) th (p_0 o) ph) ->
  continuous_dir (fun th ph => p (V o) (param_dict o) (t_0 o) th (p_0 o) ph) ->
  exists e r u, leaves o e /\ reflects o r /\ scatters_up o u.
Proof.
  intros o (Hm & Hi & H0 & Ht0 & Ho & Hb & Hn) Ht Cb Cp.
  set (m0 := cos (t_0 o)) in *. set (T := tau (V o)) in *. set (E := exp (- (T / m0))).
  set (B := fun th ph => brdf (SRF o) (param_dict o) (t_0 o) th (p_0 o) ph) in *. set (P := fun th ph => p (V o) (param_dict o) (t_0 o) th (p_0 o) ph) in *.
  set (N := NormBRDF (SRF o)) in *. set (w0 := omega (V o)) in *. set (i := I0 o) in *. set (b := bsf o) in *.
  set (g := fun th ph => i * m0 * (N * b) * (cos th * B th ph) + (i * m0 * (N * (1 - b) * E) * (cos th * att T (cos th) * B th ph)
            + i * m0 * ((1 - b) * w0) * (/ (m0 + cos th) * cos th * (1 + - E * att T (cos th)) * P th ph))).
  assert (Cg : continuous_dir g).
  { unfold g. repeat apply cd_plus.
    - apply (cd_mult (fun _ _ => i * m0 * (N * b))); [apply cd_const|]. apply (cd_mult (fun th _ => cos th)); [apply cos_cd|exact Cb].
    - apply (cd_mult (fun _ _ => i * m0 * (N * (1 - b) * E))); [apply cd_const|].
      apply (cd_mult (fun th _ => cos th * att T (cos th))); [apply catt_cd; exact Ht|exact Cb].
    - apply (cd_mult (fun _ _ => i * m0 * ((1 - b) * w0))); [apply cd_const|].
      apply (cd_mult (fun th _ => / (m0 + cos th) * cos th * (1 + - E * att T (cos th)))); [|exact Cp].
      apply (cd_mult (fun th _ => / (m0 + cos th) * cos th)).
      + apply (cd_mult (fun th _ => / (m0 + cos th))); [|apply cos_cd]. apply (cd_cos (fun x => / (m0 + x))). intros x Hx.
        apply (continuous_comp (fun x => m0 + x) (fun x => / x)); [|apply continuous_Rinv; unfold m0 in *; lra].
        apply (continuous_plus (fun _ => m0) (fun x => x)); [apply continuous_const|apply continuous_id].
      + apply (cd_plus (fun _ _ => 1)); [apply cd_const|]. apply (cd_mult (fun _ _ => - E)); [apply cd_const|apply att_cd; exact Ht]. }
  exists (H g), (H (fun th ph => cos th * B th ph)), (H P). split; [|split].
  - eapply hemi_ext; [|apply (hemi_H g Cg)]. intros th ph Hth. cbv beta. rewrite seen_total by exact Hm. fold T m0 N w0 i b.
    change (brdf (SRF o) (param_dict o) (t_0 o) th (p_0 o) ph) with (B th ph). change (p (V o) (param_dict o) (t_0 o) th (p_0 o) ph) with (P th ph).
    assert (XE : exp (- (T / m0) - T / cos th) = E * att T (cos th)).
    { rewrite att_pos by lra. unfold E. rewrite <- exp_plus. f_equal. unfold Rdiv. ring. }
    rewrite XE. unfold g. field. lra.
  - apply (hemi_H (fun th ph => cos th * B th ph)). apply (cd_mult (fun th _ => cos th)); [apply cos_cd|exact Cb].
  - apply (hemi_H P Cp).
Qed.
Print Assumptions C196_exists.

(** without layer, and on bare soil, the bound is attained *)
Theorem C196_bare : forall o r, physical o -> tau (V o) = 0 \/ bsf o = 1 -> reflects o r ->
  leaves o (arrives o * (NormBRDF (SRF o) * r)).
Proof.
  intros o r (Hm & Hi & H0 & Ht & Ho & Hb & Hn) Hc Hr. unfold leaves.
  replace (arrives o * (NormBRDF (SRF o) * r)) with (arrives o * NormBRDF (SRF o) * r + 0 * r) by ring.
  eapply hemi_ext; [|apply (hemi_lin _ _ r r (arrives o * NormBRDF (SRF o)) 0 Hr Hr)]. intros th ph Hth. cbv beta. rewrite seen_total by exact Hm.
  unfold arrives. destruct Hc as [-> | ->].
  - replace (- (0 / cos (t_0 o)) - 0 / cos th) with 0 by (field; lra). rewrite exp_0. field. lra.
  - field. lra.
Qed.
Print Assumptions C196_bare.

(** ** with the interaction contribution *)
Lemma seen_calc o th ph F1 F2 : is_mono o = false -> 0 < tau (V o) ->
  o_tot (calc_scalar true (seen_from o th ph) (Some F1) (Some F2)) =
  Some (RT_Spec.total (seen_from o th ph) +
        NormBRDF (SRF o) * (1 - bsf o) * (I0 o * cos (t_0 o) * omega (V o) * (exp (- tau (V o) / cos th) * F1 + exp (- tau (V o) / cos (t_0 o)) * F2))).
Proof.
  intros H Ht.
  assert (E : seen_from o th ph = mkRT (I0 o) (geometry o) (gt_0 o) (gp_0 o) th ph (V o) (SRF o) (bsf o) (param_dict o) (nmax o) (cache_mu_0_x o) (cache_mu_ex_x o)).
  { unfold seen_from, set_t_ex. rewrite H. unfold set_p_ex, is_mono in *. cbn [geometry]. rewrite H. reflexivity. }
  rewrite E. unfold calc_scalar. cbn [V]. destruct (Rlt_dec 0 (tau (V o))) as [_|N]; [|contradiction].
  unfold is_mono in H. unfold mk_calc, o_tot, fadd, interaction, flift2, mu_ex, mu_0, t_ex, t_0, is_mono. cbn [geometry V SRF bsf I0 gt_0 gt_ex]. rewrite H. reflexivity.
Qed.

(** what leaves the scene: on bare soil what the surface reflects; elsewhere what the layer scatters up, what it
    scatters down and the surface reflects, and what the surface reflects of the rest *)
Theorem C197_bound : forall o pd f F1 F2 e a u d r, physical o -> 0 < tau (V o) ->
  surface_reflects_at_most o f a -> layer_scatters o pd u d -> factors o pd f F1 F2 -> reflects o r ->
  leaves_all o F1 F2 e ->
  e <= arrives o *
       (bsf o * (NormBRDF (SRF o) * r)
        + (1 - bsf o) * ((1 - exp (- (tau (V o) / cos (t_0 o)))) * omega (V o) * (u + a * d)
                         + exp (- (tau (V o) / cos (t_0 o))) * (NormBRDF (SRF o) * r))).
Proof.
  intros o pd f F1 F2 e a u d r (Hm & Hi & H0 & Ht0 & Ho & Hb & Hn) Ht (Sf & Pf & Eb & Hr1) (Sp & Pp & Pv & Hu & Hd & Hup) HF Hr (tot & Et & He).
  destruct Sf as (lf & Gf & Ef), Sp as (lp & Gp & Ep).
  set (m0 := cos (t_0 o)) in *. set (T := tau (V o)) in *. set (N := NormBRDF (SRF o)) in *. set (w0 := omega (V o)) in *.
  set (t0 := t_0 o) in *. set (p0 := p_0 o) in *. set (E := exp (- (T / m0))).
  assert (Pp' : forall t p t' p', 0 < cos t' < 1 -> 0 <= sum_of_products lp t p t' p') by (intros; rewrite <- Ep; apply Pp).
  assert (Pf' : forall t p t' p', 0 < cos t' < 1 -> 0 <= sum_of_products lf t p t' p') by (intros; rewrite <- Ef; apply Pf).
  assert (Pf0 : forall t p, 0 < cos t < 1 -> 0 <= sum_of_products lf t p t0 p0) by (intros; rewrite <- Ef; apply Pf).
  (* the integrals *)
  assert (Cf0 : continuous_dir (f t0 p0)) by (eapply cd_ext; [intros; symmetry; apply Ef|apply sum_cd_r; exact Gf]).
  assert (Cpd : continuous_dir (pd t0 p0)) by (eapply cd_ext; [intros; symmetry; apply Ep|apply sum_cd_r; exact Gp]).
  assert (Er : r = H (fun th ph => cos th * f t0 p0 th ph)).
  { symmetry. apply H_is. eapply hemi_ext; [|exact Hr]. intros. cbv beta. rewrite Eb. reflexivity. }
  assert (Hr' : is_hemi (fun th ph => cos th * f t0 p0 th ph) r) by (eapply hemi_ext; [|exact Hr]; intros; cbv beta; rewrite Eb; reflexivity).
  set (ra := H (fun th ph => cos th * att T (cos th) * f t0 p0 th ph)).
  assert (Cra : continuous_dir (fun th ph => cos th * att T (cos th) * f t0 p0 th ph)).
  { apply (cd_mult (fun th _ => cos th * att T (cos th))); [apply catt_cd; exact Ht|exact Cf0]. }
  assert (Ew : H (w T lf t0 p0) = r - ra).
  { replace (r - ra) with (1 * r + -1 * ra) by ring. rewrite Er. unfold ra. rewrite <- H_lin; [|apply (cd_mult (fun th _ => cos th)); [apply cos_cd|exact Cf0]|exact Cra].
    apply H_ext. intros th ph _. unfold w. rewrite <- Ef, (proj2 (Pf th ph t0 p0)). ring. }
  assert (Rge : 0 <= r - ra).
  { rewrite <- Ew. apply H_pos; [apply w_cd; assumption|]. intros. apply w_pos; assumption. }
  assert (X1 : H (fun x y => cos x * att T (cos x) * via_surface T m0 lp lf t0 p0 x y) * N <= (1 - E) * a * d).
  { assert (D0 : 0 <= d) by (rewrite <- (H_is _ _ Hd); apply H_pos; [exact Cpd|intros; apply Pp]).
    assert (L : 0 <= 1 - E).
    { assert (E <= 1); [|lra]. unfold E. rewrite <- exp_0. apply exp_le. assert (0 <= T / m0) by (apply Rdiv_le_0_compat; lra). lra. }
    destruct Hn as [Hn|Hn].
    - assert (P0 : N <> 0) by lra.
      assert (Q : forall ts ps, 0 < cos ts -> H (fun x y => cos x * sum_of_products lf ts ps x y) <= a / N).
      { intros ts ps Hs. destruct (Hr1 ts ps Hs) as (q & Q1 & Q2). replace (H _) with q.
        - apply Rmult_le_reg_r with N; [exact Hn|]. replace (a / N * N) with a by (field; exact P0). lra.
        - symmetry. rewrite <- (H_is _ _ Q1). apply H_ext. intros. rewrite Ef. reflexivity. }
      assert (Ra : 0 <= a / N).
      { eapply Rle_trans; [|apply (Q t0 p0 H0)]. apply H_pos; [apply (cd_mult (fun th _ => cos th)); [apply cos_cd|apply sum_cd_r; exact Gf]|].
        intros. apply Rmult_le_pos; [lra|apply Pf'; assumption]. }
      assert (Z := flux_surface T m0 lp lf t0 p0 Ht H0 Gp Gf Pp' Pf' (a / N) d (fun ts ps Hs => Q ts ps (proj1 Hs)) Ra).
      replace ((1 - E) * a * d) with ((1 - E) * (a / N) * d * N) by (field; exact P0). apply Rmult_le_compat_r; [lra|]. apply Z.
      right. rewrite <- (H_is _ _ Hd). apply H_ext. intros. rewrite Ep. reflexivity.
    - destruct (Hr1 t0 p0 H0) as (q & _ & Q). rewrite <- Hn in *. rewrite Rmult_0_r. repeat apply Rmult_le_pos; lra. }
  assert (X2 : w0 * H (via_layer T lp lf t0 p0) <= r - ra).
  { destruct Ho as [Ho|Ho]; [|rewrite <- Ho; lra].
    assert (Z := flux_layer T lp lf t0 p0 Ht Gp Gf Pf0 (/ w0)). rewrite Ew in Z.
    apply Rmult_le_reg_l with (/ w0); [apply Rinv_0_lt_compat; exact Ho|]. rewrite <- Rmult_assoc, Rinv_l, Rmult_1_l by lra. apply Z.
    intros ts ps Hs. destruct (Hup ts ps (proj1 Hs)) as (v & V1 & V2). replace (H _) with v.
    - apply Rmult_le_reg_l with w0; [exact Ho|]. rewrite Rinv_r by lra. exact V2.
    - symmetry. rewrite <- (H_is _ _ V1). apply H_ext. intros. rewrite Ep. reflexivity. }
  set (X := H (fun x y => cos x * att T (cos x) * via_surface T m0 lp lf t0 p0 x y)) in *.
  set (Y := H (via_layer T lp lf t0 p0)) in *. set (i := I0 o) in *. set (b := bsf o) in *.
  (* the bound for every direction *)
  assert (B : e <= 1 * (i * m0 * (N * b) * r + i * m0 * (N * (1 - b) * E) * ra)
                   + 1 * (1 * (i * m0 * ((1 - b) * (1 - E) * w0) * u + i * m0 * ((1 - b) * N * w0) * X) + i * m0 * ((1 - b) * N * w0 * E) * Y)).
  { eapply hemi_le; [exact He| |].
    - apply hemi_lin; [apply hemi_lin|].
      + exact Hr'.
      + apply (hemi_H (fun th ph => cos th * att T (cos th) * f t0 p0 th ph)). exact Cra.
      + apply hemi_lin; [apply hemi_lin|].
        * exact Hu.
        * apply (hemi_H (fun x y => cos x * att T (cos x) * via_surface T m0 lp lf t0 p0 x y)). apply (cd_mult (fun th _ => cos th * att T (cos th))); [apply catt_cd; exact Ht|apply via_surface_cd; assumption].
        * apply hemi_H. apply via_layer_cd; assumption.
    - intros th ph Hth. cbv beta. specialize (Et th ph Hth). rewrite seen_calc in Et by assumption. injection Et as Et. rewrite <- Et. clear Et.
      rewrite seen_total by exact Hm. destruct (HF th ph Hth) as [A1 A2]. fold T t0 p0 in A1, A2 |- *. fold m0 in A1, A2 |- *. fold N w0 i b. rewrite Eb.
      apply F_hemi in A1; [|exact Ht|exact H0|exact Cpd|eapply cd_ext; [intros; symmetry; apply Ef|apply sum_cd_l; exact Gf]].
      apply F_hemi in A2; [|exact Ht|lra|eapply cd_ext; [intros; symmetry; apply Ep|apply sum_cd_r; exact Gp]|eapply cd_ext; [intros; symmetry; apply Ef|apply sum_cd_l; exact Gf]].
      assert (F1e : F1 th ph = via_surface T m0 lp lf t0 p0 th ph).
      { apply Rmult_eq_reg_l with m0; [|lra]. etransitivity; [exact A1|]. unfold via_surface. rewrite <- H_scal.
        - apply H_ext. intros. rewrite Ep, Ef. field. lra.
        - apply (cd_mult (fun ts ps => inner T m0 0 (cos ts) / m0 * sum_of_products lp t0 p0 ts ps)); [apply k0P_cd; assumption|apply sum_cd_l; exact Gf]. }
      assert (F2e : cos th * F2 th ph <= via_layer T lp lf t0 p0 th ph).
      { rewrite A2. eapply Rle_trans; [|apply (flux_layer_point T lp lf t0 p0 Ht Gp Gf Pp' Pf0 (cos th)); lra].
        right. apply H_ext. intros. rewrite Ep, Ef. reflexivity. }
      rewrite F1e. destruct (removed T m0 (cos th) Ht0 H0 (proj1 Hth)) as [_ Q]. fold E in Q.
      assert (XE : exp (- (T / m0) - T / cos th) = E * att T (cos th)).
      { rewrite att_pos by lra. unfold E. rewrite <- exp_plus. f_equal. unfold Rdiv. ring. }
      rewrite XE in *. replace (exp (- T / cos th)) with (att T (cos th)) by (rewrite att_pos by lra; reflexivity).
      replace (exp (- T / m0)) with E by (unfold E; f_equal; unfold Rdiv; ring).
      set (m := cos th) in *. set (A := att T m) in *. set (B := f t0 p0 th ph). set (VS := via_surface T m0 lp lf t0 p0 th ph) in *.
      set (VL := via_layer T lp lf t0 p0 th ph) in *. pose proof (Pv th ph) as P1. set (P := p (V o) (param_dict o) t0 th p0 ph) in *.
      replace (m * (N * ((1 - b) * (E * A * (i * m0 * B)) + b * (i * m0 * B)) + (1 - b) * (i * w0 * m0 / (m0 + m) * (1 - E * A) * P)
                    + N * (1 - b) * (i * m0 * w0 * (A * VS + E * F2 th ph))))
        with (1 * (i * m0 * (N * b) * (m * B) + i * m0 * (N * (1 - b) * E) * (m * A * B))
              + 1 * (1 * (i * m0 * ((1 - b) * (/ (m0 + m) * m * (1 - E * A)) * w0) * P + i * m0 * ((1 - b) * N * w0) * (m * A * VS)) + i * m0 * ((1 - b) * N * w0 * E) * (m * F2 th ph)))
        by (field; lra).
      assert (A0 : 0 <= i * m0) by (apply Rmult_le_pos; lra). assert (A3 : 0 <= 1 - b) by lra. assert (A4 : 0 < E) by apply exp_pos.
      rewrite !(Rmult_1_l (_ + _)). apply Rplus_le_compat_l. apply Rplus_le_compat; [apply Rplus_le_compat_r|].
      + apply Rmult_le_compat_r; [exact P1|]. apply Rmult_le_compat_l; [exact A0|]. apply Rmult_le_compat_r; [exact Ho|]. apply Rmult_le_compat_l; assumption.
      + apply Rmult_le_compat_l; [|exact F2e]. apply Rmult_le_pos; [exact A0|]. repeat apply Rmult_le_pos; lra. }
  eapply Rle_trans; [exact B|]. unfold arrives. fold i t0. change (cos t0) with m0.
  assert (A0 : 0 <= i * m0) by (apply Rmult_le_pos; lra).
  replace (1 * (i * m0 * (N * b) * r + i * m0 * (N * (1 - b) * E) * ra)
           + 1 * (1 * (i * m0 * ((1 - b) * (1 - E) * w0) * u + i * m0 * ((1 - b) * N * w0) * X) + i * m0 * ((1 - b) * N * w0 * E) * Y))
    with (i * m0 * (b * (N * r) + (1 - b) * ((1 - E) * w0 * u + w0 * (X * N) + E * (N * (ra + w0 * Y))))) by ring.
  apply Rmult_le_compat_l; [exact A0|]. apply Rplus_le_compat_l. apply Rmult_le_compat_l; [lra|].
  assert (A4 : 0 < E) by apply exp_pos.
  assert (Z1 : w0 * (X * N) <= w0 * ((1 - E) * a * d)) by (apply Rmult_le_compat_l; assumption).
  assert (Z2 : E * (N * (ra + w0 * Y)) <= E * (N * r)) by (apply Rmult_le_compat_l; [lra|]; apply Rmult_le_compat_l; [exact Hn|lra]).
  lra.
Qed.
Print Assumptions C197_bound.

(** a scene whose surface reflects at most what arrives and whose layer scatters at most what it removes from the beam
    does not send back more than arrives *)
Theorem C197_conserved : forall o pd f F1 F2 e u d, physical o -> 0 < tau (V o) ->
  surface_reflects_at_most o f 1 -> layer_scatters o pd u d -> omega (V o) * (u + d) <= 1 -> factors o pd f F1 F2 ->
  leaves_all o F1 F2 e -> e <= arrives o.
Proof.
  intros o pd f F1 F2 e u d Hp Ht Hs Hl Hw HF He.
  destruct Hs as (A1 & A2 & Eb & A3). pose proof Hp as (Hm & Hi & H0 & Ht0 & Ho & Hb & Hn). destruct (A3 (t_0 o) (p_0 o) H0) as (r & R1 & R2).
  assert (Hr : reflects o r). { eapply hemi_ext; [|exact R1]. intros. cbv beta. rewrite Eb. reflexivity. }
  pose proof (C197_bound o pd f F1 F2 e 1 u d r Hp Ht (conj A1 (conj A2 (conj Eb A3))) Hl HF Hr He) as X.
  eapply Rle_trans; [exact X|]. rewrite <- (Rmult_1_r (arrives o)) at 2. apply Rmult_le_compat_l; [apply Rmult_le_pos; lra|].
  assert (T : 0 <= tau (V o) / cos (t_0 o)) by (apply Rdiv_le_0_compat; lra).
  assert (L : 0 < exp (- (tau (V o) / cos (t_0 o))) <= 1). { split; [apply exp_pos|]. rewrite <- exp_0. apply exp_le. lra. }
  set (E := exp (- (tau (V o) / cos (t_0 o)))) in *. set (c := NormBRDF (SRF o) * r) in *. set (b := bsf o) in *.
  assert (Y : (1 - E) * omega (V o) * (u + 1 * d) + E * c <= 1).
  { assert (omega (V o) * (u + 1 * d) <= 1) by lra. rewrite Rmult_assoc. nra. }
  nra.
Qed.
Print Assumptions C197_conserved.

(** the power that leaves the scene is well defined *)
Theorem C197_exists : forall o pd f F1 F2, physical o -> 0 < tau (V o) -> separable pd -> separable f ->
  (forall th ph, brdf (SRF o) (param_dict o) (t_0 o) th (p_0 o) ph = f (t_0 o) (p_0 o) th ph) ->
  continuous_dir (fun th ph => p (V o) (param_dict o) (t_0 o) th (p_0 o) ph) -> factors o pd f F1 F2 ->
  exists e, leaves_all o F1 F2 e /\ forall e', leaves_all o F1 F2 e' -> e' = e.
Proof.
  intros o pd f F1 F2 (Hm & Hi & H0 & Ht0 & Ho & Hb & Hn) Ht (lp & Gp & Ep) (lf & Gf & Ef) Eb Cp HF.
  set (m0 := cos (t_0 o)) in *. set (T := tau (V o)) in *. set (N := NormBRDF (SRF o)) in *. set (w0 := omega (V o)) in *.
  set (t0 := t_0 o) in *. set (p0 := p_0 o) in *. set (E := exp (- (T / m0))).
  set (tot := fun th ph => RT_Spec.total (seen_from o th ph) +
        N * (1 - bsf o) * (I0 o * m0 * w0 * (exp (- T / cos th) * F1 th ph + exp (- T / m0) * F2 th ph))).
  assert (Cf0 : continuous_dir (f t0 p0)) by (eapply cd_ext; [intros; symmetry; apply Ef|apply sum_cd_r; exact Gf]).
  assert (Cf0' : continuous_dir (fun ts ps => f ts ps t0 p0)) by (eapply cd_ext; [intros; symmetry; apply Ef|apply sum_cd_l; exact Gf]).
  assert (Cpd : continuous_dir (pd t0 p0)) by (eapply cd_ext; [intros; symmetry; apply Ep|apply sum_cd_r; exact Gp]).
  set (i := I0 o) in *. set (b := bsf o) in *. set (P := fun th ph => p (V o) (param_dict o) t0 th p0 ph) in *.
  set (g := fun th ph => i * m0 * (N * b) * (cos th * f t0 p0 th ph) + (i * m0 * (N * (1 - b) * E) * (cos th * att T (cos th) * f t0 p0 th ph)
            + (i * m0 * ((1 - b) * w0) * (/ (m0 + cos th) * cos th * (1 + - E * att T (cos th)) * P th ph)
            + (i * m0 * ((1 - b) * N * w0) * (cos th * att T (cos th) * via_surface T m0 lp lf t0 p0 th ph)
            + i * m0 * ((1 - b) * N * w0 * E) * second T lp (fun ts ps => f ts ps t0 p0) th ph)))).
  assert (Cg : continuous_dir g).
  { unfold g. repeat apply cd_plus.
    - apply (cd_mult (fun _ _ => i * m0 * (N * b))); [apply cd_const|]. apply (cd_mult (fun th _ => cos th)); [apply cos_cd|exact Cf0].
    - apply (cd_mult (fun _ _ => i * m0 * (N * (1 - b) * E))); [apply cd_const|].
      apply (cd_mult (fun th _ => cos th * att T (cos th))); [apply catt_cd; exact Ht|exact Cf0].
    - apply (cd_mult (fun _ _ => i * m0 * ((1 - b) * w0))); [apply cd_const|].
      apply (cd_mult (fun th _ => / (m0 + cos th) * cos th * (1 + - E * att T (cos th)))); [|exact Cp].
      apply (cd_mult (fun th _ => / (m0 + cos th) * cos th)).
      + apply (cd_mult (fun th _ => / (m0 + cos th))); [|apply cos_cd]. apply (cd_cos (fun x => / (m0 + x))). intros x Hx.
        apply (continuous_comp (fun x => m0 + x) (fun x => / x)); [|apply continuous_Rinv; unfold m0 in *; lra].
        apply (continuous_plus (fun _ => m0) (fun x => x)); [apply continuous_const|apply continuous_id].
      + apply (cd_plus (fun _ _ => 1)); [apply cd_const|]. apply (cd_mult (fun _ _ => - E)); [apply cd_const|apply att_cd; exact Ht].
    - apply (cd_mult (fun _ _ => i * m0 * ((1 - b) * N * w0))); [apply cd_const|].
      apply (cd_mult (fun th _ => cos th * att T (cos th))); [apply catt_cd; exact Ht|apply via_surface_cd; assumption].
    - apply (cd_mult (fun _ _ => i * m0 * ((1 - b) * N * w0 * E))); [apply cd_const|]. apply second_cd; assumption. }
  assert (Et : forall th ph, 0 < cos th < 1 -> o_tot (calc_scalar true (seen_from o th ph) (Some (F1 th ph)) (Some (F2 th ph))) = Some (tot th ph)).
  { intros th ph _. apply seen_calc; assumption. }
  assert (Eg : forall th ph, 0 < cos th < 1 -> g th ph = cos th * tot th ph).
  { intros th ph Hth. unfold tot. rewrite seen_total by exact Hm. destruct (HF th ph Hth) as [A1 A2].
    fold T t0 p0 in A1, A2 |- *. fold m0 in A1, A2 |- *. fold N w0 i b. rewrite Eb. change (p (V o) (param_dict o) t0 th p0 ph) with (P th ph).
    apply F_hemi in A1; [|exact Ht|exact H0|exact Cpd|eapply cd_ext; [intros; symmetry; apply Ef|apply sum_cd_l; exact Gf]].
    apply F_hemi in A2; [|exact Ht|lra|eapply cd_ext; [intros; symmetry; apply Ep|apply sum_cd_r; exact Gp]|exact Cf0'].
    assert (F1e : F1 th ph = via_surface T m0 lp lf t0 p0 th ph).
    { apply Rmult_eq_reg_l with m0; [|lra]. etransitivity; [exact A1|]. unfold via_surface. rewrite <- H_scal.
      - apply H_ext. intros. rewrite Ep, Ef. field. lra.
      - apply (cd_mult (fun ts ps => inner T m0 0 (cos ts) / m0 * sum_of_products lp t0 p0 ts ps)); [apply k0P_cd; assumption|apply sum_cd_l; exact Gf]. }
    assert (F2e : second T lp (fun ts ps => f ts ps t0 p0) th ph = cos th * F2 th ph).
    { rewrite A2, second_val by (try assumption; lra). apply H_ext. intros. rewrite Ep. reflexivity. }
    unfold g. rewrite F1e, F2e.
    assert (XE : exp (- (T / m0) - T / cos th) = E * att T (cos th)).
    { rewrite att_pos by lra. unfold E. rewrite <- exp_plus. f_equal. unfold Rdiv. ring. }
    rewrite XE in *. replace (exp (- T / cos th)) with (att T (cos th)) by (rewrite att_pos by lra; reflexivity).
    replace (exp (- T / m0)) with E by (unfold E; f_equal; unfold Rdiv; ring). field. lra. }
  exists (H g). split.
  - exists tot. split; [exact Et|]. eapply hemi_ext; [|apply (hemi_H g Cg)]. exact Eg.
  - intros e' (tot' & Et' & He'). symmetry. apply H_is. eapply hemi_ext; [|exact He']. intros th ph Hth. cbv beta. rewrite Eg by exact Hth.
    f_equal. specialize (Et th ph Hth). specialize (Et' th ph Hth). congruence.
Qed.
Print Assumptions C197_exists.

(** Legendre expansions are finite sums of products, whatever their coefficients *)
Theorem C197_expansions : forall VS SS, separable (V_value VS) /\ separable (S_value SS).
Proof. intros. split; [apply sep_V|apply sep_S]. Qed.
Print Assumptions C197_expansions.

(** hence for what [calc] computes from the expansions *)
Theorem C197_calc : forall expi expn VS SS o F1 F2 u d e, is_expi expi -> is_expn expn -> bounded_obj VS -> bounded_obj SS ->
  physical o -> 0 < tau (V o) -> cos (t_0 o) < 1 ->
  (forall th ph, 0 < cos th < 1 ->
     calc_Fint expi expn VS SS all_variable (tau (V o)) (t_0 o) (p_0 o) th ph = Ok (Fin (F1 th ph)) /\
     calc_Fint expi expn VS SS all_variable (tau (V o)) th ph (t_0 o) (p_0 o) = Ok (Fin (F2 th ph))) ->
  (forall th ph, brdf (SRF o) (param_dict o) (t_0 o) th (p_0 o) ph = S_value SS (t_0 o) (p_0 o) th ph) ->
  (forall t p t' p', 0 <= S_value SS t p t' p') ->
  (forall t p, 0 < cos t -> exists r, is_hemi (fun th ph => cos th * S_value SS t p th ph) r /\ NormBRDF (SRF o) * r <= 1) ->
  layer_scatters o (V_value VS) u d -> omega (V o) * (u + d) <= 1 ->
  leaves_all o F1 F2 e -> e <= arrives o.
Proof.
  intros expi expn VS SS o F1 F2 u d e He Hn HV HS Hp Ht H1 HF Eb Ps Hr Hl Hw Hle.
  pose proof Hp as (_ & _ & H0 & _).
  eapply (C197_conserved o (V_value VS) (S_value SS) F1 F2 e u d); try eassumption.
  - split; [apply sep_S|]. split; [intros; split; [apply Ps|apply S_value_recip]|]. split; [exact Eb|exact Hr].
  - intros th ph Hth. destruct (HF th ph Hth) as [E1 E2].
    pose proof (calc_Fint_value expi expn VS SS all_variable (tau (V o)) (t_0 o) (p_0 o) th ph He Hn HV HS Ht (conj H0 H1)) as X1.
    pose proof (calc_Fint_value expi expn VS SS all_variable (tau (V o)) th ph (t_0 o) (p_0 o) He Hn HV HS Ht Hth) as X2.
    cbn [seen all_variable pick] in X1, X2. destruct X1 as (F1' & Y1 & X1), X2 as (F2' & Y2 & X2).
    rewrite E1 in Y1. rewrite E2 in Y2. injection Y1 as <-. injection Y2 as <-. split; assumption.
Qed.
Print Assumptions C197_calc.

(** ** a Rayleigh layer over a Lambertian surface *)
Lemma lambert_one : is_hemi (fun th _ => cos th * (1 / PI)) 1.
Proof.
  pose proof PI_RGT_0. split; [intros; apply ex_RInt_const|]. apply (is_RInt_ext (fun mu => 2 * mu)).
  - intros mu Hm. rewrite Rmin_left, Rmax_right in Hm by lra. rewrite cos_acos by lra. rewrite RInt_const. change (2 * mu = (2 * PI - 0) * (mu * (1 / PI))). field. lra.
  - replace 1 with (minus (1 ^ 2) (0 ^ 2)) at 2 by (unfold minus, plus, opp; simpl; ring).
    apply (is_RInt_derive (fun x => x ^ 2) (fun x => 2 * x)); [intros; auto_derive; [exact I|ring]|].
    intros x _. apply (continuous_mult (fun _ => 2) (fun x => x)); [apply continuous_const|apply continuous_id].
Qed.
Lemma azimuth_square c s q : is_RInt (fun ph => (c + s * (cos q * cos ph + sin q * sin ph)) ^ 2) 0 (2 * PI) (2 * PI * c ^ 2 + PI * s ^ 2).
Proof.
  set (G := fun ph => c ^ 2 * ph + 2 * c * s * sin (ph - q) + s ^ 2 * (ph / 2 + sin (ph - q) * cos (ph - q) / 2)).
  replace (2 * PI * c ^ 2 + PI * s ^ 2) with (minus (G (2 * PI)) (G 0)).
  - apply (is_RInt_derive G).
    + intros x _. unfold G. auto_derive; [exact I|]. replace (cos q * cos x + sin q * sin x) with (cos (x - q)) by (rewrite cos_minus; ring).
      replace (x + - q) with (x - q) by ring. pose proof (sin2_cos2 (x - q)) as Y. unfold Rsqr in Y.
      assert (Z : sin (x - q) * sin (x - q) = 1 - cos (x - q) * cos (x - q)) by lra. nra.
    + intros x _. apply (ex_derive_continuous (fun ph => (c + s * (cos q * cos ph + sin q * sin ph)) ^ 2)). auto_derive. exact I.
  - unfold minus, plus, opp, G; simpl. replace (2 * PI - q) with (- q + 2 * INR 1 * PI) by (simpl; ring). rewrite sin_period, cos_period.
    replace (0 - q) with (- q) by ring. field.
Qed.
Lemma rayleigh_half k t q : k ^ 2 = 1 -> is_hemi (fun th ph => rayleigh_func (k * cos t * cos th + sin t * sin th * (cos q * cos ph + sin q * sin ph))) (1 / 2).
Proof.
  intros Hk. pose proof PI_RGT_0.
  assert (A : forall mu, 0 < mu < 1 -> is_RInt (fun ph => rayleigh_func (k * cos t * cos (acos mu) + sin t * sin (acos mu) * (cos q * cos ph + sin q * sin ph))) 0 (2 * PI)
     (3 / (16 * PI) * (2 * PI + (2 * PI * (cos t * mu) ^ 2 + PI * (sin t ^ 2 * (1 - mu ^ 2)))))).
  { intros mu Hm. unfold rayleigh_func.
    replace (2 * PI * (cos t * mu) ^ 2 + PI * (sin t ^ 2 * (1 - mu ^ 2))) with (2 * PI * (k * cos t * cos (acos mu)) ^ 2 + PI * (sin t * sin (acos mu)) ^ 2).
    - apply is_RInt_scalR. apply (is_RInt_plus (V := R_NormedModule) (fun _ => 1)); [|apply azimuth_square].
      replace (2 * PI) with (scal (2 * PI - 0) 1) at 2 by (unfold scal; simpl; unfold mult; simpl; ring). apply (is_RInt_const (V := R_NormedModule)).
    - rewrite cos_acos, sin_acos by lra. rewrite (Rpow_mult_distr (sin t)), <- (Rsqr_pow2 (sqrt _)), Rsqr_sqrt by (unfold Rsqr; nra).
      replace ((k * cos t * mu) ^ 2) with (k ^ 2 * (cos t * mu) ^ 2) by ring. rewrite Hk. unfold Rsqr. ring. }
  split; [intros mu Hm; eexists; apply A; exact Hm|].
  set (G := fun m => 3 / (16 * PI) * (2 * PI * m + (2 * PI * cos t ^ 2 * (m ^ 3 / 3) + PI * (sin t ^ 2 * (m - m ^ 3 / 3))))).
  eapply is_RInt_ext_open; [lra|intros mu Hm; symmetry; apply is_RInt_unique, A; exact Hm|].
  replace (1 / 2) with (minus (G 1) (G 0)).
  - apply (is_RInt_derive G).
    + intros x _. unfold G. auto_derive; [exact I|]. field. lra.
    + intros x _. apply (ex_derive_continuous (fun mu => 3 / (16 * PI) * (2 * PI + (2 * PI * (cos t * mu) ^ 2 + PI * (sin t ^ 2 * (1 - mu ^ 2)))))). auto_derive. exact I.
  - unfold minus, plus, opp, G; simpl. pose proof (sin2_cos2 t) as Y. unfold Rsqr in Y.
    replace (3 / (16 * PI) * (2 * PI * 1 + (2 * PI * (cos t * (cos t * 1)) * (1 * (1 * (1 * 1)) / 3) + PI * (sin t * (sin t * 1) * (1 - 1 * (1 * (1 * 1)) / 3)))) +
      - (3 / (16 * PI) * (2 * PI * 0 + (2 * PI * (cos t * (cos t * 1)) * (0 * (0 * (0 * 1)) / 3) + PI * (sin t * (sin t * 1) * (0 - 0 * (0 * (0 * 1)) / 3))))))
      with (3 / 8 + 1 / 8 * (sin t * sin t + cos t * cos t)) by (field; lra). rewrite Y. field.
Qed.

Definition back : avec := A3 (-1) 1 1.
Lemma rl_physical : physical (rl_obj (PI / 3) (PI / 4) 1 (3 / 10) (1 / 2) (1 / 5) (1 / 10) back).
Proof. pose proof cos_PI3. unfold physical, rl_obj, t_0; simpl. repeat split; try lra. Qed.
Lemma rl_up t q : is_hemi (fun th ph => rayleigh_func (scat_angle t th q ph back)) (1 / 2).
Proof.
  eapply hemi_ext; [|apply (rayleigh_half (-1) t q); ring]. intros. cbv beta. f_equal. unfold scat_angle, back. cbn [a0 a1 a2]. ring.
Qed.
Lemma rl_down t q : is_hemi (fun th ph => rayleigh_func (scat_angle t (PI - th) q ph back)) (1 / 2).
Proof.
  eapply hemi_ext; [|apply (rayleigh_half 1 t q); ring]. intros. cbv beta. f_equal. unfold scat_angle, back. cbn [a0 a1 a2].
  rewrite Rtrigo_facts.cos_pi_minus, Rtrigo_facts.sin_pi_minus. ring.
Qed.
Lemma rayleigh_pos x : 0 <= rayleigh_func x.
Proof. unfold rayleigh_func. pose proof PI_RGT_0. apply Rmult_le_pos; [apply Rdiv_le_0_compat; lra|]. pose proof (pow2_ge_0 x). lra. Qed.
Lemma rl_cont t q : continuous_dir (fun th ph => rayleigh_func (scat_angle t th q ph back)).
Proof.
  destruct (sep_scat back) as (l & G & E). unfold rayleigh_func. apply (cd_mult (fun _ _ => 3 / (16 * PI))); [apply cd_const|].
  apply (cd_plus (fun _ _ => 1)); [apply cd_const|]. apply (cd_ext (fun th ph => sum_of_products l t q th ph * sum_of_products l t q th ph)); [intros; rewrite <- E; ring|].
  apply cd_mult; apply sum_cd_r; exact G.
Qed.

(** half of the scattered radiation goes up and the surface reflects a fifth: less than a fifth of the beam comes back
    without interaction contribution *)
Example C196_example : exists e, leaves (rl_obj (PI / 3) (PI / 4) 1 (3 / 10) (1 / 2) (1 / 5) (1 / 10) back) e /\ e <= 1 / 2 * (1 / 4).
Proof.
  set (o := rl_obj _ _ _ _ _ _ _ _). pose proof PI_RGT_0.
  destruct (C196_exists o rl_physical) as (e & r & u & He & _); [simpl; lra|exact (cd_const (1 / PI))|apply rl_cont|].
  exists e. split; [exact He|].
  assert (Hr : reflects o 1) by apply lambert_one. assert (Hu : scatters_up o (1 / 2)) by apply rl_up.
  pose proof (C196_conserved o e 1 (1 / 2) (1 / 4) rl_physical) as X. unfold arrives in X. unfold o, rl_obj, t_0 in X; cbn [I0 gt_0 SRF NormBRDF V omega] in X.
  rewrite cos_PI3 in X. eapply Rle_trans; [apply X; [|exact He|exact Hr|exact Hu|lra|lra]|lra].
  intros th ph. split; [simpl; apply Rdiv_le_0_compat; lra|apply rayleigh_pos].
Qed.

Example C197_example : forall expi expn, is_expi expi -> is_expn expn ->
  let o := rl_obj (PI / 3) (PI / 4) 1 (3 / 10) (1 / 2) (1 / 5) (1 / 10) back in
  let VS := plain_obj rayleigh_ncoefs rayleigh_coefs back in let SS := plain_obj iso_ncoefs iso_coefs back in
  exists F1 F2 e,
    (forall th ph, 0 < cos th < 1 ->
       calc_Fint expi expn VS SS all_variable (1 / 2) (PI / 3) 0 th ph = Ok (Fin (F1 th ph)) /\
       calc_Fint expi expn VS SS all_variable (1 / 2) th ph (PI / 3) 0 = Ok (Fin (F2 th ph))) /\
    leaves_all o F1 F2 e /\ e <= 1 / 2.
Proof.
  intros expi expn He Hn o VS SS. pose proof PI_RGT_0. pose proof cos_PI3 as C3.
  assert (HV : bounded_obj VS) by (apply plain_bounded; unfold rayleigh_ncoefs; lia).
  assert (HS : bounded_obj SS) by (apply plain_bounded; unfold iso_ncoefs; lia).
  set (val := fun x : res num => match x with Ok (Fin v) => v | _ => 0 end).
  set (F1 := fun th ph => val (calc_Fint expi expn VS SS all_variable (1 / 2) (PI / 3) 0 th ph)).
  set (F2 := fun th ph => val (calc_Fint expi expn VS SS all_variable (1 / 2) th ph (PI / 3) 0)).
  assert (HF : forall th ph, 0 < cos th < 1 ->
       (calc_Fint expi expn VS SS all_variable (1 / 2) (PI / 3) 0 th ph = Ok (Fin (F1 th ph)) /\
        calc_Fint expi expn VS SS all_variable (1 / 2) th ph (PI / 3) 0 = Ok (Fin (F2 th ph))) /\
       is_F_int (1 / 2) (cos (PI / 3)) (fun m => azimuth_product (V_value VS (PI / 3) 0) (fun ts ps => S_value SS ts ps th ph) (acos m)) (F1 th ph) /\
       is_F_int (1 / 2) (cos th) (fun m => azimuth_product (V_value VS th ph) (fun ts ps => S_value SS ts ps (PI / 3) 0) (acos m)) (F2 th ph)).
  { intros th ph Hth.
    pose proof (calc_Fint_value expi expn VS SS all_variable (1 / 2) (PI / 3) 0 th ph He Hn HV HS ltac:(lra) ltac:(lra)) as X1.
    pose proof (calc_Fint_value expi expn VS SS all_variable (1 / 2) th ph (PI / 3) 0 He Hn HV HS ltac:(lra) Hth) as X2.
    cbn [seen all_variable pick] in X1, X2. destruct X1 as (v1 & Y1 & X1), X2 as (v2 & Y2 & X2). unfold F1, F2. rewrite Y1, Y2. cbn [val]. auto. }
  assert (QV : forall t p t' p', V_value VS t p t' p' = rayleigh_func (scat_angle t (PI - t') p p' back)).
  { intros. unfold V_value; simpl. rewrite Rplus_0_r. apply (C16_expansions_exact back _ _ _ _ 0 0). }
  assert (QS : forall t p t' p', S_value SS t p t' p' = 1 / PI).
  { intros. unfold S_value; simpl. rewrite Rplus_0_r. apply (C16_expansions_exact back 0 0). }
  destruct (C197_exists o (V_value VS) (S_value SS) F1 F2 rl_physical) as (e & Hle & _).
  - simpl. lra.
  - apply sep_V.
  - apply sep_S.
  - intros. rewrite QS. reflexivity.
  - apply rl_cont.
  - intros th ph Hth. apply HF. exact Hth.
  - exists F1, F2, e. split; [intros; apply HF; assumption|]. split; [exact Hle|].
    replace (1 / 2) with (arrives o) by (unfold arrives, o, rl_obj, t_0; cbn [I0 gt_0]; rewrite C3; ring).
    apply (C197_calc expi expn VS SS o F1 F2 (1 / 2) (1 / 2) e He Hn HV HS rl_physical); [simpl; lra|unfold o, rl_obj, t_0; cbn [gt_0]; lra|intros; apply HF; assumption|intros; rewrite QS; reflexivity| | | | |exact Hle].
    + intros. rewrite QS. apply Rdiv_le_0_compat; lra.
    + intros t q _. exists 1. split; [|simpl; lra]. eapply hemi_ext; [|apply lambert_one]. intros. cbv beta. rewrite QS. reflexivity.
    + split; [apply sep_V|]. split; [intros; rewrite QV; apply rayleigh_pos|]. split; [intros; apply rayleigh_pos|]. split; [apply rl_up|]. split.
      * eapply hemi_ext; [|apply (rl_down (PI / 3) 0)]. intros. cbv beta. rewrite QV. reflexivity.
      * intros t q _. exists (1 / 2). split; [|simpl; lra]. eapply hemi_ext; [|apply (rl_down t q)]. intros. cbv beta. rewrite QV. f_equal.
        unfold scat_angle. rewrite !Rtrigo_facts.cos_pi_minus, !Rtrigo_facts.sin_pi_minus. ring.
    + simpl. lra.
Qed.
