(** The interaction contribution and the energy balance *)
From Coq Require Import Reals List Lra Psatz.
From Coquelicot Require Import Coquelicot.
From Verif Require Import Int_Spec RTE_Proofs RTE2_Proofs Nrg_Spec Nrg_Proofs.
Local Open Scope R_scope.

Lemma inner_beam tau mx mu : 0 <= tau -> 0 < mx -> 0 <= inner tau mx 0 mu <= mx * (1 - exp (- (tau / mx))).
Proof.
  intros Ht Hx. split; [apply inner_nonneg; lra|].
  assert (X : is_RInt (fun s => exp (- s / mx)) 0 tau (mx * (1 - exp (- (tau / mx))))).
  { replace (mx * (1 - exp (- (tau / mx)))) with (minus (- mx * exp (- tau / mx)) (- mx * exp (- 0 / mx))).
    - apply (is_RInt_derive (fun s => - mx * exp (- s / mx)) (fun s => exp (- s / mx))).
      + intros x _. auto_derive; [exact I|]. unfold Rdiv. field. lra.
      + intros x _. apply exp_cont.
    - unfold minus, plus, opp; simpl. replace (- 0 / mx) with 0 by (field; lra). rewrite exp_0. replace (- (tau / mx)) with (- tau / mx) by (unfold Rdiv; ring). ring. }
  eapply (is_RInt_le (fun s => ker tau mx s mu)); [exact Ht|apply (RInt_correct (V := R_CompleteNormedModule)), inner_ex|exact X|].
  intros s Hs. unfold ker. destruct (att_bounds (tau - s) mu) as [A B]; [lra|]. pose proof (exp_pos (- s / mx)). nra.
Qed.
Lemma inner_exit tau mx mu : 0 <= tau -> 0 < mx -> 0 < mu -> inner tau mx 0 mu <= mu * (1 - att tau mu).
Proof.
  intros Ht Hx Hm. assert (X := int_exp tau mu 0 Hm). rewrite att_pos by exact Hm. rewrite Rminus_0_r in X.
  eapply (is_RInt_le (fun s => ker tau mx s mu)); [exact Ht|apply (RInt_correct (V := R_CompleteNormedModule)), inner_ex|exact X|].
  intros s Hs. unfold ker. rewrite att_pos by exact Hm. pose proof (exp_pos (- (tau - s) / mu)).
  assert (exp (- s / mx) <= 1). { rewrite <- exp_0. apply exp_le. assert (0 <= s / mx) by (apply Rdiv_le_0_compat; lra). unfold Rdiv in *. lra. }
  nra.
Qed.
Lemma att_cd tau : 0 < tau -> continuous_dir (fun th _ => att tau (cos th)).
Proof.
  intros Ht. apply (cd_cos (att tau)). intros x _.
  assert (C : continuity_2d_pt att tau x) by (apply att_continuous2; lra).
  apply filterlim_locally. intros eps. destruct (C eps) as [d Hd]. exists d. intros y Hy.
  unfold ball in *; simpl in *; unfold AbsRing_ball, abs, minus, plus, opp in *; simpl in *. apply Hd; [|exact Hy].
  rewrite Rminus_eq_0, Rabs_R0. apply d.
Qed.
Lemma cos_cd : continuous_dir (fun th _ => cos th).
Proof. apply (cd_cos (fun x => x)). intros. apply continuous_id. Qed.
Lemma inner_cd tau mx : 0 <= tau -> 0 < mx -> continuous_dir (fun th _ => inner tau mx 0 (cos th)).
Proof. intros Ht Hx. apply (cd_cos (inner tau mx 0)). intros x _. apply inner_cont; lra. Qed.

(** the factor F_int as hemispherical integral *)
Lemma F_hemi tau m1 (p f : R -> R -> R) F : 0 < tau -> 0 < m1 -> continuous_dir p -> continuous_dir f ->
  is_F_int tau m1 (fun mu => azimuth_product p f (acos mu)) F ->
  m1 * F = H (fun ts ps => inner tau m1 0 (cos ts) * (p ts ps * f ts ps)).
Proof.
  intros Ht Hm Cp Cf HF. unfold is_F_int in HF. apply (is_RInt_scalR _ _ _ m1) in HF. symmetry.
  assert (C : continuous_dir (fun ts ps => p ts ps * f ts ps)) by (apply cd_mult; assumption).
  assert (Ci : continuous_dir (fun ts ps => inner tau m1 0 (cos ts) * (p ts ps * f ts ps))).
  { apply (cd_mult (fun ts _ => inner tau m1 0 (cos ts))); [apply inner_cd; lra|exact C]. }
  destruct (hemi_H _ Ci) as [_ X]. eapply is_RInt_uniqueR; [exact X|].
  eapply (one_point _ _ 0 1 m1); [lra| |exact HF]. intros mu Hmu Hn. cbv beta. unfold azimuth_product.
  rewrite <- Rmult_assoc, <- inner_closed by (try lra; exact Hn).
  rewrite <- RInt_scalR by (apply (cd_slice (fun ts ps => p ts ps * f ts ps)); [exact C|exact Hmu]).
  apply RInt_ext. intros ph _. rewrite cos_acos by lra. reflexivity.
Qed.

Section Balance.
Variables (tau m0 : R) (lp lf : list ((R -> R -> R) * (R -> R -> R))) (t_0 p_0 : R).
Hypothesis (Ht : 0 < tau) (H0 : 0 < m0) (Gp : good lp) (Gf : good lf).
Let P := sum_of_products lp.
Let f := sum_of_products lf.
Hypothesis (Pp : forall t p t' p', 0 < cos t' < 1 -> 0 <= P t p t' p').
Hypothesis (Pf : forall t p t' p', 0 < cos t' < 1 -> 0 <= f t p t' p').
Hypothesis (Pf0 : forall t p, 0 < cos t < 1 -> 0 <= f t p t_0 p_0).

(** beam - layer - surface - sensor *)
Definition via_surface (x y : R) : R := H (fun ts ps => inner tau m0 0 (cos ts) / m0 * P t_0 p_0 ts ps * f ts ps x y).
Lemma k0P_cd : continuous_dir (fun ts ps => inner tau m0 0 (cos ts) / m0 * P t_0 p_0 ts ps).
Proof.
  apply (cd_mult (fun ts _ => inner tau m0 0 (cos ts) / m0)); [|apply sum_cd_r; exact Gp].
  apply (cd_mult (fun ts _ => inner tau m0 0 (cos ts)) (fun _ _ => / m0)); [apply inner_cd; lra|apply cd_const].
Qed.
Lemma via_surface_cd : continuous_dir via_surface.
Proof. unfold via_surface. apply (H_cd_l _ lf); [apply k0P_cd|exact Gf]. Qed.
Lemma catt_cd : continuous_dir (fun th _ => cos th * att tau (cos th)).
Proof. apply cd_mult; [apply cos_cd|apply att_cd; exact Ht]. Qed.
Lemma flux_surface R1 u : (forall ts ps, 0 < cos ts < 1 -> H (fun x y => cos x * f ts ps x y) <= R1) -> 0 <= R1 -> H (P t_0 p_0) <= u ->
  H (fun x y => cos x * att tau (cos x) * via_surface x y) <= (1 - exp (- (tau / m0))) * R1 * u.
Proof.
  intros HR R1p Hu. unfold via_surface. unfold f. rewrite <- (H_swap _ (fun x _ => cos x * att tau (cos x)) lf k0P_cd catt_cd Gf). fold f.
  assert (L : 0 <= 1 - exp (- (tau / m0))).
  { assert (exp (- (tau / m0)) <= 1); [|lra]. rewrite <- exp_0. apply exp_le. assert (0 <= tau / m0) by (apply Rdiv_le_0_compat; lra). lra. }
  apply Rle_trans with ((1 - exp (- (tau / m0))) * R1 * H (P t_0 p_0)); [|apply Rmult_le_compat_l; [apply Rmult_le_pos; assumption|exact Hu]].
  rewrite <- H_scal by (apply sum_cd_r; exact Gp).
  apply H_le.
  - apply (cd_mult (fun ts ps => inner tau m0 0 (cos ts) / m0 * P t_0 p_0 ts ps)); [apply k0P_cd|apply (H_cd_r _ lf); [apply catt_cd|exact Gf]].
  - apply (cd_mult (fun _ _ => (1 - exp (- (tau / m0))) * R1)); [apply cd_const|apply sum_cd_r; exact Gp].
  - intros ts ps Hs.
    assert (A : 0 <= inner tau m0 0 (cos ts) / m0 <= 1 - exp (- (tau / m0))).
    { destruct (inner_beam tau m0 (cos ts)) as [A B]; [lra|exact H0|]. split; [apply Rdiv_le_0_compat; lra|].
      apply Rmult_le_reg_r with m0; [exact H0|]. replace (inner tau m0 0 (cos ts) / m0 * m0) with (inner tau m0 0 (cos ts)) by (field; lra). lra. }
    assert (B : H (fun x y => cos x * att tau (cos x) * f ts ps x y) <= R1).
    { eapply Rle_trans; [|apply HR; exact Hs]. apply H_le.
      - apply (cd_mult (fun x _ => cos x * att tau (cos x))); [apply catt_cd|apply sum_cd_r; exact Gf].
      - apply (cd_mult (fun x _ => cos x)); [apply cos_cd|apply sum_cd_r; exact Gf].
      - intros x y Hx. destruct (att_bounds tau (cos x)) as [_ B]; [lra|]. specialize (Pf ts ps x y Hx).
        apply Rmult_le_compat_r; [exact Pf|]. nra. }
    assert (C : 0 <= H (fun x y => cos x * att tau (cos x) * f ts ps x y)).
    { apply H_pos.
      - apply (cd_mult (fun x _ => cos x * att tau (cos x))); [apply catt_cd|apply sum_cd_r; exact Gf].
      - intros x y Hx. destruct (att_bounds tau (cos x)) as [B' _]; [lra|]. apply Rmult_le_pos; [apply Rmult_le_pos; lra|apply Pf; exact Hx]. }
    pose proof (Pp t_0 p_0 ts ps Hs) as D. set (k := inner tau m0 0 (cos ts) / m0) in *. set (h := H _) in *.
    replace ((1 - exp (- (tau / m0))) * R1 * P t_0 p_0 ts ps) with ((1 - exp (- (tau / m0))) * P t_0 p_0 ts ps * R1) by ring.
    apply Rmult_le_compat; [apply Rmult_le_pos; lra|exact C| |exact B]. apply Rmult_le_compat_r; lra.
Qed.

(** beam - surface - layer - sensor; [w]: what the layer removes of the radiation from the surface *)
Definition w (ts ps : R) : R := cos ts * (1 - att tau (cos ts)) * f ts ps t_0 p_0.
Lemma w_cd : continuous_dir w.
Proof.
  apply (cd_mult (fun ts _ => cos ts * (1 - att tau (cos ts)))); [|apply sum_cd_l; exact Gf].
  apply (cd_mult (fun ts _ => cos ts)); [apply cos_cd|]. apply (cd_ext (fun ts _ => 1 + -1 * att tau (cos ts))); [intros; ring|].
  apply cd_plus; [apply cd_const|]. apply (cd_mult (fun _ _ => -1)); [apply cd_const|apply att_cd; exact Ht].
Qed.
Definition via_layer (x y : R) : R := H (fun ts ps => w ts ps * P x y ts ps).
Lemma via_layer_cd : continuous_dir via_layer.
Proof. unfold via_layer. apply (H_cd_r w lp); [apply w_cd|exact Gp]. Qed.
Lemma w_pos ts ps : 0 < cos ts < 1 -> 0 <= w ts ps.
Proof.
  intros Hs. unfold w. destruct (att_bounds tau (cos ts)) as [_ B]; [lra|]. apply Rmult_le_pos; [apply Rmult_le_pos; lra|apply Pf0; exact Hs].
Qed.
Lemma flux_layer U : (forall ts ps, 0 < cos ts < 1 -> H (fun x y => P x y ts ps) <= U) ->
  H via_layer <= U * H w.
Proof.
  intros HU. unfold via_layer.
  apply Rle_trans with (H (fun x y => 1 * H (fun ts ps => w ts ps * P x y ts ps))); [right; apply H_ext; intros; ring|].
  unfold P. rewrite (H_swap (fun _ _ => 1) w lp (cd_const 1) w_cd Gp). fold P.
  rewrite <- H_scal by apply w_cd. apply H_le.
  - apply (cd_mult w); [apply w_cd|apply (H_cd_l (fun _ _ => 1) lp); [apply cd_const|exact Gp]].
  - apply (cd_mult (fun _ _ => U)); [apply cd_const|apply w_cd].
  - intros ts ps Hs. rewrite (Rmult_comm U). apply Rmult_le_compat_l; [apply w_pos; exact Hs|].
    eapply Rle_trans; [|apply (HU ts ps Hs)]. right. apply H_ext. intros. unfold P. ring.
Qed.
Lemma flux_layer_point mx x y : 0 < mx ->
  H (fun ts ps => inner tau mx 0 (cos ts) * (P x y ts ps * f ts ps t_0 p_0)) <= via_layer x y.
Proof.
  intros Hx. apply H_le.
  - apply (cd_mult (fun ts _ => inner tau mx 0 (cos ts))); [apply inner_cd; lra|]. apply cd_mult; [apply sum_cd_r; exact Gp|apply sum_cd_l; exact Gf].
  - apply (cd_mult w); [apply w_cd|apply sum_cd_r; exact Gp].
  - intros ts ps Hs. unfold w. pose proof (inner_exit tau mx (cos ts) ltac:(lra) Hx (proj1 Hs)) as A.
    replace (cos ts * (1 - att tau (cos ts)) * f ts ps t_0 p_0 * P x y ts ps) with (cos ts * (1 - att tau (cos ts)) * (P x y ts ps * f ts ps t_0 p_0)) by ring.
    apply Rmult_le_compat_r; [|exact A]. apply Rmult_le_pos; [apply Pp; exact Hs|apply Pf0; exact Hs].
Qed.
End Balance.
