(** C188: vanishing and very dense vegetation *)
From Coq Require Import Reals List Lra Lia.
From Coquelicot Require Import Coquelicot.
From Verif Require Import Base RT_Model RT_Spec Sca_Model Sca_Spec Leg_Proofs Sca_Proofs Sca3_Proofs Int_Model Int_Spec Int2_Proofs Int_Props Cvg_Spec Cvg_Proofs Dns_Spec.
Import ListNotations.
Local Open Scope R_scope.

Lemma kernel_small_lt tau a b : 0 < tau -> 0 < a -> a < b -> b <= 1 ->
  0 <= exp (- tau / b) - exp (- tau / a) <= exp (- tau) * (tau * (b - a) / (a * b)).
Proof.
  intros Ht Ha Hb H1. set (d := tau * (b - a) / (a * b)).
  assert (P : 0 < a * b) by (apply Rmult_lt_0_compat; lra).
  assert (D : 0 <= d) by (apply Rlt_le, Rdiv_lt_0_compat; [apply Rmult_lt_0_compat; lra|exact P]).
  replace (- tau / a) with (- tau / b + - d) by (unfold d; field; lra). rewrite exp_plus.
  assert (E : 1 - d <= exp (- d) <= 1).
  { split; [pose proof (exp_ineq1_le (- d)); lra|]. rewrite <- exp_0. destruct D as [D|D]; [left; apply exp_increasing; lra|right; f_equal; lra]. }
  assert (L : exp (- tau / b) <= exp (- tau)).
  { assert (Q : - tau / b <= - tau). { assert (1 <= / b) by (rewrite <- Rinv_1; apply Rinv_le_contravar; lra). unfold Rdiv. nra. }
    destruct Q as [Q|Q]; [left; apply exp_increasing; exact Q|right; f_equal; exact Q]. }
  pose proof (exp_pos (- tau / b)) as P1. replace (exp (- tau / b) - exp (- tau / b) * exp (- d)) with (exp (- tau / b) * (1 - exp (- d))) by ring. split.
  - apply Rmult_le_pos; lra.
  - apply Rmult_le_compat; lra.
Qed.
Lemma kernel_small tau mu m : 0 < tau -> 0 < mu <= 1 -> 0 <= m <= 1 ->
  Rabs (m / (mu - m) * (exp (- tau / mu) - exp (- tau / m))) <= tau * exp (- tau) / mu.
Proof.
  intros Ht [Hmu Hmu1] [[Hm|Hm] Hm1].
  - destruct (Rtotal_order m mu) as [L|[E|G]].
    + destruct (kernel_small_lt tau m mu Ht Hm L Hmu1) as [A B]. assert (P : 0 < m / (mu - m)) by (apply Rdiv_lt_0_compat; lra).
      rewrite Rabs_right by (apply Rle_ge, Rmult_le_pos; lra).
      apply Rle_trans with (m / (mu - m) * (exp (- tau) * (tau * (mu - m) / (m * mu)))); [apply Rmult_le_compat_l; lra|]. right. field. lra.
    + subst m. rewrite !Rminus_eq_0. rewrite Rmult_0_r, Rabs_R0. pose proof (exp_pos (- tau)). apply Rmult_le_pos; [apply Rmult_le_pos; lra|left; apply Rinv_0_lt_compat; lra].
    + destruct (kernel_small_lt tau mu m Ht Hmu G Hm1) as [A B]. assert (P : 0 < m / (m - mu)) by (apply Rdiv_lt_0_compat; lra).
      replace (m / (mu - m) * (exp (- tau / mu) - exp (- tau / m))) with (m / (m - mu) * (exp (- tau / m) - exp (- tau / mu))) by (field; lra).
      rewrite Rabs_right by (apply Rle_ge, Rmult_le_pos; lra).
      apply Rle_trans with (m / (m - mu) * (exp (- tau) * (tau * (m - mu) / (mu * m)))); [apply Rmult_le_compat_l; lra|]. right. field. lra.
  - subst m. unfold Rdiv. rewrite !Rmult_0_l, Rabs_R0. pose proof (exp_pos (- tau)). apply Rmult_le_pos; [apply Rmult_le_pos; lra|left; apply Rinv_0_lt_compat; lra].
Qed.
Lemma F_int_small tau mu g M F : 0 < tau -> 0 < mu <= 1 -> (forall m, 0 <= m <= 1 -> Rabs (g m) <= M) -> is_F_int tau mu g F ->
  Rabs F <= tau * exp (- tau) / mu * M.
Proof.
  intros Ht Hmu Hg HF. unfold is_F_int in HF. replace (tau * exp (- tau) / mu * M) with ((1 - 0) * (tau * exp (- tau) / mu * M)) by ring.
  refine (norm_RInt_le _ (fun _ => tau * exp (- tau) / mu * M) 0 1 _ _ ltac:(lra) _ HF (is_RInt_constR 0 1 _)).
  intros x Hx. unfold norm; simpl. unfold abs; simpl. rewrite Rabs_mult. apply Rmult_le_compat; try apply Rabs_pos; [apply kernel_small; lra|apply Hg; exact Hx].
Qed.
Lemma azimuth_small V S BV BS t1 p1 t2 p2 ts : bounded_obj V -> bounded_obj S -> bounded_by BV (V_value V) -> bounded_by BS (S_value S) ->
  Rabs (azimuth_product (V_value V t1 p1) (fun ts ps => S_value S ts ps t2 p2) ts) <= 2 * PI * (BV * BS).
Proof.
  intros HV HS B1 B2. pose proof (product_int V S t1 p1 t2 p2 ts HV HS) as I. pose proof PI_pos. unfold azimuth_product.
  match type of I with is_RInt ?f _ _ ?l => assert (E : RInt f 0 (2 * PI) = l) by (apply is_RInt_unique; exact I) end. rewrite E.
  replace (2 * PI * (BV * BS)) with ((2 * PI - 0) * (BV * BS)) by ring.
  refine (norm_RInt_le _ (fun _ => BV * BS) 0 (2 * PI) _ _ ltac:(lra) _ I (is_RInt_constR 0 (2 * PI) (BV * BS))).
  intros x _. unfold norm; simpl. unfold abs; simpl. rewrite Rabs_mult. apply Rmult_le_compat; try apply Rabs_pos; [apply B1|apply B2].
Qed.

(** the interaction term is at most tau exp(-tau) times the bounds of phase function and BRDF *)
Theorem C188_bound : forall expi expn V S BV BS I0 omega tau NormBRDF bsf t_0 p_0 t_ex p_ex,
  is_expi expi -> is_expn expn -> bounded_obj V -> bounded_obj S -> bounded_by BV (V_value V) -> bounded_by BS (S_value S) ->
  0 < tau -> 0 < cos t_0 < 1 -> 0 < cos t_ex < 1 ->
  exists v, interaction expi expn V S all_variable I0 omega tau NormBRDF bsf t_0 p_0 t_ex p_ex = Ok (Fin v) /\
    Rabs v <= Rabs ((1 - bsf) * NormBRDF * I0 * omega) * (2 * PI * (BV * BS)) * (tau * exp (- tau)) *
              (exp (- tau / cos t_ex) + exp (- tau / cos t_0) * cos t_0 / cos t_ex).
Proof.
  intros expi expn V S BV BS I0 omega tau NormBRDF bsf t_0 p_0 t_ex p_ex He Hn HV HS B1 B2 Ht H0 H1.
  destruct (C74_interaction expi expn V S I0 omega tau NormBRDF bsf t_0 p_0 t_ex p_ex He Hn HV HS Ht H0 H1) as [v [E [F1 [F2 [A [B ->]]]]]].
  eexists. split; [exact E|].
  assert (D1 : Rabs F1 <= tau * exp (- tau) / cos t_0 * (2 * PI * (BV * BS))) by (eapply F_int_small; [exact Ht| |intros m _; cbv beta; apply (azimuth_small V S BV BS t_0 p_0 t_ex p_ex (acos m) HV HS B1 B2)|exact A]; lra).
  assert (D2 : Rabs F2 <= tau * exp (- tau) / cos t_ex * (2 * PI * (BV * BS))) by (eapply F_int_small; [exact Ht| |intros m _; cbv beta; apply (azimuth_small V S BV BS t_ex p_ex t_0 p_0 (acos m) HV HS B1 B2)|exact B]; lra).
  set (W := 2 * PI * (BV * BS)) in *. set (T := tau * exp (- tau)) in *. set (a := exp (- tau / cos t_ex)). set (b := exp (- tau / cos t_0)).
  assert (Pa : 0 < a) by apply exp_pos. assert (Pb : 0 < b) by apply exp_pos.
  replace ((1 - bsf) * NormBRDF * I0 * omega * cos t_0 * (a * F1 + b * F2)) with ((1 - bsf) * NormBRDF * I0 * omega * (cos t_0 * (a * F1 + b * F2))) by ring.
  rewrite Rabs_mult, !Rmult_assoc. apply Rmult_le_compat_l; [apply Rabs_pos|].
  rewrite Rabs_mult, (Rabs_right (cos t_0)) by lra.
  apply Rle_trans with (cos t_0 * (a * (T / cos t_0 * W) + b * (T / cos t_ex * W))).
  - apply Rmult_le_compat_l; [lra|]. eapply Rle_trans; [apply Rabs_triang|]. rewrite !Rabs_mult, (Rabs_right a), (Rabs_right b) by lra.
    apply Rplus_le_compat; (apply Rmult_le_compat_l; [lra|assumption]).
  - right. field. lra.
Qed.
Print Assumptions C188_bound.

Lemma leg_sum_weight c N x : -1 <= x <= 1 -> Rabs (leg_sum c N x) <= fold_right Rplus 0 (map (fun n => Rabs (c n)) (seq 0 N)).
Proof.
  intros Hx. unfold leg_sum. induction (seq 0 N) as [|n l IH]; cbn [map fold_right]; [rewrite Rabs_R0; lra|].
  eapply Rle_trans; [apply Rabs_triang|]. apply Rplus_le_compat; [|exact IH]. rewrite Rabs_mult, <- (Rmult_1_r (Rabs (c n))) at 1.
  rewrite Rmult_1_r. rewrite <- (Rmult_1_r (Rabs (c n))) at 2. apply Rmult_le_compat_l; [apply Rabs_pos|apply leg_bound, Hx].
Qed.
(** the objects made from the shipped functions (weights of at most 1) meet the hypotheses *)
Theorem C188_objects : forall s, unit_obj s -> bounded_by (total_weight s) (V_value s) /\ bounded_by (total_weight s) (S_value s).
Proof.
  intros s U. unfold unit_obj in U. unfold total_weight, V_value, S_value. split; intros t1 p1 t2 p2; induction (expansions s) as [|e l IH]; cbn [map fold_right].
  - rewrite Rabs_R0. lra.
  - inversion U; subst. eapply Rle_trans; [apply Rabs_triang|]. apply Rplus_le_compat; [|apply IH; assumption].
    unfold legexpansion_V. rewrite scat_refl_s. apply leg_sum_weight, scat_bound. assumption.
  - rewrite Rabs_R0. lra.
  - inversion U; subst. eapply Rle_trans; [apply Rabs_triang|]. apply Rplus_le_compat; [|apply IH; assumption].
    unfold legexpansion_S. apply leg_sum_weight, scat_bound. assumption.
Qed.
Print Assumptions C188_objects.

(** the total as a function of the optical depth *)
Definition tot_at (o : RT) (F1 F2 : R -> R) (tau : R) : R :=
  NormBRDF (SRF o) * ((1 - bsf o) * (exp (- (tau / cos (t_0 o)) - tau / cos (t_ex o)) * (I0 o * cos (t_0 o) * brdf_val o)) + bsf o * (I0 o * cos (t_0 o) * brdf_val o))
  + (1 - bsf o) * (I0 o * omega (V o) * cos (t_0 o) / (cos (t_0 o) + cos (t_ex o)) * (1 - exp (- (tau / cos (t_0 o)) - tau / cos (t_ex o))) * p_val o)
  + NormBRDF (SRF o) * (1 - bsf o) * (I0 o * cos (t_0 o) * omega (V o) * (exp (- tau / cos (t_ex o)) * F1 tau + exp (- tau / cos (t_0 o)) * F2 tau)).
Lemma tot_at_ok o F1 F2 tau : 0 < tau -> o_tot (calc_scalar true (set_tau o tau) (Some (F1 tau)) (Some (F2 tau))) = Some (tot_at o F1 F2 tau).
Proof. intros H. unfold calc_scalar. cbn [V set_tau set_V RT_Model.tau]. destruct (Rlt_dec 0 tau) as [_|N]; [reflexivity|lra]. Qed.
Lemma factor_small o g1 g2 M F1 F2 tau : 0 < cos (t_0 o) -> 0 < cos (t_ex o) -> factors_of o g1 g2 M F1 F2 -> 0 < tau ->
  Rabs (exp (- tau / cos (t_ex o)) * F1 tau + exp (- tau / cos (t_0 o)) * F2 tau) <= (M / cos (t_0 o) + M / cos (t_ex o)) * (tau * exp (- tau)).
Proof.
  intros H0 H1 [G F] Ht. destruct (F tau Ht) as [A B]. pose proof (COS_bound (t_0 o)) as [_ C0]. pose proof (COS_bound (t_ex o)) as [_ C1].
  assert (D1 := F_int_small tau _ g1 M _ Ht (conj H0 C0) (fun m h => proj1 (G m h)) A). assert (D2 := F_int_small tau _ g2 M _ Ht (conj H1 C1) (fun m h => proj2 (G m h)) B).
  assert (E : forall c, 0 < c -> 0 < exp (- tau / c) <= 1).
  { intros c Hc. split; [apply exp_pos|]. rewrite <- exp_0. left. apply exp_increasing. assert (0 < tau / c) by (apply Rdiv_lt_0_compat; lra). unfold Rdiv in *. lra. }
  destruct (E _ H0) as [E0 E0']. destruct (E _ H1) as [E1 E1']. eapply Rle_trans; [apply Rabs_triang|]. rewrite !Rabs_mult, (Rabs_right (exp (- tau / cos (t_ex o)))), (Rabs_right (exp (- tau / cos (t_0 o)))) by lra.
  replace ((M / cos (t_0 o) + M / cos (t_ex o)) * (tau * exp (- tau))) with (tau * exp (- tau) / cos (t_0 o) * M + tau * exp (- tau) / cos (t_ex o) * M) by (field; lra).
  pose proof (Rabs_pos (F1 tau)). pose proof (Rabs_pos (F2 tau)). apply Rplus_le_compat; (eapply Rle_trans; [|eassumption]);
  (rewrite <- Rmult_1_l; apply Rmult_le_compat_r; lra).
Qed.

(** without vegetation the method [calc] returns the limit of its values for vanishing vegetation: the bare surface *)
Theorem C188_thin : forall o g1 g2 M F1 F2 f1 f2, 0 < cos (t_0 o) -> 0 < cos (t_ex o) -> factors_of o g1 g2 M F1 F2 ->
  exists T, (forall tau, 0 < tau -> o_tot (calc_scalar true (set_tau o tau) (Some (F1 tau)) (Some (F2 tau))) = Some (T tau)) /\
    filterlim T (at_right 0) (locally (bare_surface o)) /\
    o_tot (calc_scalar true (set_tau o 0) f1 f2) = Some (bare_surface o).
Proof.
  intros o g1 g2 M F1 F2 f1 f2 H0 H1 HF. exists (tot_at o F1 F2). split; [intros; apply tot_at_ok; assumption|]. split.
  2:{ unfold calc_scalar. cbn [V set_tau set_V RT_Model.tau]. destruct (Rlt_dec 0 0) as [X|_]; [lra|]. unfold mk_calc, fadd, flift2. cbn [o_tot]. f_equal.
      change (surface (set_tau o 0)) with (NormBRDF (SRF o) * ((1 - bsf o) * (exp (- (0 / cos (t_0 o)) - 0 / cos (t_ex o)) * (I0 o * cos (t_0 o) * brdf_val o)) + bsf o * (I0 o * cos (t_0 o) * brdf_val o))).
      replace (- (0 / cos (t_0 o)) - 0 / cos (t_ex o)) with 0 by (unfold Rdiv; ring). rewrite exp_0. unfold bare_surface. ring. }
  set (e := fun tau => exp (- (tau / cos (t_0 o)) - tau / cos (t_ex o))).
  set (K := Rabs (NormBRDF (SRF o) * (1 - bsf o) * (I0 o * cos (t_0 o) * omega (V o))) * (M / cos (t_0 o) + M / cos (t_ex o))).
  set (S := fun tau => NormBRDF (SRF o) * ((1 - bsf o) * (e tau * (I0 o * cos (t_0 o) * brdf_val o)) + bsf o * (I0 o * cos (t_0 o) * brdf_val o))
     + (1 - bsf o) * (I0 o * omega (V o) * cos (t_0 o) / (cos (t_0 o) + cos (t_ex o)) * (1 - e tau) * p_val o)).
  assert (LS : forall d, continuous (fun tau => S tau + d * (tau * exp (- tau))) 0).
  { intros d. apply (ex_derive_continuous (V := R_NormedModule)). unfold S, e. auto_derive. repeat split; lra. }
  assert (ES : forall d, S 0 + d * (0 * exp (- 0)) = bare_surface o).
  { intros d. unfold S, e, bare_surface. replace (- (0 / cos (t_0 o)) - 0 / cos (t_ex o)) with 0 by (unfold Rdiv; ring). rewrite exp_0. ring. }
  assert (Bd : forall tau, 0 < tau -> S tau + - K * (tau * exp (- tau)) <= tot_at o F1 F2 tau <= S tau + K * (tau * exp (- tau))).
  { intros tau Ht. pose proof (factor_small o g1 g2 M F1 F2 tau H0 H1 HF Ht) as A. set (D := _ + exp (- tau / cos (t_0 o)) * F2 tau) in A.
    unfold tot_at. fold D. change (exp (- (tau / cos (t_0 o)) - tau / cos (t_ex o))) with (e tau).
    set (c := NormBRDF (SRF o) * (1 - bsf o) * (I0 o * cos (t_0 o) * omega (V o))) in *.
    replace (NormBRDF (SRF o) * (1 - bsf o) * (I0 o * cos (t_0 o) * omega (V o) * D)) with (c * D) by (unfold c; ring).
    assert (Q : Rabs (c * D) <= K * (tau * exp (- tau))) by (rewrite Rabs_mult; unfold K; rewrite Rmult_assoc; apply Rmult_le_compat_l; [apply Rabs_pos|exact A]).
    apply Rabs_le_between in Q. change (S tau) with (NormBRDF (SRF o) * ((1 - bsf o) * (e tau * (I0 o * cos (t_0 o) * brdf_val o)) + bsf o * (I0 o * cos (t_0 o) * brdf_val o))
     + (1 - bsf o) * (I0 o * omega (V o) * cos (t_0 o) / (cos (t_0 o) + cos (t_ex o)) * (1 - e tau) * p_val o)). lra. }
  apply (filterlim_le_le (F := at_right 0) (fun tau => S tau + - K * (tau * exp (- tau))) (tot_at o F1 F2) (fun tau => S tau + K * (tau * exp (- tau))) (bare_surface o)).
  - exists (mkposreal 1 Rlt_0_1). intros y _ Hy. apply Bd. exact Hy.
  - rewrite <- (ES (- K)). eapply filterlim_filter_le_1; [apply filter_le_within|apply (LS (- K))].
  - rewrite <- (ES K). eapply filterlim_filter_le_1; [apply filter_le_within|apply (LS K)].
Qed.
Print Assumptions C188_thin.

Lemma fading : is_lim (fun tau => tau * exp (- tau)) p_infty 0.
Proof.
  apply is_lim_ext with (fun tau => - ((- tau) * exp (- tau))); [intros; ring|].
  replace (Finite 0) with (Rbar_opp 0) by (simpl; f_equal; ring). apply is_lim_opp.
  apply (is_lim_comp (fun x => x * exp x) (fun x => - x) p_infty 0 m_infty); [apply is_lim_mul_exp_m| |].
  - replace m_infty with (Rbar_opp p_infty) by reflexivity. apply is_lim_opp, is_lim_id.
  - exists 0. intros y _. discriminate.
Qed.
(** for dense vegetation only the layer and the bare part of the surface are left, exponentially soon *)
Theorem C188_dense : forall o g1 g2 M F1 F2, 0 < cos (t_0 o) -> 0 < cos (t_ex o) -> factors_of o g1 g2 M F1 F2 ->
  exists T, (forall tau, 0 < tau -> o_tot (calc_scalar true (set_tau o tau) (Some (F1 tau)) (Some (F2 tau))) = Some (T tau)) /\
    is_lim T p_infty (bsf o * bare_surface o + (1 - bsf o) * half_space o) /\
    exists K, forall tau, 1 <= tau -> Rabs (T tau - (bsf o * bare_surface o + (1 - bsf o) * half_space o)) <= K * (tau * exp (- tau)).
Proof.
  intros o g1 g2 M F1 F2 H0 H1 HF. exists (tot_at o F1 F2). split; [intros; apply tot_at_ok; assumption|].
  set (L := bsf o * bare_surface o + (1 - bsf o) * half_space o).
  set (c := NormBRDF (SRF o) * (1 - bsf o) * (I0 o * cos (t_0 o) * omega (V o))).
  set (K := Rabs ((1 - bsf o) * (bare_surface o - half_space o)) + Rabs c * (M / cos (t_0 o) + M / cos (t_ex o))).
  assert (B : forall tau, 1 <= tau -> Rabs (tot_at o F1 F2 tau - L) <= K * (tau * exp (- tau))).
  { intros tau Ht. pose proof (factor_small o g1 g2 M F1 F2 tau H0 H1 HF ltac:(lra)) as A. set (D := _ + exp (- tau / cos (t_0 o)) * F2 tau) in A.
    unfold tot_at. fold D. set (e := exp (- (tau / cos (t_0 o)) - tau / cos (t_ex o))).
    match goal with |- Rabs (?x - L) <= _ => replace (x - L) with (e * ((1 - bsf o) * (bare_surface o - half_space o)) + c * D) by (unfold L, bare_surface, half_space, c; field; lra) end.
    assert (E : 0 < e <= tau * exp (- tau)).
    { split; [apply exp_pos|]. pose proof (COS_bound (t_0 o)) as [_ C0]. assert (Q : e <= exp (- tau)).
      { assert (1 <= / cos (t_0 o)) by (rewrite <- Rinv_1; apply Rinv_le_contravar; lra). assert (0 < / cos (t_ex o)) by (apply Rinv_0_lt_compat; lra).
        left. apply exp_increasing. unfold Rdiv. nra. }
      pose proof (exp_pos (- tau)). nra. }
    eapply Rle_trans; [apply Rabs_triang|]. unfold K. rewrite Rmult_plus_distr_r. apply Rplus_le_compat.
    - rewrite Rabs_mult, (Rabs_right e) by lra. rewrite Rmult_comm. apply Rmult_le_compat_l; [apply Rabs_pos|lra].
    - rewrite Rabs_mult, Rmult_assoc. apply Rmult_le_compat_l; [apply Rabs_pos|exact A]. }
  split; [|exists K; exact B].
  apply (is_lim_le_le_loc (fun tau => L - K * (tau * exp (- tau))) (fun tau => L + K * (tau * exp (- tau)))).
  - exists 1. intros tau Ht. specialize (B tau ltac:(lra)). apply Rabs_le_between in B. lra.
  - replace (Finite L) with (Finite (L - K * 0)) by (f_equal; ring). apply is_lim_minus'; [apply is_lim_const|].
    replace (Finite (K * 0)) with (Rbar_mult K 0) by (simpl; f_equal; ring). apply is_lim_scal_l, fading.
  - replace (Finite L) with (Finite (L + K * 0)) by (f_equal; ring). apply is_lim_plus'; [apply is_lim_const|].
    replace (Finite (K * 0)) with (Rbar_mult K 0) by (simpl; f_equal; ring). apply is_lim_scal_l, fading.
Qed.
Print Assumptions C188_dense.

(** the factors that the interaction term of two scattering objects is made of are of this kind *)
Theorem C188_factors : forall expi expn Vs Ss BV BS o, is_expi expi -> is_expn expn -> bounded_obj Vs -> bounded_obj Ss ->
  bounded_by BV (V_value Vs) -> bounded_by BS (S_value Ss) -> 0 < cos (t_0 o) < 1 -> 0 < cos (t_ex o) < 1 ->
  exists g1 g2 F1 F2, factors_of o g1 g2 (2 * PI * (BV * BS)) F1 F2 /\
    forall tau, 0 < tau -> exists v, interaction expi expn Vs Ss all_variable (I0 o) (omega (V o)) tau (NormBRDF (SRF o)) (bsf o) (t_0 o) (p_0 o) (t_ex o) (p_ex o) = Ok (Fin v) /\
      RT_Model.interaction (set_tau o tau) (Some (F1 tau)) (Some (F2 tau)) = Some v.
Proof.
  intros expi expn Vs Ss BV BS o He Hn HV HS B1 B2 H0 H1.
  set (g1 := fun mu => azimuth_product (V_value Vs (t_0 o) (p_0 o)) (fun ts ps => S_value Ss ts ps (t_ex o) (p_ex o)) (acos mu)).
  set (g2 := fun mu => azimuth_product (V_value Vs (t_ex o) (p_ex o)) (fun ts ps => S_value Ss ts ps (t_0 o) (p_0 o)) (acos mu)).
  set (F := fun (c : R) (g : R -> R) tau => RInt (fun mu_s => mu_s / (c - mu_s) * (exp (- tau / c) - exp (- tau / mu_s)) * g mu_s) 0 1).
  assert (U : forall tau c g l, is_F_int tau c g l -> F c g tau = l) by (intros tau c g l H; apply is_RInt_unique; exact H).
  exists g1, g2, (F (cos (t_0 o)) g1), (F (cos (t_ex o)) g2). split; [split|].
  - intros m _. split; [exact (azimuth_small Vs Ss BV BS (t_0 o) (p_0 o) (t_ex o) (p_ex o) (acos m) HV HS B1 B2)|exact (azimuth_small Vs Ss BV BS (t_ex o) (p_ex o) (t_0 o) (p_0 o) (acos m) HV HS B1 B2)].
  - intros tau Ht. destruct (C74_interaction expi expn Vs Ss (I0 o) (omega (V o)) tau (NormBRDF (SRF o)) (bsf o) (t_0 o) (p_0 o) (t_ex o) (p_ex o) He Hn HV HS Ht H0 H1) as [v [E [F1 [F2 [A [B _]]]]]].
    change (is_F_int tau (cos (t_0 o)) g1 F1) in A. change (is_F_int tau (cos (t_ex o)) g2 F2) in B. rewrite (U _ _ _ _ A), (U _ _ _ _ B). split; assumption.
  - intros tau Ht. destruct (C74_interaction expi expn Vs Ss (I0 o) (omega (V o)) tau (NormBRDF (SRF o)) (bsf o) (t_0 o) (p_0 o) (t_ex o) (p_ex o) He Hn HV HS Ht H0 H1) as [v [E [F1 [F2 [A [B ->]]]]]].
    eexists. split; [exact E|]. change (is_F_int tau (cos (t_0 o)) g1 F1) in A. change (is_F_int tau (cos (t_ex o)) g2 F2) in B. rewrite (U _ _ _ _ A), (U _ _ _ _ B). unfold RT_Model.interaction, flift2. f_equal.
    change (mu_0 (set_tau o tau)) with (cos (t_0 o)). change (mu_ex (set_tau o tau)) with (cos (t_ex o)). cbn [V SRF set_tau set_V RT_Model.tau omega bsf I0]. ring.
Qed.
Print Assumptions C188_factors.

(** a Rayleigh layer over a Lambertian surface *)
Example C188_example : unit_obj (plain_obj rayleigh_ncoefs rayleigh_coefs default_a_V) /\ unit_obj (plain_obj iso_ncoefs iso_coefs default_a_S) /\
  bounded_obj (plain_obj rayleigh_ncoefs rayleigh_coefs default_a_V) /\ bounded_obj (plain_obj iso_ncoefs iso_coefs default_a_S) /\
  0 < cos (PI / 3) < 1.
Proof.
  repeat split; try (constructor; [|constructor]); cbn; try lia; try (rewrite cos_PI3; lra);
  unfold unit_weights; cbn; rewrite ?Rabs_Ropp, ?Rabs_R1; repeat split; try lra;
  try (unfold rayleigh_ncoefs, iso_ncoefs; lia); apply Rabs_le; lra.
Qed.
