(** Properties of the interaction term. *)
From Coq Require Import Reals List Lra Lia Arith Bool Psatz.
From Coquelicot Require Import Coquelicot.
From Verif Require Import Base Base_Proofs Sca_Model Sca_Spec Sca_Proofs Sca2_Proofs Sca_Props Int_Model Int_Spec Int_Proofs Ei_Proofs Ei2_Proofs Ei3_Proofs Int2_Proofs Int3_Proofs.
Import ListNotations.
Local Open Scope R_scope.

(** the oracles for scipy.special.expi / expn: the hypotheses [is_expi], [is_expn] of the
    theorems below can be met *)
Example special_functions_exist : exists expi expn, is_expi expi /\ is_expn expn.
Proof. exact special_exist. Qed.

(** ** C14: the numerical factor is the first-order scattering integral *)
Theorem C14_interaction_integral : forall expi expn tau mu fn,
  is_expi expi -> is_expn expn -> 0 < tau -> 0 < mu < 1 ->
  exists terms F,
    bcast fn (map (fun q => nscale (fst q) (snd q))
                  (combine (mu_x (length fn) mu) (S2_mu expi expn (length fn) mu tau))) = Ok terms
    /\ fold_left nadd terms (Fin 0) = Fin F
    /\ is_F_int tau mu (poly_at fn) F.
Proof.
  intros expi expn tau mu fn He Hn Ht Hmu. eexists _, _. rewrite multip_fin by assumption. split; [|split].
  - unfold bcast. rewrite map_length, seq_length, Nat.eqb_refl. rewrite combine_nscale. reflexivity.
  - rewrite fold_nadd, fold_left_right, Rplus_0_l. reflexivity.
  - apply F_int_sum; auto.
Qed.
Print Assumptions C14_interaction_integral.

Example C14_example : exists expi expn terms F,
  bcast [1; 2] (map (fun q => nscale (fst q) (snd q))
                  (combine (mu_x 2 (1 / 2)) (S2_mu expi expn 2 (1 / 2) 1))) = Ok terms
    /\ fold_left nadd terms (Fin 0) = Fin F /\ is_F_int 1 (1 / 2) (fun m => 1 + 2 * m) F.
Proof.
  destruct special_exist as [expi [expn [He Hn]]]. exists expi, expn.
  destruct (C14_interaction_integral expi expn 1 (1 / 2) [1; 2] He Hn ltac:(lra) ltac:(lra)) as [terms [F [A [B D]]]].
  exists terms, F. split; [exact A|]. split; [exact B|]. eapply F_int_ext; [|exact D]. intros m _. simpl. ring.
Qed.

(** ** C21: azimuth averages of cosine powers *)
Theorem C21_cosine_powers : forall i,
  is_RInt (fun phi => cos phi ^ i) 0 (2 * PI) (2 * PI * cosintegral i).
Proof. exact wallis. Qed.
Print Assumptions C21_cosine_powers.

Example C21_example : cosintegral 4 = 3 / 8.
Proof. unfold cosintegral, Binomial.C; simpl. field. Qed.

(** ** C22: azimuth integration of expanded expressions *)
Theorem C22_azimuth_integration : forall N p theta_s phi,
  List.Forall (fun m => (m_sp m + m_cp m <= N)%nat) p ->
  is_RInt (fun phi_s => expr_at p theta_s phi_s) 0 (2 * PI) (2 * PI * expr_at (integrate_phis N p) theta_s phi).
Proof.
  intros N p th ph H. rewrite expr_ev. eapply is_RInt_extR; [pose proof PI_pos; lra| |apply integrate_phis_int, H].
  intros x _. cbv beta. rewrite expr_ev. reflexivity.
Qed.
Print Assumptions C22_azimuth_integration.

(** the degree of the product of the two expansions never exceeds the handled one, so the
    coefficient expression of the code is the azimuth integral of the product *)
Theorem C22_interaction_expansion : forall V S t_0 p_0 t_ex p_ex theta_s phi,
  bounded_obj V -> bounded_obj S ->
  is_RInt (fun phi_s => V_value V t_0 p_0 theta_s phi_s * S_value S theta_s phi_s t_ex p_ex) 0 (2 * PI)
          (expr_at (interaction_expansion V S t_0 p_0 t_ex p_ex) theta_s phi).
Proof. intros. rewrite expr_ev. apply expansion_ok; assumption. Qed.
Print Assumptions C22_interaction_expansion.

(** beyond the handled degree the substitution is wrong *)
Theorem C22_degree_bound_needed : exists N p theta_s phi,
  ~ is_RInt (fun phi_s => expr_at p theta_s phi_s) 0 (2 * PI) (2 * PI * expr_at (integrate_phis N p) theta_s phi).
Proof.
  exists 1%nat, [Mo 1 0 2 0 0], 0, 0. intros H.
  assert (A : is_RInt (fun x => cos x ^ 2) 0 (2 * PI) (2 * PI * cosintegral 2)) by apply wallis.
  assert (B : is_RInt (fun phi_s => expr_at [Mo 1 0 2 0 0] 0 phi_s) 0 (2 * PI) (2 * PI * cosintegral 2)).
  { eapply is_RInt_extR; [pose proof PI_pos; lra| |exact A]. intros x _. unfold expr_at, mono_at; simpl. ring. }
  pose proof (is_RInt_unique _ _ _ _ H) as U. rewrite (is_RInt_unique _ _ _ _ B) in U.
  rewrite expr_ev in U. unfold integrate_phis in U. rewrite ev_drop, ev_pass_cos_drop in U. simpl in U.
  unfold pass_cos in U; simpl in U. rewrite ev_cons, ev_nil in U. unfold mev in U; simpl in U.
  unfold cosintegral, Binomial.C in U; simpl in U. pose proof PI_pos. lra.
Qed.
Print Assumptions C22_degree_bound_needed.

Example C22_example : List.Forall (fun m => (m_sp m + m_cp m <= 3)%nat) [Mo 2 2 1 3 0; Mo (-1) 0 2 2 1].
Proof. repeat constructor. Qed.

(** ** C23: the extracted coefficients re-sum to the expression *)
Theorem C23_extraction : forall N p,
  (1 <= N)%nat ->
  List.Forall (fun m => m_sp m = 0%nat /\ m_cp m = 0%nat /\ m_st m = 0%nat /\ (m_ct m <= N - 1)%nat) p ->
  exists fn, mapM const_value (extract_coefficients N p) = Ok fn
    /\ length fn = Nat.max 2 N
    /\ forall theta_s phi_s, poly_at fn (cos theta_s) = expr_at p theta_s phi_s.
Proof.
  intros N p HN H. exists (map (fun n => csum n p) (seq 0 (Nat.max 2 N))). split; [|split].
  - apply extract_values; [exact HN|]. eapply Forall_impl; [|exact H]. intros m. unfold cos_only. tauto.
  - rewrite map_length, seq_length. reflexivity.
  - intros th ph. rewrite <- horner_poly. unfold horner. rewrite map_length, seq_length, combine_seq_map, map_map. cbn [fst snd].
    rewrite sum_csum.
    + unfold expr_at. f_equal. apply map_ext_in. intros m Hm. rewrite List.Forall_forall in H. destruct (H m Hm) as [A [B [D _]]].
      unfold mono_at. rewrite A, B, D. simpl. ring.
    + eapply Forall_impl; [|exact H]. intros m [_ [_ [_ Hm]]]. cbv beta. lia.
Qed.
Print Assumptions C23_extraction.

(** whole chain: the evaluated fn-coefficients are the coefficients of the azimuth integral *)
Theorem C23_fn_coefficients : forall V S t_0 p_0 t_ex p_ex,
  bounded_obj V -> bounded_obj S ->
  exists fn, fnevals V S all_variable t_0 p_0 t_ex p_ex = Ok fn
    /\ forall theta_s, poly_at fn (cos theta_s)
         = azimuth_product (V_value V t_0 p_0) (fun ts ps => S_value S ts ps t_ex p_ex) theta_s.
Proof.
  intros V S t_0 p_0 t_ex p_ex HV HS. pose proof (fun ths => fn_sum V S all_variable t_0 p_0 t_ex p_ex ths HV HS) as F.
  cbn [seen all_variable pick] in F. destruct (F 0) as [fn [E _]]. exists fn. split; [exact E|]. intros ths.
  destruct (F ths) as [fn' [E' [_ [I _]]]]. assert (fn' = fn) by congruence. subst fn'. rewrite <- horner_poly.
  symmetry. apply is_RInt_unique. exact I.
Qed.
Print Assumptions C23_fn_coefficients.

Example C23_example : exists fn, mapM const_value (extract_coefficients 3 [Mo 5 0 0 0 0; Mo 7 0 0 0 2]) = Ok fn
  /\ length fn = 3%nat.
Proof.
  destruct (C23_extraction 3 [Mo 5 0 0 0 0; Mo 7 0 0 0 2]) as [fn [A [B _]]]; [lia|repeat constructor|].
  exists fn. split; [exact A|]. rewrite B. reflexivity.
Qed.

(** ** C74: interaction() is the first-order interaction term *)
Theorem C74_interaction : forall expi expn V S I0 omega tau NormBRDF bsf t_0 p_0 t_ex p_ex,
  is_expi expi -> is_expn expn -> bounded_obj V -> bounded_obj S ->
  0 < tau -> 0 < cos t_0 < 1 -> 0 < cos t_ex < 1 ->
  exists v, interaction expi expn V S all_variable I0 omega tau NormBRDF bsf t_0 p_0 t_ex p_ex = Ok (Fin v)
    /\ is_interaction (V_value V) (S_value S) I0 omega tau NormBRDF bsf t_0 p_0 t_ex p_ex v.
Proof.
  intros expi expn V S I0 omega tau NormBRDF bsf t_0 p_0 t_ex p_ex He Hn HV HS Ht H0 H1.
  destruct (interaction_value expi expn V S all_variable I0 omega tau NormBRDF bsf t_0 p_0 t_ex p_ex He Hn HV HS Ht H0 H1)
    as [F1 [F2 [A [B E]]]].
  eexists. split; [exact E|]. exists F1, F2. split; [exact A|]. split; [exact B|]. ring.
Qed.
Print Assumptions C74_interaction.

(** Rayleigh phase function over a Lambertian surface: the exact functions, no truncation *)
Theorem C74_rayleigh_lambert : forall expi expn a b I0 omega tau NormBRDF bsf t_0 p_0 t_ex p_ex,
  is_expi expi -> is_expn expn -> 0 < tau -> 0 < cos t_0 < 1 -> 0 < cos t_ex < 1 ->
  exists v, interaction expi expn (plain_obj rayleigh_ncoefs rayleigh_coefs a) (plain_obj iso_ncoefs iso_coefs b)
              all_variable I0 omega tau NormBRDF bsf t_0 p_0 t_ex p_ex = Ok (Fin v)
    /\ is_interaction (fun t0 p0 ts ps => rayleigh_func (scat_angle t0 (PI - ts) p0 ps a)) (fun _ _ _ _ => 1 / PI)
         I0 omega tau NormBRDF bsf t_0 p_0 t_ex p_ex v.
Proof.
  intros expi expn a b I0 omega tau NormBRDF bsf t_0 p_0 t_ex p_ex He Hn Ht H0 H1.
  destruct (C74_interaction expi expn (plain_obj rayleigh_ncoefs rayleigh_coefs a) (plain_obj iso_ncoefs iso_coefs b)
    I0 omega tau NormBRDF bsf t_0 p_0 t_ex p_ex He Hn) as [v [E [F1 [F2 [A [B D]]]]]];
    try assumption; try (apply plain_bounded; unfold rayleigh_ncoefs, iso_ncoefs; lia).
  exists v. split; [exact E|]. exists F1, F2.
  assert (Q : forall t p t' p' m, azimuth_product (V_value (plain_obj rayleigh_ncoefs rayleigh_coefs a) t p)
      (fun ts ps => S_value (plain_obj iso_ncoefs iso_coefs b) ts ps t' p') (acos m) =
    azimuth_product (fun ts ps => rayleigh_func (scat_angle t (PI - ts) p ps a)) (fun _ _ => 1 / PI) (acos m)).
  { intros. unfold azimuth_product. apply RInt_ext. intros x _. unfold V_value, S_value; simpl. rewrite !Rplus_0_r.
    destruct (C16_expansions_exact a t p (acos m) x 0 0) as [X _]. destruct (C16_expansions_exact b 0 0 (acos m) x t' p') as [_ Y].
    rewrite X, Y. reflexivity. }
  split; [eapply F_int_ext; [|exact A]; intros m _; cbv beta; rewrite Q; reflexivity|]. split; [eapply F_int_ext; [|exact B]; intros m _; cbv beta; rewrite Q; reflexivity|exact D].
Qed.
Print Assumptions C74_rayleigh_lambert.

(** linear combination of surfaces *)
Theorem C74_lincomb_surface : forall expi expn V cs I0 omega tau NormBRDF bsf t_0 p_0 t_ex p_ex,
  is_expi expi -> is_expn expn -> bounded_obj V -> (exists c, In c cs /\ (1 <= ch_ncoefs c)%nat) ->
  0 < tau -> 0 < cos t_0 < 1 -> 0 < cos t_ex < 1 ->
  exists v, interaction expi expn V (comb_obj cs default_a_S) all_variable I0 omega tau NormBRDF bsf t_0 p_0 t_ex p_ex = Ok (Fin v)
    /\ is_interaction (V_value V) (comb_legexpansion_S cs) I0 omega tau NormBRDF bsf t_0 p_0 t_ex p_ex v.
Proof.
  intros expi expn V cs I0 omega tau NormBRDF bsf t_0 p_0 t_ex p_ex He Hn HV HC Ht H0 H1.
  destruct (C74_interaction expi expn V (comb_obj cs default_a_S) I0 omega tau NormBRDF bsf t_0 p_0 t_ex p_ex He Hn HV)
    as [v [E [F1 [F2 [A [B D]]]]]]; try assumption; [apply comb_bounded, Exists_exists; exact HC|].
  exists v. split; [exact E|]. exists F1, F2.
  assert (Q : forall t p t' p' m, azimuth_product (V_value V t p) (fun ts ps => S_value (comb_obj cs default_a_S) ts ps t' p') (acos m) =
    azimuth_product (V_value V t p) (fun ts ps => comb_legexpansion_S cs ts ps t' p') (acos m)).
  { intros. unfold azimuth_product. apply RInt_ext. intros x _. rewrite comb_S_value. reflexivity. }
  split; [eapply F_int_ext; [|exact A]; intros m _; cbv beta; rewrite Q; reflexivity|]. split; [eapply F_int_ext; [|exact B]; intros m _; cbv beta; rewrite Q; reflexivity|exact D].
Qed.
Print Assumptions C74_lincomb_surface.

Lemma cos_example : 0 < cos (PI / 3) < 1 /\ 0 < cos (PI / 4) < 1.
Proof.
  rewrite cos_PI3, cos_PI4. pose proof Rlt_sqrt2_0 as H. assert (1 < sqrt 2).
  { rewrite <- sqrt_1 at 1. apply sqrt_lt_1; lra. }
  split; [lra|]. split; [apply Rdiv_lt_0_compat; lra|]. apply (Rmult_lt_reg_r (sqrt 2)); [lra|]. unfold Rdiv. rewrite Rmult_assoc, Rinv_l by lra. lra.
Qed.
Example C74_example : bounded_obj (plain_obj 10 (hgV_coefs (1 / 2)) default_a_V)
  /\ bounded_obj (plain_obj iso_ncoefs iso_coefs default_a_S) /\ 0 < cos (PI / 3) < 1 /\ 0 < cos (PI / 4) < 1.
Proof. split; [apply plain_bounded; lia|]. split; [apply plain_bounded; unfold iso_ncoefs; lia|]. apply cos_example. Qed.

(** ** C75: finite for every incidence angle and optical depth *)
(** false at nadir: the result is NaN for every phase function and surface *)
Theorem C75_nadir_refuted : forall expi expn V S g I0 omega tau NormBRDF bsf p_0 t_ex p_ex,
  bounded_obj V -> bounded_obj S -> 0 < tau -> 0 < cos t_ex < 1 ->
  interaction expi expn V S g I0 omega tau NormBRDF bsf 0 p_0 t_ex p_ex = Ok NaN.
Proof. exact interaction_nadir. Qed.
Print Assumptions C75_nadir_refuted.

(** false without vegetation: NaN (the method [calc] hides this case, see C10) *)
Theorem C75_no_vegetation_refuted : forall expi expn V S g I0 omega NormBRDF bsf t_0 p_0 t_ex p_ex,
  bounded_obj V -> bounded_obj S -> 0 < cos t_0 < 1 -> 0 < cos t_ex < 1 ->
  interaction expi expn V S g I0 omega 0 NormBRDF bsf t_0 p_0 t_ex p_ex = Ok NaN.
Proof. exact interaction_tau0. Qed.
Print Assumptions C75_no_vegetation_refuted.

(** finite otherwise, in every geometry *)
Theorem C75_finite_partial : forall expi expn V S g I0 omega tau NormBRDF bsf t_0 p_0 t_ex p_ex,
  is_expi expi -> is_expn expn -> bounded_obj V -> bounded_obj S ->
  0 < tau -> 0 < cos t_0 < 1 -> 0 < cos t_ex < 1 ->
  exists v, interaction expi expn V S g I0 omega tau NormBRDF bsf t_0 p_0 t_ex p_ex = Ok (Fin v).
Proof.
  intros expi expn V S g I0 omega tau NormBRDF bsf t_0 p_0 t_ex p_ex He Hn HV HS Ht H0 H1.
  pose proof (interaction_value expi expn V S g I0 omega tau NormBRDF bsf t_0 p_0 t_ex p_ex He Hn HV HS Ht H0 H1) as A.
  destruct (seen g t_0 p_0 t_ex p_ex) as [[[? ?] ?] ?]. destruct (seen g t_ex p_ex t_0 p_0) as [[[? ?] ?] ?].
  destruct A as [F1 [F2 [_ [_ E]]]]. eexists. exact E.
Qed.
Print Assumptions C75_finite_partial.

Example C75_example : bounded_obj (plain_obj rayleigh_ncoefs rayleigh_coefs default_a_V) /\ cos 0 = 1.
Proof. split; [apply plain_bounded; unfold rayleigh_ncoefs; lia|apply cos_0]. Qed.

(** ** C76: the geometry shortcut does not change the interaction term *)
(** 'mono' *)
Theorem C76_mono : forall expi expn V S I0 omega tau NormBRDF bsf t p,
  is_expi expi -> is_expn expn -> bounded_obj V -> bounded_obj S -> 0 < tau -> 0 < cos t < 1 ->
  interaction expi expn V S (GMono p) I0 omega tau NormBRDF bsf t p t (p + PI)
  = interaction expi expn V S all_variable I0 omega tau NormBRDF bsf t p t (p + PI).
Proof.
  intros expi expn V S I0 omega tau NormBRDF bsf t p He Hn HV HS Ht H. apply interaction_same; try assumption; cbn [seen all_variable pick]; intros ths.
  - reflexivity.
  - symmetry. apply azimuth_swap_pi.
Qed.
Print Assumptions C76_mono.

(** fixed azimuth angles, for weights with a_1 = a_2 *)
Theorem C76_fixed_azimuths : forall expi expn V S I0 omega tau NormBRDF bsf t_0 p_0 t_ex p_ex,
  is_expi expi -> is_expn expn -> bounded_obj V -> bounded_obj S -> equal_weights V -> equal_weights S ->
  0 < tau -> 0 < cos t_0 < 1 -> 0 < cos t_ex < 1 ->
  interaction expi expn V S (GQuad None None (Some p_0) (Some p_ex)) I0 omega tau NormBRDF bsf t_0 p_0 t_ex p_ex
  = interaction expi expn V S all_variable I0 omega tau NormBRDF bsf t_0 p_0 t_ex p_ex.
Proof.
  intros. apply interaction_same; try assumption; cbn [seen all_variable pick]; intros ths.
  - reflexivity.
  - apply azimuth_swap; assumption.
Qed.
Print Assumptions C76_fixed_azimuths.

(** a fixed zenith angle changes the result: Henyey-Greenstein with two coefficients over a
    Lambertian surface, for every asymmetry parameter t <> 0 and every pair of different zenith
    angles *)
Theorem C76_fixed_zenith_refuted : forall expi expn t I0 omega tau NormBRDF bsf t_0 p_0 t_ex p_ex,
  is_expi expi -> is_expn expn -> 0 < tau -> 0 < cos t_0 < 1 -> 0 < cos t_ex < 1 ->
  t <> 0 -> cos t_0 <> cos t_ex -> NormBRDF * (1 - bsf) * (I0 * cos t_0 * omega) <> 0 ->
  let V := plain_obj 2 (hgV_coefs t) default_a_V in
  let S := plain_obj iso_ncoefs iso_coefs default_a_S in
  interaction expi expn V S (GQuad (Some t_0) None None None) I0 omega tau NormBRDF bsf t_0 p_0 t_ex p_ex
  <> interaction expi expn V S all_variable I0 omega tau NormBRDF bsf t_0 p_0 t_ex p_ex.
Proof. exact fixed_zenith_differs. Qed.
Print Assumptions C76_fixed_zenith_refuted.

Example C76_example : exists t_0 t_ex, 0 < cos t_0 < 1 /\ 0 < cos t_ex < 1 /\ cos t_0 <> cos t_ex
  /\ 1 * (1 - 0) * (1 * cos t_0 * (1 / 2)) <> 0
  /\ equal_weights (plain_obj 2 (hgV_coefs (1 / 2)) default_a_V).
Proof.
  exists (PI / 3), (PI / 4). destruct cos_example as [A B]. split; [exact A|]. split; [exact B|].
  rewrite cos_PI3, cos_PI4 in *. assert (0 < sqrt 2) by exact Rlt_sqrt2_0. assert (sqrt 2 < 2).
  { rewrite <- (sqrt_square 2) at 2 by lra. apply sqrt_lt_1; lra. }
  split; [|split; [lra|repeat constructor]].
  intros E. assert (K : 1 / sqrt 2 * sqrt 2 = 1) by (field; lra). rewrite <- E in K. lra.
Qed.

(** ** C77: sign and linearity of the interaction term *)
Theorem C77_nonnegative : forall expi expn V S I0 omega tau NormBRDF bsf t_0 p_0 t_ex p_ex,
  is_expi expi -> is_expn expn -> bounded_obj V -> bounded_obj S ->
  0 < tau -> 0 < cos t_0 < 1 -> 0 < cos t_ex < 1 ->
  (forall t p ts ps, 0 <= V_value V t p ts ps) -> (forall ts ps t p, 0 <= S_value S ts ps t p) ->
  0 <= I0 -> 0 <= omega -> 0 <= NormBRDF -> bsf <= 1 ->
  exists v, interaction expi expn V S all_variable I0 omega tau NormBRDF bsf t_0 p_0 t_ex p_ex = Ok (Fin v) /\ 0 <= v.
Proof.
  intros expi expn V S I0 omega tau NormBRDF bsf t_0 p_0 t_ex p_ex He Hn HV HS Ht H0 H1 PV PS HI Ho HN Hb.
  destruct (C74_interaction expi expn V S I0 omega tau NormBRDF bsf t_0 p_0 t_ex p_ex He Hn HV HS Ht H0 H1)
    as [v [E [F1 [F2 [A [B D]]]]]].
  exists v. split; [exact E|].
  assert (Q : forall t p t' p' m, 0 <= azimuth_product (V_value V t p) (fun ts ps => S_value S ts ps t' p') m).
  { intros. unfold azimuth_product. apply RInt_ge_0; [pose proof PI_pos; lra|eexists; apply product_int; assumption|].
    intros x _. apply Rmult_le_pos; auto. }
  assert (0 <= F1) by (refine (F_int_nonneg tau (cos t_0) _ F1 (Rlt_le _ _ Ht) (proj1 H0) _ A); intros m _; cbv beta; exact (Q t_0 p_0 t_ex p_ex (acos m))).
  assert (0 <= F2) by (refine (F_int_nonneg tau (cos t_ex) _ F2 (Rlt_le _ _ Ht) (proj1 H1) _ B); intros m _; cbv beta; exact (Q t_ex p_ex t_0 p_0 (acos m))).
  rewrite D. pose proof (exp_pos (- tau / cos t_ex)). pose proof (exp_pos (- tau / cos t_0)).
  repeat apply Rmult_le_pos; try lra. apply Rplus_le_le_0_compat; apply Rmult_le_pos; lra.
Qed.
Print Assumptions C77_nonnegative.

(** the interaction term of a linear combination of surfaces is the linear combination of the
    interaction terms *)
Theorem C77_lincomb : forall expi expn V cs I0 omega tau NormBRDF bsf t_0 p_0 t_ex p_ex,
  is_expi expi -> is_expn expn -> bounded_obj V -> cs <> [] -> (forall c, In c cs -> (1 <= ch_ncoefs c)%nat) ->
  (forall c d, In c cs -> In d cs -> ch_a c = ch_a d -> ch_ncoefs c = ch_ncoefs d) ->
  0 < tau -> 0 < cos t_0 < 1 -> 0 < cos t_ex < 1 ->
  exists v : choice -> R,
    (forall c, In c cs ->
       interaction expi expn V (plain_obj (ch_ncoefs c) (ch_coefs c) (ch_a c)) all_variable
                   I0 omega tau NormBRDF bsf t_0 p_0 t_ex p_ex = Ok (Fin (v c)))
    /\ interaction expi expn V (comb_obj cs default_a_S) all_variable I0 omega tau NormBRDF bsf t_0 p_0 t_ex p_ex
       = Ok (Fin (wsum v cs)).
Proof.
  intros expi expn V cs I0 omega tau NormBRDF bsf t_0 p_0 t_ex p_ex He Hn HV HC HP HE Ht H0 H1.
  set (F1 := fun c => fin_of (calc_Fint expi expn V (one_obj c) all_variable tau t_0 p_0 t_ex p_ex)).
  set (F2 := fun c => fin_of (calc_Fint expi expn V (one_obj c) all_variable tau t_ex p_ex t_0 p_0)).
  set (k := NormBRDF * (1 - bsf) * (I0 * cos t_0 * omega)).
  exists (fun c => k * (exp (- tau / cos t_ex) * F1 c + exp (- tau / cos t_0) * F2 c)).
  assert (HB : forall c, In c cs -> bounded_obj (one_obj c)) by (intros c Hc; apply plain_bounded, HP, Hc).
  assert (A1 : forall c, In c cs -> calc_Fint expi expn V (one_obj c) all_variable tau t_0 p_0 t_ex p_ex = Ok (Fin (F1 c))
     /\ is_F_int tau (cos t_0) (fun m => azimuth_product (V_value V t_0 p_0) (fun ts ps => S_value (one_obj c) ts ps t_ex p_ex) (acos m)) (F1 c)).
  { intros c Hc. pose proof (calc_Fint_value expi expn V (one_obj c) all_variable tau t_0 p_0 t_ex p_ex He Hn HV (HB c Hc) Ht H0) as X.
    cbn [seen all_variable pick] in X. destruct X as [F [E I]]. unfold F1. rewrite E. split; [reflexivity|exact I]. }
  assert (A2 : forall c, In c cs -> calc_Fint expi expn V (one_obj c) all_variable tau t_ex p_ex t_0 p_0 = Ok (Fin (F2 c))
     /\ is_F_int tau (cos t_ex) (fun m => azimuth_product (V_value V t_ex p_ex) (fun ts ps => S_value (one_obj c) ts ps t_0 p_0) (acos m)) (F2 c)).
  { intros c Hc. pose proof (calc_Fint_value expi expn V (one_obj c) all_variable tau t_ex p_ex t_0 p_0 He Hn HV (HB c Hc) Ht H1) as X.
    cbn [seen all_variable pick] in X. destruct X as [F [E I]]. unfold F2. rewrite E. split; [reflexivity|exact I]. }
  split.
  - intros c Hc. unfold interaction. change (plain_obj (ch_ncoefs c) (ch_coefs c) (ch_a c)) with (one_obj c).
    destruct (A1 c Hc) as [-> _], (A2 c Hc) as [-> _]. reflexivity.
  - destruct cs as [|c0 cs']; [congruence|]. set (cs := c0 :: cs') in *.
    destruct (C74_interaction expi expn V (comb_obj cs default_a_S) I0 omega tau NormBRDF bsf t_0 p_0 t_ex p_ex He Hn HV)
      as [v [E [G1 [G2 [X [Y D]]]]]]; try assumption.
    { apply comb_bounded. constructor. apply HP. left; reflexivity. }
    assert (Q : forall t p t' p' m, azimuth_product (V_value V t p) (fun ts ps => S_value (comb_obj cs default_a_S) ts ps t' p') m =
       wsum (fun c => azimuth_product (V_value V t p) (fun ts ps => S_value (one_obj c) ts ps t' p') m) cs).
    { intros. unfold azimuth_product at 1. apply is_RInt_unique. eapply is_RInt_extR; [pose proof PI_pos; lra| |apply wsum_product; assumption].
      intros x _. cbv beta. f_equal. rewrite comb_S_value. destruct (C24_expansion_plain cs 0 0 m x t' p' HE) as [-> _].
      clear. induction cs; simpl; [reflexivity|]. rewrite IHcs, one_value. reflexivity. }
    rewrite E. f_equal. f_equal. rewrite D, wsum_lin. unfold k.
    assert (G1 = wsum F1 cs).
    { eapply F_int_unique; [exact X|]. eapply F_int_ext; [|apply (wsum_F_int tau (cos t_0) (fun c m => azimuth_product (V_value V t_0 p_0) (fun ts ps => S_value (one_obj c) ts ps t_ex p_ex) (acos m)) F1); intros c Hc; apply A1, Hc].
      intros m _. cbv beta. symmetry. apply Q. }
    assert (G2 = wsum F2 cs).
    { eapply F_int_unique; [exact Y|]. eapply F_int_ext; [|apply (wsum_F_int tau (cos t_ex) (fun c m => azimuth_product (V_value V t_ex p_ex) (fun ts ps => S_value (one_obj c) ts ps t_0 p_0) (acos m)) F2); intros c Hc; apply A2, Hc].
      intros m _. cbv beta. symmetry. apply Q. }
    subst G1 G2. ring.
Qed.
Print Assumptions C77_lincomb.

Example C77_example :
  let cs := [Choice (3 / 10) default_a_S 1 iso_coefs (fun _ _ _ _ => 1 / PI);
             Choice (7 / 10) (A3 1 2 2) 4 (hgV_coefs (1 / 3)) (fun _ _ _ _ => 0)] in
  cs <> [] /\ (forall c, In c cs -> (1 <= ch_ncoefs c)%nat)
  /\ (forall c d, In c cs -> In d cs -> ch_a c = ch_a d -> ch_ncoefs c = ch_ncoefs d).
Proof.
  simpl. split; [discriminate|]. split.
  - intros c [<-|[<-|[]]]; simpl; lia.
  - intros c d [<-|[<-|[]]] [<-|[<-|[]]] H; simpl in *; try reflexivity; exfalso; apply (f_equal a1) in H; simpl in H; lra.
Qed.

(** ** C78: reciprocity and rotation of the interaction term *)
Theorem C78_reciprocity : forall expi expn V S I0 omega tau NormBRDF bsf t_0 p_0 t_ex p_ex,
  is_expi expi -> is_expn expn -> bounded_obj V -> bounded_obj S ->
  0 < tau -> 0 < cos t_0 < 1 -> 0 < cos t_ex < 1 ->
  exists v w, interaction expi expn V S all_variable I0 omega tau NormBRDF bsf t_0 p_0 t_ex p_ex = Ok (Fin v)
    /\ interaction expi expn V S all_variable I0 omega tau NormBRDF bsf t_ex p_ex t_0 p_0 = Ok (Fin w)
    /\ v * cos t_ex = w * cos t_0.
Proof.
  intros expi expn V S I0 omega tau NormBRDF bsf t_0 p_0 t_ex p_ex He Hn HV HS Ht H0 H1.
  destruct (C74_interaction expi expn V S I0 omega tau NormBRDF bsf t_0 p_0 t_ex p_ex He Hn HV HS Ht H0 H1)
    as [v [E [F1 [F2 [A [B D]]]]]].
  destruct (C74_interaction expi expn V S I0 omega tau NormBRDF bsf t_ex p_ex t_0 p_0 He Hn HV HS Ht H1 H0)
    as [w [E' [G1 [G2 [A' [B' D']]]]]].
  exists v, w. split; [exact E|]. split; [exact E'|]. rewrite D, D'.
  rewrite (F_int_unique _ _ _ _ _ A' B), (F_int_unique _ _ _ _ _ B' A). ring.
Qed.
Print Assumptions C78_reciprocity.

Theorem C78_rotation : forall expi expn V S I0 omega tau NormBRDF bsf t_0 p_0 t_ex p_ex s,
  is_expi expi -> is_expn expn -> bounded_obj V -> bounded_obj S -> equal_weights V -> equal_weights S ->
  0 < tau -> 0 < cos t_0 < 1 -> 0 < cos t_ex < 1 ->
  interaction expi expn V S all_variable I0 omega tau NormBRDF bsf t_0 (p_0 + s) t_ex (p_ex + s)
  = interaction expi expn V S all_variable I0 omega tau NormBRDF bsf t_0 p_0 t_ex p_ex.
Proof.
  intros expi expn V S I0 omega tau NormBRDF bsf t_0 p_0 t_ex p_ex s He Hn HV HS WV WS Ht H0 H1.
  destruct (C74_interaction expi expn V S I0 omega tau NormBRDF bsf t_0 p_0 t_ex p_ex He Hn HV HS Ht H0 H1)
    as [v [E [F1 [F2 [A [B D]]]]]].
  destruct (C74_interaction expi expn V S I0 omega tau NormBRDF bsf t_0 (p_0 + s) t_ex (p_ex + s) He Hn HV HS Ht H0 H1)
    as [w [E' [G1 [G2 [A' [B' D']]]]]].
  rewrite E, E'. f_equal. f_equal. rewrite D, D'.
  assert (G1 = F1). { eapply F_int_unique; [exact A'|]. eapply F_int_ext; [|exact A]. intros m _. cbv beta. symmetry. apply azimuth_rotate; assumption. }
  assert (G2 = F2). { eapply F_int_unique; [exact B'|]. eapply F_int_ext; [|exact B]. intros m _. cbv beta. symmetry. apply azimuth_rotate; assumption. }
  subst. reflexivity.
Qed.
Print Assumptions C78_rotation.

Example C78_example : equal_weights (plain_obj 10 (hgV_coefs (1 / 2)) default_a_V) /\ equal_weights (plain_obj 5 (hgV_coefs (1 / 2)) default_a_S).
Proof. split; repeat constructor. Qed.
