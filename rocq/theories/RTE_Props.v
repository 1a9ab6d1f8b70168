(** C123: the contributions are the first-order solution of the radiative transfer equation *)
From Coq Require Import Reals List Lra Lia String FunctionalExtensionality.
From Coquelicot Require Import Coquelicot.
From Verif Require Import Base Sca_Model Int_Model Int_Spec Int_Proofs Int2_Proofs Sca_Props Int_Props RTE_Spec RTE_Proofs RTE2_Proofs RTE3_Proofs RT_Model.
Local Open Scope R_scope.

(** the equations have exactly one solution: sum of surface, volume and interaction contribution *)
Theorem C123_first_order_solution : forall p_du p_dd p_uu f I0 omega tau t_0 p_0 t_ex p_ex,
  0 < tau -> 0 < cos t_0 -> 0 < cos t_ex ->
  (forall th ph, p_uu th ph t_ex p_ex = p_dd t_ex p_ex th ph) ->
  (forall th ph, f t_0 p_0 th ph = f th ph t_0 p_0) ->
  regular (p_dd t_0 p_0) (fun th ph => f th ph t_ex p_ex) ->
  regular (p_dd t_ex p_ex) (fun th ph => f th ph t_0 p_0) ->
  forall v, first_order_intensity p_du p_dd p_uu f I0 omega tau t_0 p_0 t_ex p_ex v <->
    exists vi, is_interaction p_dd f I0 omega tau 1 0 t_0 p_0 t_ex p_ex vi /\
      v = I0 * cos t_0 * exp (- tau / cos t_0 - tau / cos t_ex) * f t_0 p_0 t_ex p_ex
          + I0 * omega * cos t_0 / (cos t_0 + cos t_ex) * (1 - exp (- tau / cos t_0 - tau / cos t_ex)) * p_du t_0 p_0 t_ex p_ex
          + vi.
Proof. intros. apply first_order_iff; assumption. Qed.
Print Assumptions C123_first_order_solution.

Lemma expansions_regular V S t p t' p' k : bounded_obj V -> bounded_obj S ->
  regular (V_value V t p) (fun th ph => k * S_value S th ph t' p').
Proof.
  intros HV HS. pose proof (fun ths => fn_sum V S all_variable t p t' p' ths HV HS) as FS. cbn [seen all_variable pick] in FS.
  destruct (FS 0) as [fn [E _]].
  assert (A : forall ths, is_RInt (fun ph => V_value V t p ths ph * (k * S_value S ths ph t' p')) 0 (2 * PI) (k * horner fn (cos ths))).
  { intros ths. destruct (FS ths) as [fn' [E' [_ [X _]]]]. assert (fn' = fn) by congruence. subst fn'.
    apply (is_RInt_scalR _ _ _ k) in X. eapply is_RInt_ext; [|exact X]. intros x _. cbv beta.
    match goal with |- ?a = ?b => change (@eq R a b) end. ring. }
  split; [intros mu _; eexists; apply A|].
  assert (B : forall mu, -1 <= mu <= 1 -> azimuth_product (V_value V t p) (fun th ph => k * S_value S th ph t' p') (acos mu) = k * poly_at fn mu).
  { intros mu Hm. unfold azimuth_product. rewrite (is_RInt_unique _ _ _ _ (A (acos mu))), cos_acos, horner_poly by exact Hm. reflexivity. }
  assert (Cp : forall l x, continuous (poly_at l) x).
  { induction l as [|c0 l IH]; intros x; [apply continuous_const|]. cbn [poly_at].
    apply (continuous_plus (fun _ => c0) (fun x => x * poly_at l x)); [apply continuous_const|].
    apply (continuous_mult (fun x => x) (poly_at l)); [apply continuous_id|apply IH]. }
  intros mu Hm. rewrite B by lra. intros P HP.
  assert (Q : continuous (fun mu => k * poly_at fn mu) mu) by (apply (continuous_mult (fun _ => k)); [apply continuous_const|apply Cp]).
  destruct (Q P HP) as [d Hd]. exists d. intros y Hy Hl. rewrite B by lra. apply Hd. exact Hy.
Qed.
Lemma S_value_recip S t p t' p' : S_value S t p t' p' = S_value S t' p' t p.
Proof. unfold S_value. f_equal. apply map_ext. intros e. unfold legexpansion_S. f_equal. unfold scat_angle. ring. Qed.

(** [calc] returns the solution for the layer that the expansions describe (no other hypothesis on the expansions),
    plus, if there is bare soil, the intensity that the surface reflects without layer *)
Theorem C123_calc : forall expi expn VS SS (o : RT) F1 F2 p_du p_uu,
  is_expi expi -> is_expn expn -> bounded_obj VS -> bounded_obj SS ->
  0 < tau (V o) -> 0 < cos (t_0 o) < 1 -> 0 < cos (t_ex o) < 1 ->
  calc_Fint expi expn VS SS all_variable (tau (V o)) (t_0 o) (p_0 o) (t_ex o) (p_ex o) = Ok (Fin F1) ->
  calc_Fint expi expn VS SS all_variable (tau (V o)) (t_ex o) (p_ex o) (t_0 o) (p_0 o) = Ok (Fin F2) ->
  p_du (t_0 o) (p_0 o) (t_ex o) (p_ex o) = p_val o ->
  (forall th ph, p_uu th ph (t_ex o) (p_ex o) = V_value VS (t_ex o) (p_ex o) th ph) ->
  brdf_val o = S_value SS (t_0 o) (p_0 o) (t_ex o) (p_ex o) ->
  forall v,
  first_order_intensity p_du (V_value VS) p_uu (fun t p t' p' => NormBRDF (SRF o) * S_value SS t p t' p')
    (I0 o) (omega (V o)) (tau (V o)) (t_0 o) (p_0 o) (t_ex o) (p_ex o) v ->
  o_tot (calc_scalar true o (Some F1) (Some F2)) =
  Some ((1 - bsf o) * v + bsf o * (I0 o * cos (t_0 o) * (NormBRDF (SRF o) * brdf_val o))).
Proof.
  intros expi expn VS SS o F1 F2 p_du p_uu He Hn HV HS Ht H0 Hx E1 E2 Hp Hu Hb v Hv.
  apply C123_first_order_solution in Hv; try lra; try assumption;
    [|intros; f_equal; apply S_value_recip|apply expansions_regular; assumption|apply expansions_regular; assumption].
  destruct Hv as (vi & (G1 & G2 & A & B & Hvi) & ->).
  pose proof (calc_Fint_value expi expn VS SS all_variable (tau (V o)) (t_0 o) (p_0 o) (t_ex o) (p_ex o) He Hn HV HS Ht H0) as X1.
  pose proof (calc_Fint_value expi expn VS SS all_variable (tau (V o)) (t_ex o) (p_ex o) (t_0 o) (p_0 o) He Hn HV HS Ht Hx) as X2.
  cbn [seen all_variable pick] in X1, X2. destruct X1 as (F1' & Y1 & X1), X2 as (F2' & Y2 & X2).
  rewrite E1 in Y1. rewrite E2 in Y2. injection Y1 as <-. injection Y2 as <-.
  set (k := NormBRDF (SRF o)) in *.
  assert (K : forall t p t' p' m, azimuth_product (V_value VS t p) (fun th ph => k * S_value SS th ph t' p') (acos m) =
                           k * azimuth_product (V_value VS t p) (fun th ph => S_value SS th ph t' p') (acos m)).
  { intros t p t' p' m. unfold azimuth_product. pose proof (fn_sum VS SS all_variable t p t' p' (acos m) HV HS) as FS. cbn [seen all_variable pick] in FS.
    destruct FS as (fn & _ & _ & Y & _). rewrite <- RInt_scalR by (eexists; exact Y). apply RInt_ext. intros x _.
    match goal with |- ?a = ?b => change (@eq R a b) end. ring. }
  assert (W1 : G1 = k * F1).
  { eapply is_RInt_uniqueR; [exact A|]. eapply is_RInt_ext; [|apply is_RInt_scalR; exact X1]. intros x _. cbv beta. rewrite K.
    match goal with |- ?a = ?b => change (@eq R a b) end. ring. }
  assert (W2 : G2 = k * F2).
  { eapply is_RInt_uniqueR; [exact B|]. eapply is_RInt_ext; [|apply is_RInt_scalR; exact X2]. intros x _. cbv beta. rewrite K.
    match goal with |- ?a = ?b => change (@eq R a b) end. ring. }
  unfold calc_scalar. destruct (Rlt_dec 0 (tau (V o))) as [_|N]; [|contradiction].
  cbn [mk_calc o_tot fadd interaction flift2]. f_equal. unfold interaction, flift2, surface, volume, mu_0, mu_ex. fold k.
  rewrite Hvi, W1, W2, Hp, <- Hb.
  replace (- (tau (V o) / cos (t_0 o)) - tau (V o) / cos (t_ex o)) with (- tau (V o) / cos (t_0 o) - tau (V o) / cos (t_ex o)) by (unfold Rdiv; ring).
  ring.
Qed.
Print Assumptions C123_calc.

(** the documentation (theory.rst, interaction_contribution) prints the factor exp(- tau / cos t_ex) in front of both
    terms; for different zenith angles that is not the solution *)
Definition printed_interaction (p f : R -> R -> R -> R -> R) (I0 omega tau t_0 p_0 t_ex p_ex v : R) : Prop :=
  exists F1 F2,
    is_F_int tau (cos t_0) (fun mu => azimuth_product (p t_0 p_0) (fun ts ps => f ts ps t_ex p_ex) (acos mu)) F1 /\
    is_F_int tau (cos t_ex) (fun mu => azimuth_product (p t_ex p_ex) (fun ts ps => f ts ps t_0 p_0) (acos mu)) F2 /\
    v = I0 * omega * cos t_0 * (exp (- tau / cos t_ex) * F1 + exp (- tau / cos t_ex) * F2).
Theorem C123_printed_formula_differs : forall p f I0 omega tau t_0 p_0 t_ex p_ex,
  0 < tau -> 0 < cos t_0 -> 0 < cos t_ex -> cos t_0 <> cos t_ex -> 0 < I0 -> 0 < omega ->
  regular (p t_0 p_0) (fun th ph => f th ph t_ex p_ex) -> regular (p t_ex p_ex) (fun th ph => f th ph t_0 p_0) ->
  (forall mu, 0 < mu < 1 -> 0 < azimuth_product (p t_ex p_ex) (fun ts ps => f ts ps t_0 p_0) (acos mu)) ->
  forall vi vp, is_interaction p f I0 omega tau 1 0 t_0 p_0 t_ex p_ex vi -> printed_interaction p f I0 omega tau t_0 p_0 t_ex p_ex vp -> vi <> vp.
Proof.
  intros p f I0 omega tau t_0 p_0 t_ex p_ex Ht H0 Hx Hne Hi Ho R1 R2 Hpos vi vp (F1 & F2 & A1 & A2 & ->) (G1 & G2 & B1 & B2 & ->) E.
  assert (G1 = F1) by (eapply is_RInt_uniqueR; [exact B1|exact A1]). assert (G2 = F2) by (eapply is_RInt_uniqueR; [exact B2|exact A2]). subst G1 G2.
  set (g := fun mu => azimuth_product (p t_ex p_ex) (fun ts ps => f ts ps t_0 p_0) (acos (clamp 0 1 mu))).
  assert (Hg : forall x, continuous g x).
  { intros x. apply (clamp_continuous (fun mu => azimuth_product (p t_ex p_ex) (fun ts ps => f ts ps t_0 p_0) (acos mu))); [lra|exact (proj2 R2)]. }
  assert (V : F2 = outer tau (cos t_ex) g 0 / cos t_ex).
  { eapply is_RInt_uniqueR; [exact A2|]. apply F_kernel; [exact Ht|exact Hx|exact Hg|]. intros mu Hm. unfold g. rewrite clamp_id by lra. reflexivity. }
  assert (P : 0 < F2).
  { rewrite V. apply Rdiv_lt_0_compat; [|exact Hx]. apply RInt_gt_0; [lra| |].
    - intros mu Hm. apply Rmult_lt_0_compat; [|unfold g; rewrite clamp_id by lra; apply Hpos; exact Hm].
      apply RInt_gt_0; [exact Ht| |intros; apply ker_cont_s]. intros s _. unfold ker. rewrite att_pos by lra. apply Rmult_lt_0_compat; apply exp_pos.
    - intros mu _. apply (continuous_mult (inner tau (cos t_ex) 0) g); [apply inner_cont; lra|apply Hg]. }
  assert (Q : exp (- tau / cos t_ex) = exp (- tau / cos t_0)).
  { assert (K : I0 * omega * cos t_0 * F2 <> 0) by (apply Rgt_not_eq; repeat apply Rmult_lt_0_compat; lra).
    apply Rmult_eq_reg_l with (I0 * omega * cos t_0 * F2); [|exact K]. lra. }
  apply exp_inv in Q. apply Hne. assert (Z : / cos t_0 = / cos t_ex).
  { apply Rmult_eq_reg_l with (- tau); [|lra]. unfold Rdiv in Q. lra. }
  rewrite <- (Rinv_inv (cos t_0)), <- (Rinv_inv (cos t_ex)). f_equal. exact Z.
Qed.
Print Assumptions C123_printed_formula_differs.

(** Rayleigh layer over a Lambertian surface: there is a first-order solution, and [calc] returns it *)
Definition rl_obj (t_0 t_ex I0 omega tau Norm bsf : R) (a : avec) : RT :=
  mkRT I0 "quad"%string t_0 0 t_ex PI (mkV tau omega (fun _ t t' p p' => rayleigh_func (scat_angle t t' p p' a)))
       (mkSRF Norm (fun _ _ _ _ _ => 1 / PI)) bsf nil 3 None None.
Example C123_example : forall expi expn, is_expi expi -> is_expn expn ->
  let o := rl_obj (PI / 3) (PI / 4) 1 (3 / 10) (1 / 2) (1 / 5) (1 / 10) (A3 (-1) 1 1) in
  exists F1 F2 v,
    first_order_intensity (fun t p t' p' => rayleigh_func (scat_angle t t' p p' (A3 (-1) 1 1)))
      (fun t p t' p' => rayleigh_func (scat_angle t (PI - t') p p' (A3 (-1) 1 1)))
      (fun t p t' p' => rayleigh_func (scat_angle t (PI - t') p p' (A3 (-1) 1 1))) (fun _ _ _ _ => 1 / 5 * (1 / PI))
      1 (3 / 10) (1 / 2) (PI / 3) 0 (PI / 4) PI v /\
    o_tot (calc_scalar true o (Some F1) (Some F2)) = Some (9 / 10 * v + 1 / 10 * (1 * cos (PI / 3) * (1 / 5 * (1 / PI)))).
Proof.
  intros expi expn He Hn o. set (a := A3 (-1) 1 1) in *.
  set (VS := plain_obj rayleigh_ncoefs rayleigh_coefs a). set (SS := plain_obj iso_ncoefs iso_coefs a).
  assert (HV : bounded_obj VS) by (apply plain_bounded; unfold rayleigh_ncoefs; lia).
  assert (HS : bounded_obj SS) by (apply plain_bounded; unfold iso_ncoefs; lia).
  destruct cos_example as [C0 Cx]. assert (Ht : 0 < 1 / 2) by lra.
  destruct (calc_Fint_value expi expn VS SS all_variable (1 / 2) (PI / 3) 0 (PI / 4) PI He Hn HV HS Ht C0) as (F1 & E1 & _).
  destruct (calc_Fint_value expi expn VS SS all_variable (1 / 2) (PI / 4) PI (PI / 3) 0 He Hn HV HS Ht Cx) as (F2 & E2 & _).
  assert (QV : V_value VS = fun t p t' p' => rayleigh_func (scat_angle t (PI - t') p p' a)).
  { do 4 (apply functional_extensionality; intro). unfold V_value; simpl. rewrite Rplus_0_r. apply (C16_expansions_exact a _ _ _ _ 0 0). }
  assert (QS : S_value SS = fun _ _ _ _ => 1 / PI).
  { do 4 (apply functional_extensionality; intro). unfold S_value; simpl. rewrite Rplus_0_r. apply (C16_expansions_exact a 0 0). }
  assert (QF : (fun _ _ _ _ : R => 1 / 5 * (1 / PI)) = fun t p t' p' => 1 / 5 * S_value SS t p t' p') by (rewrite QS; reflexivity).
  set (du := fun t p t' p' => rayleigh_func (scat_angle t t' p p' a)).
  rewrite <- QV, QF.
  assert (Ru : forall t p t' p', V_value VS t p t' p' = V_value VS t' p' t p).
  { intros. rewrite QV. f_equal. unfold scat_angle. rewrite !Rtrigo_facts.cos_pi_minus, !Rtrigo_facts.sin_pi_minus. ring. }
  assert (X : exists v, first_order_intensity du (V_value VS) (V_value VS) (fun t p t' p' => 1 / 5 * S_value SS t p t' p') 1 (3 / 10) (1 / 2) (PI / 3) 0 (PI / 4) PI v).
  { eexists. apply solution_exists; try lra; [intros; apply Ru|intros; f_equal; apply S_value_recip|apply expansions_regular; assumption|apply expansions_regular; assumption]. }
  destruct X as [v X]. exists F1, F2, v. split; [exact X|].
  pose proof (C123_calc expi expn VS SS o F1 F2 du (V_value VS) He Hn HV HS Ht C0 Cx E1 E2 eq_refl (fun th ph => Ru _ _ _ _)) as Y.
  rewrite (Y ltac:(rewrite QS; reflexivity) v X). f_equal. cbv [rl_obj o bsf I0 t_0 gt_0 SRF NormBRDF brdf_val brdf]. field. apply PI_neq0.
Qed.

(** an isotropic layer over an isotropic surface, seen under different angles *)
Example C123_example_printed : exists vi vp,
  is_interaction (fun _ _ _ _ => 1) (fun _ _ _ _ => 1) 1 1 1 1 0 (PI / 3) 0 (PI / 4) PI vi /\
  printed_interaction (fun _ _ _ _ => 1) (fun _ _ _ _ => 1) 1 1 1 (PI / 3) 0 (PI / 4) PI vp /\ vi <> vp.
Proof.
  destruct cos_example as [C0 Cx].
  assert (A : forall th, azimuth_product (fun _ _ => 1) (fun _ _ => 1) th = 2 * PI * (1 * 1)).
  { intros. unfold azimuth_product. rewrite RInt_const. change ((2 * PI - 0) * (1 * 1) = 2 * PI * (1 * 1)). ring. }
  assert (Rg : regular (fun _ _ => 1) (fun _ _ => 1)).
  { split; [intros; apply ex_RInt_const|]. apply continuous_on_all. intros x _.
    apply (continuous_ext (fun _ => 2 * PI * (1 * 1))); [intros; symmetry; apply A|apply continuous_const]. }
  set (iso := fun _ _ _ _ : R => 1).
  assert (K1 : is_F_int 1 (cos (PI / 3)) (fun mu => azimuth_product (fun _ _ => 1) (fun _ _ => 1) (acos mu)) (outer 1 (cos (PI / 3)) (fun _ => 2 * PI * (1 * 1)) 0 / cos (PI / 3))).
  { apply F_kernel; [lra|lra|intros; apply continuous_const|intros; symmetry; apply A]. }
  assert (K2 : is_F_int 1 (cos (PI / 4)) (fun mu => azimuth_product (fun _ _ => 1) (fun _ _ => 1) (acos mu)) (outer 1 (cos (PI / 4)) (fun _ => 2 * PI * (1 * 1)) 0 / cos (PI / 4))).
  { apply F_kernel; [lra|lra|intros; apply continuous_const|intros; symmetry; apply A]. }
  assert (I1 : is_interaction iso iso 1 1 1 1 0 (PI / 3) 0 (PI / 4) PI _) by (eexists; eexists; split; [exact K1|split; [exact K2|reflexivity]]).
  assert (I2 : printed_interaction iso iso 1 1 1 (PI / 3) 0 (PI / 4) PI _) by (eexists; eexists; split; [exact K1|split; [exact K2|reflexivity]]).
  eexists. eexists. split; [exact I1|]. split; [exact I2|]. eapply C123_printed_formula_differs; [| | | | | | | | |exact I1|exact I2]; try lra; try exact Rg.
  - rewrite cos_PI3, cos_PI4. intros E. assert (S := Rlt_sqrt2_0). apply (Rmult_eq_compat_r (sqrt 2)) in E. unfold Rdiv in E. rewrite !Rmult_1_l, Rinv_l in E by lra.
    assert (sqrt 2 * sqrt 2 = 2) by (apply sqrt_sqrt; lra). nra.
  - intros mu _. unfold iso. rewrite A. pose proof PI_RGT_0. lra.
Qed.
