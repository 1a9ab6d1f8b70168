(** Exact outcomes for properties that do not hold in general: C07, C13, C70, C73, C75. *)
From Coq Require Import Reals List String Bool Lra Lia Arith.
From Coquelicot Require Import Coquelicot.
From Verif Require Import Base Base_Proofs RT_Model RT_Spec RT_Proofs RT_Props Sca_Model Sca_Spec Sca_Proofs Sca2_Proofs Sca_Props Int_Model Int_Spec Int_Proofs Int3_Proofs Int_Props Exa_Spec.
Import ListNotations.
Local Open Scope R_scope.

(** ** C07: the entry for tau is the derivative exactly if the exit direction is vertical or there is no volume contribution *)
Theorem C07_exactly : forall o, mu_0 o <> 0 -> mu_ex o <> 0 -> mu_0 o + mu_ex o <> 0 -> exists j,
  jac_entry false false o "tau" = Ok j /\
  (is_derive (fun v => total (set_tau o v)) (tau (V o)) j <->
   mu_ex o = 1 \/ mu_ex o = -1 \/ omega (V o) = 0 \/ bsf o = 1 \/ p_val o = 0 \/ I0 o = 0).
Proof.
  intros o H0 He Hs. destruct (C07_jacobian_tau_error_term o H0 He) as (j & d & Hj & Hd & E).
  exists j. split; [exact Hj|].
  assert (Q : is_derive (fun v => total (set_tau o v)) (tau (V o)) j <-> j - d = 0).
  { split.
    - intros D. assert (j = d); [|lra]. apply is_derive_unique in D. apply is_derive_unique in Hd. congruence.
    - intros D. replace j with d by lra. exact Hd. }
  rewrite Q, E. set (e := exp _). assert (P : 0 < e) by apply exp_pos.
  set (M := mu_ex o) in *. set (m := mu_0 o) in *.
  assert (F : M - / M = (M - 1) * (M + 1) / M) by (field; exact He).
  split.
  - intros Z. rewrite F in Z.
    assert (Z' : (1 - bsf o) * I0 o * omega (V o) * p_val o * (M - 1) * (M + 1) * (e * m / ((m + M) * M)) = 0).
    { rewrite <- Z. field. split; assumption. }
    assert (N : e * m / ((m + M) * M) <> 0).
    { unfold Rdiv. repeat apply Rmult_integral_contrapositive_currified; try lra; try assumption. apply Rinv_neq_0_compat.
      apply Rmult_integral_contrapositive_currified; assumption. }
    apply Rmult_integral in Z' as [Z'|Z']; [|contradiction].
    repeat (apply Rmult_integral in Z'; destruct Z' as [Z'|Z']); try tauto.
    + right. right. right. left. lra.
    + left. lra.
    + right. left. lra.
  - intros [Z|[Z|[Z|[Z|[Z|Z]]]]].
    + rewrite F, Z. unfold Rdiv. ring.
    + rewrite F, Z. unfold Rdiv. ring.
    + rewrite Z. ring.
    + rewrite Z. ring.
    + rewrite Z. ring.
    + rewrite Z. ring.
Qed.
Print Assumptions C07_exactly.

(** ** C13: the powers of the cosines are those of the angles at the first evaluation since the caches were emptied, in every history *)
Theorem C13_exactly : forall o ops, cache_mu_0_x o = None -> cache_mu_ex_x o = None ->
  let r := geo_run o ops in let a := powers_of (t_0 o, t_ex o) None ops in
  fst (get_mu_0_x r) = map (fun k => cos (fst a) ^ (k + 1)) (seq 0 (nmax o)) /\
  fst (get_mu_ex_x r) = map (fun k => cos (if String.eqb (geometry o) "mono" then fst a else snd a) ^ (k + 1)) (seq 0 (nmax o)).
Proof.
  intros o ops C0 C1.
  assert (G : forall ops o now kept n geo, nmax o = n -> geometry o = geo -> t_0 o = fst now -> (String.eqb geo "mono" = false -> gt_ex o = snd now) ->
     cache_mu_0_x o = option_map (fun k => mu_powers (cos (fst k)) n) kept ->
     cache_mu_ex_x o = option_map (fun k => mu_powers (cos (if String.eqb geo "mono" then fst k else snd k)) n) kept ->
     let r := geo_run o ops in let a := powers_of now kept ops in
     fst (get_mu_0_x r) = mu_powers (cos (fst a)) n /\
     fst (get_mu_ex_x r) = mu_powers (cos (if String.eqb geo "mono" then fst a else snd a)) n).
  { clear. induction ops as [|x ops IH]; intros o now kept n geo N Ge T X C0 C1.
    - cbn. unfold get_mu_0_x, get_mu_ex_x. rewrite C0, C1. destruct kept as [k|]; cbn [option_map kept_or fst]; [split; reflexivity|].
      unfold mu_0, mu_ex, t_ex, is_mono. rewrite N, T, Ge. split; [reflexivity|]. destruct (String.eqb geo "mono") eqn:M; [reflexivity|]. now rewrite X.
    - cbn [geo_run fold_left powers_of]. fold (geo_run (geo_step o x) ops).
      destruct o as [i g t p te pe v s b pd nm c0 c1]. cbn in N, Ge, T, X, C0, C1. subst nm g c0 c1.
      assert (IH' := fun o now kept => IH o now kept n geo). clear IH.
      destruct x as [w|w|w|w| |]; cbn [geo_step]; unfold set_t_ex, set_p_ex, is_mono; cbn [geometry].
      + apply IH'; cbn; auto.
      + destruct (String.eqb geo "mono") eqn:M; rewrite ?M in IH'; apply IH'; cbn; auto; discriminate.
      + apply IH'; cbn; auto.
      + destruct (String.eqb geo "mono") eqn:M; rewrite ?M in IH'; apply IH'; cbn; auto.
      + destruct kept as [k|]; cbn; apply IH'; cbn; auto.
        * unfold mu_0. cbn. now rewrite T.
        * unfold mu_ex, t_ex, is_mono. cbn. destruct (String.eqb geo "mono") eqn:M; [now rewrite T|now rewrite X].
      + apply IH'; cbn; auto. }
  cbv zeta. apply (G ops o (t_0 o, t_ex o) None (nmax o) (geometry o)); auto.
  intros M. unfold t_ex, is_mono. now rewrite M.
Qed.
Print Assumptions C13_exactly.

(** ** C70: with the power 0 the coefficients are those of the half range *)
Theorem C70_power_zero : forall n, coslobe_coefs 0 n = leg_projection half n.
Proof.
  intros n. rewrite coslobe_coefs_clv. unfold leg_projection. f_equal. symmetry. apply is_RInt_unique.
  eapply is_RInt_replace with (l := 0 + 1 / PI * clv 0 n); [ring|].
  apply (is_RInt_Chasles (fun x => half x * leg n x) (-1) 0 1).
  - eapply is_RInt_replace; [|eapply is_RInt_extR; [lra| |apply (is_RInt_constR (-1) 0 0)]]. ring.
    intros x Hx. cbv beta. unfold half. destruct (Rlt_dec 0 x); [lra|ring].
  - eapply is_RInt_extR; [lra| |exact (is_RInt_scalR _ _ _ (1 / PI) _ (moment 0 n))].
    intros x Hx. cbv beta. unfold half. destruct (Rlt_dec 0 x); [simpl; ring|lra].
Qed.
Print Assumptions C70_power_zero.

(** ** C73: the surface function is evaluated with the attributes at its first evaluation, the coefficients belong to the t of their first use,
    in every history *)
Theorem C73_surface_exactly : forall t a ops t_0 t_ex p_0 p_ex,
  let '(t', a') := function_of (t, a) None ops in
  snd (hgS_step (hg_run hgS_step (hg_new t a) ops) (HEval t_0 t_ex p_0 p_ex)) = Some (hgS_func t' (scat_angle t_0 t_ex p_0 p_ex a')).
Proof.
  intros t a ops t_0 t_ex p_0 p_ex.
  assert (G : forall ops o kept, h_func o = kept -> captured (hg_run hgS_step o ops) = function_of (h_t o, h_a o) kept ops).
  { clear. induction ops as [|x ops IH]; intros o kept E.
    - cbn. unfold captured, kept_or. now rewrite E.
    - cbn [hg_run fold_left]. fold (hg_run hgS_step (fst (hgS_step o x)) ops). destruct x; cbn [hgS_step fst function_of].
      + now rewrite (IH _ kept).
      + now rewrite (IH _ kept).
      + destruct (captured o) as [ct ca] eqn:Cp. cbn [fst]. rewrite (IH _ (Some (ct, ca))) by reflexivity. cbn [h_t h_a].
        do 2 f_equal. unfold captured in Cp. rewrite E in Cp. unfold kept_or. congruence.
      + now rewrite (IH _ kept). }
  specialize (G ops (hg_new t a) None eq_refl). cbn [h_t h_a hg_new] in G. rewrite <- G. cbn [hgS_step].
  destruct (captured _) as [t' a']. reflexivity.
Qed.
Print Assumptions C73_surface_exactly.

Theorem C73_coefficients_exactly : forall t a ops n,
  snd (hgS_step (hg_run hgS_step (hg_new t a) ops) (HCoef n)) = Some (hgS_coefs (coefficients_of t None ops) n) /\
  snd (hgV_step (hg_run hgV_step (hg_new t a) ops) (HCoef n)) = Some (hgV_coefs (coefficients_of t None ops) n).
Proof.
  intros t a ops n.
  assert (G : forall st, (st = hgS_step \/ st = hgV_step) -> forall ops o kept, h_coefs o = kept -> captured_t (hg_run st o ops) = coefficients_of (h_t o) kept ops).
  { clear. intros st Hst. induction ops as [|x ops IH]; intros o kept E.
    - cbn. unfold captured_t, kept_or. now rewrite E.
    - cbn [hg_run fold_left]. fold (hg_run st (fst (st o x)) ops). destruct x; cbn [coefficients_of].
      + rewrite (IH _ kept); destruct Hst as [->| ->]; cbn; auto.
      + rewrite (IH _ kept); destruct Hst as [->| ->]; cbn; auto.
      + rewrite (IH _ kept); destruct Hst as [->| ->]; cbn; auto; destruct (captured o); cbn; auto.
      + rewrite (IH _ (Some (captured_t o))); [|destruct Hst as [->| ->]; reflexivity].
        unfold captured_t. rewrite E. destruct Hst as [->| ->]; reflexivity. }
  pose proof (G hgS_step (or_introl eq_refl) ops (hg_new t a) None eq_refl) as GS.
  pose proof (G hgV_step (or_intror eq_refl) ops (hg_new t a) None eq_refl) as GV. cbn [h_t hg_new] in GS, GV.
  cbn [hgS_step hgV_step snd]. rewrite GS, GV. split; reflexivity.
Qed.
Print Assumptions C73_coefficients_exactly.

(** ** C75: among the admissible angles and optical depths the result is not a number exactly at nadir (of incidence or of exit) and without
    vegetation; otherwise it is finite *)
Theorem C75_exactly : forall expi expn V S g I0 omega tau NormBRDF bsf t_0 p_0 t_ex p_ex,
  is_expi expi -> is_expn expn -> bounded_obj V -> bounded_obj S -> 0 <= tau -> 0 < cos t_0 <= 1 -> 0 < cos t_ex <= 1 ->
  let r := interaction expi expn V S g I0 omega tau NormBRDF bsf t_0 p_0 t_ex p_ex in
  (r = Ok NaN <-> tau = 0 \/ cos t_0 = 1 \/ cos t_ex = 1) /\ (r = Ok NaN \/ exists v, r = Ok (Fin v)).
Proof.
  intros expi expn V S g I0 omega tau NormBRDF bsf t_0 p_0 t_ex p_ex He Hn HV HS Ht H0 H1 r.
  assert (Hl : forall mu, 0 < mu <= 1 -> (tau = 0 \/ mu = 1) -> hlp1 expi mu tau = NaN).
  { intros mu Hm [->| ->]; unfold hlp1, ndiv, nexpi.
    - destruct (Req_EM_T (- 0) 0) as [|N]; [|exfalso; apply N; ring].
      destruct (Req_EM_T (0 / mu - 0) 0) as [|N]; [|exfalso; apply N; field; lra].
      pose proof (exp_pos (- 0 / mu)). destruct (Req_EM_T (1 - mu) 0) as [Q|Q].
      + destruct (Rlt_dec 0 mu); [|lra]. simpl. destruct (Rlt_dec 0 (exp (- 0 / mu))); [reflexivity|lra].
      + simpl. assert (0 < mu / (1 - mu)) by (apply Rdiv_lt_0_compat; lra). destruct (Rlt_dec 0 (mu / (1 - mu))); [|lra]. simpl.
        destruct (Rlt_dec 0 (exp (- 0 / mu))); [reflexivity|lra].
    - destruct (Req_EM_T (1 - 1) 0); [|lra]. destruct (Rlt_dec 0 1); [|lra].
      destruct (Req_EM_T (tau / 1 - tau) 0) as [|N]; [|exfalso; apply N; field].
      pose proof (exp_pos (- tau / 1)). simpl. destruct (Rlt_dec 0 (exp (- tau / 1))); [|lra].
      destruct (Req_EM_T (- tau) 0); reflexivity. }
  assert (D : (tau = 0 \/ cos t_0 = 1 \/ cos t_ex = 1) \/ (0 < tau /\ cos t_0 < 1 /\ cos t_ex < 1)).
  { destruct (Req_EM_T tau 0); [tauto|]. destruct (Req_EM_T (cos t_0) 1); [tauto|]. destruct (Req_EM_T (cos t_ex) 1); [tauto|]. right. lra. }
  destruct D as [D|D].
  - assert (E : r = Ok NaN).
    { unfold r, interaction.
      destruct (calc_Fint_ok expi expn V S g tau t_0 p_0 t_ex p_ex HV HS) as [x [-> Hx]].
      destruct (calc_Fint_ok expi expn V S g tau t_ex p_ex t_0 p_0 HV HS) as [y [-> Hy]]. cbn [bind].
      assert (O : hlp1 expi (cos t_0) tau = NaN \/ hlp1 expi (cos t_ex) tau = NaN).
      { destruct D as [D|[D|D]]; [left|left|right]; apply Hl; tauto. }
      destruct O as [O|O]; [rewrite (Hx O); reflexivity|rewrite (Hy O), nscale_nan, nadd_nan_r; reflexivity]. }
    split; [tauto|now left].
  - destruct (C75_finite_partial expi expn V S g I0 omega tau NormBRDF bsf t_0 p_0 t_ex p_ex) as [v E]; try assumption; try lra.
    fold r in E. split; [|right; now exists v]. split; [intros X; rewrite E in X; discriminate|lra].
Qed.
Print Assumptions C75_exactly.

Example C75_exactly_example : 0 < cos (PI / 3) <= 1 /\ cos (PI / 3) <> 1.
Proof. rewrite cos_PI3. lra. Qed.
Example C13_exactly_example : powers_of (0, 0) None [OpT0 1; OpInteraction; OpT0 2; OpTex 3; OpInteraction] = (1, 0) /\
  powers_of (0, 0) None [OpT0 1; OpInteraction; OpT0 2; OpClear] = (2, 0) /\ cache_mu_0_x ex_o = None /\ cache_mu_ex_x ex_o = None.
Proof. repeat split. Qed.
Example C73_exactly_example : function_of (1/2, default_a_S) None [HSetT (1/3); HEval 1 1 0 PI; HSetT (1/4); HSetA (A3 1 1 1); HCoef 2] = (1/3, default_a_S) /\
  coefficients_of (1/2) None [HSetT (1/3); HEval 1 1 0 PI; HSetT (1/4); HCoef 2; HSetT 0] = 1/4.
Proof. split; reflexivity. Qed.
Example C07_exactly_example : mu_0 (set_t_0 ex_o 0) <> 0 /\ mu_ex (set_t_0 ex_o 0) <> 0 /\ mu_0 (set_t_0 ex_o 0) + mu_ex (set_t_0 ex_o 0) <> 0.
Proof. unfold mu_0, mu_ex, t_ex, t_0. cbn. rewrite cos_0. lra. Qed.
Example C70_power_zero_example : half 1 = 1 / PI /\ half (-1) = 0.
Proof. unfold half. destruct (Rlt_dec 0 1), (Rlt_dec 0 (-1)); lra. Qed.
