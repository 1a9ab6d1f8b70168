(** Properties C01-C13 of the RT1 class (rt1/rt1.py). *)
From Coq Require Import Reals List String Bool Lra Lia.
From Coquelicot Require Import Coquelicot.
From Verif Require Import Base Base_Proofs RT_Model RT_Spec RT_Proofs.
Import ListNotations.
Local Open Scope R_scope.

(** C01 *)
Theorem C01_surface_slope : forall o t,
  geometry o = "mono"%string -> 0 < cos t -> ex_derive (back_brdf o) t ->
  is_derive (along_t0 surface o) t (surface_slope false false (set_t_0 o t)).
Proof.
  intros o t Hg Hc Hd. apply surface_is_derive; auto. unfold is_mono. rewrite Hg. reflexivity.
Qed.
Print Assumptions C01_surface_slope.
Example C01_example :
  is_derive (along_t0 surface ex_o) (PI/3) (surface_slope false false (set_t_0 ex_o (PI/3))).
Proof. apply C01_surface_slope; [reflexivity | apply cos_PI3_pos | apply ex_brdf_diff]. Qed.

(** C02 *)
Theorem C02_volume_slope : forall o t,
  geometry o = "mono"%string -> 0 < cos t -> ex_derive (back_p o) t ->
  is_derive (along_t0 volume o) t (volume_slope false false (set_t_0 o t)).
Proof.
  intros o t Hg Hc Hd. apply volume_is_derive; auto. unfold is_mono. rewrite Hg. reflexivity.
Qed.
Print Assumptions C02_volume_slope.
Example C02_example :
  is_derive (along_t0 volume ex_o) (PI/3) (volume_slope false false (set_t_0 ex_o (PI/3))).
Proof. apply C02_volume_slope; [reflexivity | apply cos_PI3_pos | apply ex_p_diff]. Qed.

(** C03 *)
Theorem C03_surface_slope_units : forall dB sig0 o t,
  geometry o = "mono"%string -> 0 < cos t -> ex_derive (back_brdf o) t ->
  (dB = true -> 0 < surface (set_t_0 o t)) ->
  is_derive (fun u => in_units dB sig0 u (surface (set_t_0 o u))) t
            (surface_slope dB sig0 (set_t_0 o t)).
Proof.
  intros dB sig0 o t Hg Hc Hd Hp.
  pose proof (C01_surface_slope o t Hg Hc Hd) as H.
  pose proof (units_slope_ok dB sig0 _ t _ H Hc Hp) as K. destruct dB, sig0; exact K.
Qed.
Print Assumptions C03_surface_slope_units.

Theorem C03_volume_slope_units : forall dB sig0 o t,
  geometry o = "mono"%string -> 0 < cos t -> ex_derive (back_p o) t ->
  (dB = true -> 0 < volume (set_t_0 o t)) ->
  is_derive (fun u => in_units dB sig0 u (volume (set_t_0 o u))) t
            (volume_slope dB sig0 (set_t_0 o t)).
Proof.
  intros dB sig0 o t Hg Hc Hd Hp.
  pose proof (C02_volume_slope o t Hg Hc Hd) as H.
  pose proof (units_slope_ok dB sig0 _ t _ H Hc Hp) as K. destruct dB, sig0; exact K.
Qed.
Print Assumptions C03_volume_slope_units.

Theorem C03_total_slope_units : forall dB sig0 o t,
  geometry o = "mono"%string -> 0 < cos t -> ex_derive (back_brdf o) t -> ex_derive (back_p o) t ->
  (dB = true -> 0 < volume (set_t_0 o t) + surface (set_t_0 o t)) ->
  is_derive (fun u => in_units dB sig0 u (volume (set_t_0 o u) + surface (set_t_0 o u))) t
            (tot_slope dB sig0 (set_t_0 o t)).
Proof.
  intros dB sig0 o t Hg Hc Hd Hd' Hp.
  pose proof (C01_surface_slope o t Hg Hc Hd) as H1. pose proof (C02_volume_slope o t Hg Hc Hd') as H2.
  pose proof (is_derive_plus _ _ t _ _ H2 H1) as H.
  pose proof (units_slope_ok dB sig0 (fun u => volume (set_t_0 o u) + surface (set_t_0 o u)) t _ H Hc Hp) as K.
  destruct dB, sig0; exact K.
Qed.
Print Assumptions C03_total_slope_units.
Example C03_example : 0 < surface (set_t_0 ex_o (PI/3)) /\
  is_derive (fun u => in_units true true u (surface (set_t_0 ex_o u))) (PI/3)
            (surface_slope true true (set_t_0 ex_o (PI/3))).
Proof.
  assert (0 < surface (set_t_0 ex_o (PI/3))).
  { rewrite surface_mono by (try reflexivity; rewrite cos_PI3; lra).
    unfold back_brdf, ex_o; cbn. rewrite cos_PI3.
    generalize (exp_pos (- (2 * (1 / 2) / (1 / 2)))). intro. lra. }
  split; auto. apply C03_surface_slope_units; auto; [apply cos_PI3_pos | apply ex_brdf_diff].
Qed.

(** C04 *)
Theorem C04_surface_curv : forall o t,
  geometry o = "mono"%string -> 0 < cos t -> twice_diff (back_brdf o) t ->
  is_derive_n (along_t0 surface o) 2 t (surface_curv false false (set_t_0 o t)).
Proof.
  intros o t Hg Hc Hd. assert (Hm : is_mono o = true) by (unfold is_mono; rewrite Hg; reflexivity).
  apply (units_curv_ok false false (along_t0 surface o) (along_t0 surface_I_slope o)); auto; try discriminate.
  - destruct Hd as [Hd _]. generalize (filter_and _ _ Hd (locally_cos_pos t Hc)).
    apply filter_imp. intros u [H1 H2]. apply surface_is_derive; auto.
  - apply surface_slope_is_derive; auto.
Qed.
Print Assumptions C04_surface_curv.

Theorem C04_volume_curv : forall o t,
  geometry o = "mono"%string -> 0 < cos t -> twice_diff (back_p o) t ->
  is_derive_n (along_t0 volume o) 2 t (volume_curv false false (set_t_0 o t)).
Proof.
  intros o t Hg Hc Hd. assert (Hm : is_mono o = true) by (unfold is_mono; rewrite Hg; reflexivity).
  apply (units_curv_ok false false (along_t0 volume o) (along_t0 volume_I_slope o)); auto; try discriminate.
  - destruct Hd as [Hd _]. generalize (filter_and _ _ Hd (locally_cos_pos t Hc)).
    apply filter_imp. intros u [H1 H2]. apply volume_is_derive; auto.
  - apply volume_slope_is_derive; auto.
Qed.
Print Assumptions C04_volume_curv.
Example C04_example :
  is_derive_n (along_t0 volume ex_o) 2 (PI/3) (volume_curv false false (set_t_0 ex_o (PI/3))).
Proof. apply C04_volume_curv; [reflexivity | apply cos_PI3_pos | apply ex_p_twice]. Qed.

(** C05 *)
Theorem C05_surface_curv_units : forall dB sig0 o t,
  geometry o = "mono"%string -> 0 < cos t -> twice_diff (back_brdf o) t ->
  (dB = true -> 0 < surface (set_t_0 o t)) ->
  is_derive_n (fun u => in_units dB sig0 u (surface (set_t_0 o u))) 2 t
            (surface_curv dB sig0 (set_t_0 o t)).
Proof.
  intros dB sig0 o t Hg Hc Hd Hp. assert (Hm : is_mono o = true) by (unfold is_mono; rewrite Hg; reflexivity).
  pose proof (units_curv_ok dB sig0 (along_t0 surface o) (along_t0 surface_I_slope o) t
                (surface_I_curv (set_t_0 o t))) as K.
  destruct dB, sig0; apply K; auto; try (apply surface_slope_is_derive; auto);
  destruct Hd as [Hd _]; generalize (filter_and _ _ Hd (locally_cos_pos t Hc));
  apply filter_imp; intros u [H1 H2]; apply surface_is_derive; auto.
Qed.
Print Assumptions C05_surface_curv_units.

Theorem C05_volume_curv_units : forall dB sig0 o t,
  geometry o = "mono"%string -> 0 < cos t -> twice_diff (back_p o) t ->
  (dB = true -> 0 < volume (set_t_0 o t)) ->
  is_derive_n (fun u => in_units dB sig0 u (volume (set_t_0 o u))) 2 t
            (volume_curv dB sig0 (set_t_0 o t)).
Proof.
  intros dB sig0 o t Hg Hc Hd Hp. assert (Hm : is_mono o = true) by (unfold is_mono; rewrite Hg; reflexivity).
  pose proof (units_curv_ok dB sig0 (along_t0 volume o) (along_t0 volume_I_slope o) t
                (volume_I_curv (set_t_0 o t))) as K.
  destruct dB, sig0; apply K; auto; try (apply volume_slope_is_derive; auto);
  destruct Hd as [Hd _]; generalize (filter_and _ _ Hd (locally_cos_pos t Hc));
  apply filter_imp; intros u [H1 H2]; apply volume_is_derive; auto.
Qed.
Print Assumptions C05_volume_curv_units.

Theorem C05_total_curv_units : forall dB sig0 o t,
  geometry o = "mono"%string -> 0 < cos t -> twice_diff (back_brdf o) t -> twice_diff (back_p o) t ->
  (dB = true -> 0 < volume (set_t_0 o t) + surface (set_t_0 o t)) ->
  is_derive_n (fun u => in_units dB sig0 u (volume (set_t_0 o u) + surface (set_t_0 o u))) 2 t
            (tot_curv dB sig0 (set_t_0 o t)).
Proof.
  intros dB sig0 o t Hg Hc Hs Hv Hp. assert (Hm : is_mono o = true) by (unfold is_mono; rewrite Hg; reflexivity).
  pose proof (units_curv_ok dB sig0 (fun u => volume (set_t_0 o u) + surface (set_t_0 o u))
                (fun u => volume_I_slope (set_t_0 o u) + surface_I_slope (set_t_0 o u)) t
                (volume_I_curv (set_t_0 o t) + surface_I_curv (set_t_0 o t))) as K.
  assert (A : locally t (fun u => is_derive (fun u => volume (set_t_0 o u) + surface (set_t_0 o u)) u
                (volume_I_slope (set_t_0 o u) + surface_I_slope (set_t_0 o u)))).
  { destruct Hs as [Hs _]. destruct Hv as [Hv _].
    generalize (filter_and _ _ (filter_and _ _ Hs Hv) (locally_cos_pos t Hc)).
    apply filter_imp; intros u [[H1 H2] H3].
    apply (is_derive_plus (along_t0 volume o) (along_t0 surface o) u);
    [apply volume_is_derive | apply surface_is_derive]; auto. }
  assert (B : is_derive (fun u => volume_I_slope (set_t_0 o u) + surface_I_slope (set_t_0 o u)) t
                (volume_I_curv (set_t_0 o t) + surface_I_curv (set_t_0 o t))).
  { apply (is_derive_plus (along_t0 volume_I_slope o) (along_t0 surface_I_slope o) t);
    [apply volume_slope_is_derive | apply surface_slope_is_derive]; auto. }
  destruct dB, sig0; apply K; auto.
Qed.
Print Assumptions C05_total_curv_units.
Example C05_example : 0 < volume (set_t_0 ex_o (PI/3)) + surface (set_t_0 ex_o (PI/3)) /\
  is_derive_n (fun u => in_units true true u (volume (set_t_0 ex_o u) + surface (set_t_0 ex_o u))) 2 (PI/3)
            (tot_curv true true (set_t_0 ex_o (PI/3))).
Proof.
  assert (0 < volume (set_t_0 ex_o (PI/3)) + surface (set_t_0 ex_o (PI/3))).
  { rewrite volume_mono, surface_mono by (try reflexivity; rewrite cos_PI3; lra).
    unfold back_brdf, back_p, ex_o; cbn. rewrite cos_PI3.
    generalize (exp_pos (- (2 * (1 / 2) / (1 / 2)))). intro.
    assert (exp (- (2 * (1 / 2) / (1 / 2))) < 1) by (apply exp_lt1; lra).
    assert (0 < 3 / (16 * PI)) by (pose proof PI_RGT_0; apply Rdiv_lt_0_compat; lra).
    set (q := 3 / (16 * PI)) in *. set (e := exp _) in *.
    apply Rplus_lt_0_compat; [|lra].
    assert (0 < (1 - e) * q) by (apply Rmult_lt_0_compat; lra).
    replace ((1 - 1 / 10) * (1 * (3 / 10) / 2 * (1 - e) * (q * (1 + 1 / 2 * (1 / 2) * (1 / 2 * (1 / 2) * 1)))))
      with (((1 - e) * q) * ((1 - 1 / 10) * ((3 / 10) / 2 * (1 + 1 / 16)))) by field.
    lra. }
  split; auto. apply C05_total_curv_units; auto; [apply cos_PI3_pos | apply ex_brdf_twice | apply ex_p_twice].
Qed.

(** C06 *)
Theorem C06_jacobian_linear_parameters : forall o,
  (exists j, jac_entry false false o "omega" = Ok j /\
             is_derive (fun v => total (set_omega o v)) (omega (V o)) j) /\
  (exists j, jac_entry false false o "NormBRDF" = Ok j /\
             is_derive (fun v => total (set_NormBRDF o v)) (NormBRDF (SRF o)) j) /\
  (exists j, jac_entry false false o "bsf" = Ok j /\
             is_derive (fun v => total (set_bsf o v)) (bsf o) j).
Proof.
  intro o. split; [|split]; eexists; (split; [reflexivity|]); change (jac_norm false false o) with 1;
  rewrite Rmult_1_r.
  - apply omega_is_derive.
  - apply NormBRDF_is_derive.
  - apply bsf_is_derive.
Qed.
Print Assumptions C06_jacobian_linear_parameters.
Example C06_example : exists j, jacobian false false (set_t_0 ex_b (PI/3)) ["bsf"; "omega"]%string = Ok j.
Proof. eexists; reflexivity. Qed.

(** C07: false in general; exact error term, and a concrete refutation *)
Theorem C07_jacobian_tau_error_term : forall o, mu_0 o <> 0 -> mu_ex o <> 0 ->
  exists j d, jac_entry false false o "tau" = Ok j /\
    is_derive (fun v => total (set_tau o v)) (tau (V o)) d /\
    j - d = (1 - bsf o) * I0 o * omega (V o) * (mu_0 o / (mu_0 o + mu_ex o)) * p_val o
            * exp (- tau (V o) / mu_0 o - tau (V o) / mu_ex o) * (mu_ex o - / mu_ex o).
Proof.
  intros o H0 He. eexists. exists (true_dtau o). split; [reflexivity|]. split; [apply tau_is_derive; auto|].
  change (jac_norm false false o) with 1. unfold true_dtau, dvolume_dtau. unfold Rdiv.
  set (q := / (mu_0 o + mu_ex o)). rewrite Rinv_inv. ring.
Qed.
Print Assumptions C07_jacobian_tau_error_term.

(** the entry is right at nadir exit direction (mu_ex = 1) and for vanishing volume term *)
Theorem C07_jacobian_tau_partial : forall o, mu_0 o <> 0 -> mu_ex o <> 0 ->
  (mu_ex o = 1 \/ omega (V o) = 0 \/ bsf o = 1 \/ p_val o = 0) ->
  exists j, jac_entry false false o "tau" = Ok j /\
    is_derive (fun v => total (set_tau o v)) (tau (V o)) j.
Proof.
  intros o H0 He Hc. destruct (C07_jacobian_tau_error_term o H0 He) as (j & d & Hj & Hd & He').
  exists j. split; auto. replace j with d; auto.
  assert (Z : j - d = 0); [|lra].
  rewrite He'. destruct Hc as [E|[E|[E|E]]]; rewrite E; try ring.
  rewrite Rinv_1. ring.
Qed.
Print Assumptions C07_jacobian_tau_partial.

Theorem C07_jacobian_tau_refuted : exists o j, mu_0 o <> 0 /\ mu_ex o <> 0 /\
  jac_entry false false o "tau" = Ok j /\
  ~ is_derive (fun v => total (set_tau o v)) (tau (V o)) j.
Proof.
  exists (set_t_0 ex_o (PI/3)). 
  assert (E0 : mu_0 (set_t_0 ex_o (PI/3)) = 1/2) by (unfold mu_0, t_0; cbn; apply cos_PI3).
  assert (E1 : mu_ex (set_t_0 ex_o (PI/3)) = 1/2) by (unfold mu_ex, t_ex, t_0; cbn; apply cos_PI3).
  destruct (C07_jacobian_tau_error_term (set_t_0 ex_o (PI/3))) as (j & d & Hj & Hd & He); try lra.
  exists j. repeat split; try lra; auto. intro Hn.
  assert (j = d). { transitivity (Derive (fun v : R => total (set_tau (set_t_0 ex_o (PI / 3)) v)) (tau (V (set_t_0 ex_o (PI / 3))))).
    symmetry; apply is_derive_unique; auto. apply is_derive_unique; auto. }
  rewrite E0, E1 in He.
  assert (0 < 3 / (16 * PI)) by (pose proof PI_RGT_0; apply Rdiv_lt_0_compat; lra).
  assert (Hp : p_val (set_t_0 ex_o (PI/3)) = 3 / (16 * PI) * (1 + 1 / 16)).
  { unfold p_val, t_ex, t_0; cbn. rewrite cos_PI3. field. pose proof PI_RGT_0; lra. }
  rewrite Hp in He. cbn [bsf I0 V omega set_t_0 ex_o init ex_V tau] in He.
  set (q := 3 / (16 * PI)) in *.
  set (e := exp _) in He. assert (0 < e) by apply exp_pos.
  assert (0 < q * e) by (apply Rmult_lt_0_compat; auto).
  assert (j - d = (q * e) * (- (9/10) * (3/10) * (1/2) * (17/16) * (3/2))) by (rewrite He; field).
  lra.
Qed.
Print Assumptions C07_jacobian_tau_refuted.
Example C07_example : mu_ex (set_t_0 ex_o 0) = 1.
Proof. unfold mu_ex, t_ex, t_0; cbn. apply cos_0. Qed.

(** C08 *)
Theorem C08_jacobian_free_parameter : forall o key v,
  free_key key -> dget string_dec key (param_dict o) = Some v -> diff_in o key ->
  exists j, jac_entry false false o key = Ok j /\
    is_derive (fun x => total (set_param o key x)) v j.
Proof.
  intros o key v Hk Hv Hd. destruct (free_key_eqb key Hk) as (E1 & E2 & E3 & E4).
  unfold jac_entry. rewrite E1, E2, E3, E4. unfold dmem. rewrite Hv.
  eexists. split; [reflexivity|]. change (jac_norm false false o) with 1. rewrite Rmult_1_r.
  apply free_is_derive; auto.
Qed.
Print Assumptions C08_jacobian_free_parameter.
Example C08_example : exists j, jac_entry false false (set_t_0 ex_o (PI/3)) "x" = Ok j /\
    is_derive (fun x => total (set_param (set_t_0 ex_o (PI/3)) "x" x)) (1/2) j.
Proof.
  apply C08_jacobian_free_parameter; [repeat split; discriminate | reflexivity |].
  intros v Hv. cbn in Hv. injection Hv as <-. split; cbn; auto_derive; auto.
Qed.

(** C09 *)
Theorem C09_jacobian_units : forall dB sig0 o key v jl,
  key_value o key = Some v -> 0 < cos (t_0 o) -> (dB = true -> 0 < total o) ->
  jac_entry false false o key = Ok jl ->
  is_derive (fun x => total (with_key o key x)) v jl ->
  exists j, jac_entry dB sig0 o key = Ok j /\
    is_derive (fun x => in_units dB sig0 (t_0 o) (total (with_key o key x))) v j.
Proof.
  intros dB sig0 o key v jl Hv Hc Hp Hj Hd. eexists. split; [apply (jac_entry_norm dB sig0 _ _ _ Hj)|].
  pose proof (jac_chain dB sig0 (fun x => total (with_key o key x)) v jl (t_0 o) Hd Hc) as K.
  cbv beta in K. rewrite (with_key_same o key v Hv) in K. specialize (K Hp).
  unfold jac_norm. unfold total in K at 2. exact K.
Qed.
Print Assumptions C09_jacobian_units.

Theorem C09_jacobian_unknown_key : forall dB sig0 o key,
  jac_entry dB sig0 o key = Err AssertionError <-> key_value o key = None.
Proof.
  intros dB sig0 o key. unfold jac_entry, key_value, dmem.
  destruct (String.eqb key "omega"); [split; discriminate|].
  destruct (String.eqb key "tau"); [split; discriminate|].
  destruct (String.eqb key "NormBRDF"); [split; discriminate|].
  destruct (String.eqb key "bsf"); [split; discriminate|].
  destruct (dget string_dec key (param_dict o)); split; auto; discriminate.
Qed.
Print Assumptions C09_jacobian_unknown_key.

(** the whole list: entry by entry in the order requested, or AssertionError if any name is unknown *)
Theorem C09_jacobian_list : forall dB sig0 o keys,
  (forall l, jacobian dB sig0 o keys = Ok l ->
     List.length l = List.length keys /\
     forall i k, nth_error keys i = Some k ->
       exists j, nth_error l i = Some j /\ jac_entry dB sig0 o k = Ok j) /\
  ((exists k, In k keys /\ key_value o k = None) <-> jacobian dB sig0 o keys = Err AssertionError).
Proof.
  intros dB sig0 o keys. split.
  - unfold jacobian. induction keys as [|k ks IH]; intros l H; cbn in H.
    + inversion H; subst. split; auto. intros [|i] k E; discriminate.
    + destruct (jac_entry dB sig0 o k) eqn:E; cbn in H; [|discriminate].
      destruct (mapM (jac_entry dB sig0 o) ks) eqn:E2; cbn in H; [|discriminate].
      inversion H; subst. destruct (IH _ eq_refl) as [H1 H2]. split; [cbn; congruence|].
      intros [|i] k' Hk; cbn in *; [injection Hk as <-; eauto | eauto].
  - unfold jacobian. induction keys as [|k ks IH]; cbn.
    + split; [intros (k & [] & _) | discriminate].
    + split.
      * intros (k' & [->|Hin] & Hn).
        { apply (C09_jacobian_unknown_key dB sig0) in Hn. rewrite Hn. reflexivity. }
        { assert (A : mapM (jac_entry dB sig0 o) ks = Err AssertionError) by (apply IH; eauto).
          destruct (jac_entry dB sig0 o k) eqn:E; cbn; [rewrite A; reflexivity|].
          unfold jac_entry in E. repeat match type of E with context [if ?b then _ else _] => destruct b end;
          try discriminate; inversion E; reflexivity. }
      * intro H. destruct (jac_entry dB sig0 o k) eqn:E; cbn in H.
        { destruct (mapM (jac_entry dB sig0 o) ks) eqn:E2; cbn in H; [discriminate|].
          inversion H; subst. destruct IH as [_ IH]. destruct (IH eq_refl) as (k' & A & B). eauto. }
        { inversion H; subst. exists k. split; auto. apply (C09_jacobian_unknown_key dB sig0). auto. }
Qed.
Print Assumptions C09_jacobian_list.
Example C09_example : jacobian true true (set_t_0 ex_o (PI/3)) ["omega"; "y"]%string = Err AssertionError
  /\ key_value ex_o "y"%string = None /\ 0 < cos (t_0 (set_t_0 ex_o (PI/3))).
Proof. split; [reflexivity|]. split; [reflexivity|]. cbn. apply cos_PI3_pos. Qed.

(** C10 *)
Theorem C10_calc_decomposition : forall int_Q o F1 F2,
  let r := calc_scalar int_Q o F1 F2 in
  o_surf r = surface o /\
  (0 < tau (V o) -> o_vol r = volume o) /\
  (0 < tau (V o) -> int_Q = true -> o_int r = Some (interaction o F1 F2)) /\
  (int_Q = false -> o_int r = None /\ o_tot r = Some (o_surf r + o_vol r)) /\
  (int_Q = true -> exists i, o_int r = Some i /\ o_tot r = fadd (Some (o_surf r + o_vol r)) i).
Proof.
  intros int_Q o F1 F2. cbn zeta. unfold calc_scalar, mk_calc.
  destruct (Rlt_dec 0 (tau (V o))) as [H|H]; destruct int_Q; cbn; repeat split; intros; auto; try discriminate; try lra;
  eexists; split; reflexivity.
Qed.
Print Assumptions C10_calc_decomposition.

Theorem C10_calc_tau_zero : forall int_Q o F1 F2, tau (V o) = 0 ->
  let r := calc_scalar int_Q o F1 F2 in
  o_vol r = 0 /\ (int_Q = true -> o_int r = Some (Some 0)) /\
  o_tot r = Some (NormBRDF (SRF o) * (I0 o * mu_0 o * brdf_val o)).
Proof.
  intros int_Q o F1 F2 Ht. cbn zeta. unfold calc_scalar, mk_calc, surface. rewrite Ht.
  destruct (Rlt_dec 0 0) as [H|_]; [lra|].
  replace (- (0 / mu_0 o) - 0 / mu_ex o) with 0 by (unfold Rdiv; ring). rewrite exp_0.
  destruct int_Q; cbn; repeat split; intros; auto; try discriminate; f_equal; ring.
Qed.
Print Assumptions C10_calc_tau_zero.

Theorem C10_calc_bare_soil : forall int_Q o f1 f2, bsf o = 1 ->
  let r := calc_scalar int_Q o (Some f1) (Some f2) in
  o_vol r = 0 /\ (int_Q = true -> o_int r = Some (Some 0)) /\
  o_tot r = Some (NormBRDF (SRF o) * (I0 o * mu_0 o * brdf_val o)).
Proof.
  intros int_Q o f1 f2 Hb. cbn zeta. unfold calc_scalar, mk_calc, surface, volume, interaction. rewrite Hb.
  destruct (Rlt_dec 0 (tau (V o))) as [H|H]; destruct int_Q; cbn; repeat split; intros; try discriminate;
  first [ring | apply f_equal; ring | do 2 apply f_equal; ring].
Qed.
Print Assumptions C10_calc_bare_soil.

Theorem C10_calc_omega_zero : forall int_Q o f1 f2, omega (V o) = 0 ->
  let r := calc_scalar int_Q o (Some f1) (Some f2) in
  o_vol r = 0 /\ (int_Q = true -> o_int r = Some (Some 0)) /\ o_tot r = Some (surface o).
Proof.
  intros int_Q o f1 f2 Hb. cbn zeta. unfold calc_scalar, mk_calc, volume, interaction. rewrite Hb.
  destruct (Rlt_dec 0 (tau (V o))) as [H|H]; destruct int_Q; cbn; repeat split; intros; try discriminate;
  unfold Rdiv; first [ring | apply f_equal; ring | do 2 apply f_equal; ring].
Qed.
Print Assumptions C10_calc_omega_zero.

(** array branch: if the interaction factors are NaN exactly where tau = 0, every element is
    what the scalar branch computes for it *)
Theorem C10_calc_array_matches_scalar : forall l,
  (forall o F1 F2, In (o, (F1, F2)) l -> 0 <= tau (V o) /\
     (interaction o F1 F2 = None <-> tau (V o) = 0)) ->
  calc_array true l = map (fun x => calc_scalar true (fst x) (fst (snd x)) (snd (snd x))) l.
Proof.
  intros l H. unfold calc_array.
  set (raw := map (fun x => interaction (fst x) (fst (snd x)) (snd (snd x))) l).
  assert (Heq : map is_nan raw = map (fun x => Reqb (tau (V (fst x))) 0) l).
  { unfold raw. rewrite map_map. apply map_ext_in. intros [o [F1 F2]] Hin. cbn.
    destruct (H o F1 F2 Hin) as [_ [A B]]. unfold is_nan, Reqb.
    destruct (interaction o F1 F2) eqn:E; destruct (Req_EM_T (tau (V o)) 0); auto.
    - specialize (B e). discriminate.
    - exfalso; apply n; auto. }
  rewrite Heq. destruct (list_eq_dec bool_dec _ _) as [_|n]; [|congruence]. rewrite andb_true_r.
  set (rep := existsb _ _).
  assert (Hrep : forall o F1 F2, In (o, (F1, F2)) l -> interaction o F1 F2 = None -> rep = true).
  { intros o F1 F2 Hin E. unfold rep. apply existsb_exists. exists true. split; auto.
    apply in_map_iff. exists (o, (F1, F2)). split; auto. cbn. unfold Reqb.
    destruct (Req_EM_T (tau (V o)) 0); auto. exfalso; apply n. apply (H o F1 F2 Hin). auto. }
  clearbody rep. unfold raw. clear Heq.
  assert (G : forall m, incl m l ->
    map (fun xi => let '(x, i) := xi in mk_calc true (surface (fst x)) (volume (fst x)) (if andb rep (is_nan i) then Some 0 else i))
        (combine m (map (fun x => interaction (fst x) (fst (snd x)) (snd (snd x))) m))
    = map (fun x => calc_scalar true (fst x) (fst (snd x)) (snd (snd x))) m).
  { induction m as [|[o [F1 F2]] m IH]; intro Hi; [reflexivity|]. cbn [map combine fst snd]. rewrite IH by (intros x Hx; apply Hi; right; auto).
    f_equal. assert (Hin : In (o, (F1, F2)) l) by (apply Hi; left; auto).
    destruct (H o F1 F2 Hin) as [Hpos [A B]]. unfold calc_scalar.
    destruct (Rlt_dec 0 (tau (V o))) as [Hlt|Hge].
    - destruct (interaction o F1 F2) eqn:E; cbn; [rewrite andb_false_r; reflexivity|].
      exfalso. specialize (A eq_refl). lra.
    - assert (T : tau (V o) = 0) by lra. specialize (B T).
      rewrite (Hrep o F1 F2 Hin B). rewrite B. cbn.
      assert (Hv : volume o = 0).
      { unfold volume. rewrite T. replace (- (0 / mu_0 o) - 0 / mu_ex o) with 0 by (unfold Rdiv; ring).
        rewrite exp_0. ring. }
      rewrite Hv. reflexivity. }
  apply G. apply incl_refl.
Qed.
Print Assumptions C10_calc_array_matches_scalar.
Example C10_example : o_vol (calc_scalar true (set_tau (set_t_0 ex_o (PI/3)) 0) None None) = 0
  /\ o_tot (calc_scalar true (set_tau (set_t_0 ex_o (PI/3)) 0) None None)
     = Some (1/5 * (1 * (1/2) * (1 + 1/2 * (1/2 * (1/2))))).
Proof.
  destruct (C10_calc_tau_zero true (set_tau (set_t_0 ex_o (PI/3)) 0) None None eq_refl) as (A & B & C).
  split; auto. rewrite C. unfold mu_0, brdf_val, t_ex, t_0; cbn. rewrite cos_PI3. reflexivity.
Qed.

(** C11 *)
Theorem C11_surface_bounds : forall o,
  0 <= tau (V o) -> 0 < mu_0 o -> 0 < mu_ex o -> 0 <= bsf o <= 1 -> 0 <= I0 o ->
  0 <= NormBRDF (SRF o) -> 0 <= brdf_val o ->
  0 <= surface o <= NormBRDF (SRF o) * (I0 o * mu_0 o * brdf_val o).
Proof.
  intros o Ht H0 He Hb HI HN HB. destruct (att_range o Ht H0 He) as [Ha1 Ha2].
  unfold surface. set (E := exp _) in *. set (B := I0 o * mu_0 o * brdf_val o).
  assert (HBn : 0 <= B) by (unfold B; repeat apply Rmult_le_pos; lra).
  assert (K : 0 <= (1 - bsf o) * (E * B) + bsf o * B <= B).
  { assert (0 <= E * B) by (apply Rmult_le_pos; lra).
    assert (E * B <= 1 * B) by (apply Rmult_le_compat_r; lra).
    assert (0 <= (1 - bsf o) * (E * B)) by (apply Rmult_le_pos; lra).
    assert (0 <= bsf o * B) by (apply Rmult_le_pos; lra).
    assert ((1 - bsf o) * (E * B) <= (1 - bsf o) * (1 * B)) by (apply Rmult_le_compat_l; lra).
    split; lra. }
  split; [apply Rmult_le_pos; tauto | apply Rmult_le_compat_l; tauto].
Qed.
Print Assumptions C11_surface_bounds.

Theorem C11_volume_bounds : forall o,
  0 <= tau (V o) -> 0 < mu_0 o -> 0 < mu_ex o -> 0 <= bsf o <= 1 -> 0 <= I0 o ->
  0 <= omega (V o) -> 0 <= p_val o ->
  0 <= volume o <= (1 - bsf o) * (I0 o * omega (V o) * (mu_0 o / (mu_0 o + mu_ex o)) * p_val o).
Proof.
  intros o Ht H0 He Hb HI HN HB. destruct (att_range o Ht H0 He) as [Ha1 Ha2].
  unfold volume. set (E := exp _) in *.
  set (q := I0 o * omega (V o) * (mu_0 o / (mu_0 o + mu_ex o)) * p_val o).
  assert (Hq : 0 <= q).
  { unfold q. repeat apply Rmult_le_pos; try lra. left. apply Rinv_0_lt_compat. lra. }
  replace (I0 o * omega (V o) * mu_0 o / (mu_0 o + mu_ex o) * (1 - E) * p_val o) with ((1 - E) * q)
    by (unfold q, Rdiv; ring).
  assert (0 <= (1 - E) * q <= q).
  { split; [apply Rmult_le_pos; lra|]. assert (0 <= E * q) by (apply Rmult_le_pos; lra). lra. }
  split; [apply Rmult_le_pos; lra | apply Rmult_le_compat_l; lra].
Qed.
Print Assumptions C11_volume_bounds.

Theorem C11_monotone_in_tau : forall o t1 t2,
  t1 <= t2 -> 0 < mu_0 o -> 0 < mu_ex o -> bsf o <= 1 -> 0 <= I0 o ->
  0 <= NormBRDF (SRF o) -> 0 <= brdf_val o -> 0 <= omega (V o) -> 0 <= p_val o ->
  surface (set_tau o t2) <= surface (set_tau o t1) /\ volume (set_tau o t1) <= volume (set_tau o t2).
Proof.
  intros o t1 t2 Ht H0 He Hb HI HN HB Hw Hp.
  assert (Hexp : exp (- (t2 / mu_0 o) - t2 / mu_ex o) <= exp (- (t1 / mu_0 o) - t1 / mu_ex o)).
  { apply exp_le.
    assert (t1 / mu_0 o <= t2 / mu_0 o) by (apply Rmult_le_compat_r; auto; left; apply Rinv_0_lt_compat; auto).
    assert (t1 / mu_ex o <= t2 / mu_ex o) by (apply Rmult_le_compat_r; auto; left; apply Rinv_0_lt_compat; auto).
    lra. }
  split.
  - unfold surface. cbn [tau V set_tau set_V].
    change (mu_0 (set_tau o t2)) with (mu_0 o). change (mu_ex (set_tau o t2)) with (mu_ex o).
    change (mu_0 (set_tau o t1)) with (mu_0 o). change (mu_ex (set_tau o t1)) with (mu_ex o).
    change (brdf_val (set_tau o t1)) with (brdf_val o). change (brdf_val (set_tau o t2)) with (brdf_val o).
    cbn [I0 SRF bsf set_tau set_V].
    apply Rmult_le_compat_l; auto. apply Rplus_le_compat_r. apply Rmult_le_compat_l; [lra|].
    apply Rmult_le_compat_r; auto. repeat apply Rmult_le_pos; lra.
  - unfold volume. cbn [tau omega V set_tau set_V].
    change (mu_0 (set_tau o t2)) with (mu_0 o). change (mu_ex (set_tau o t2)) with (mu_ex o).
    change (mu_0 (set_tau o t1)) with (mu_0 o). change (mu_ex (set_tau o t1)) with (mu_ex o).
    change (p_val (set_tau o t1)) with (p_val o). change (p_val (set_tau o t2)) with (p_val o).
    cbn [I0 SRF bsf set_tau set_V].
    apply Rmult_le_compat_l; [lra|]. apply Rmult_le_compat_r; auto. apply Rmult_le_compat_l; [|lra].
    unfold Rdiv. repeat apply Rmult_le_pos; try lra. left. apply Rinv_0_lt_compat. lra.
Qed.
Print Assumptions C11_monotone_in_tau.

Theorem C11_affine_in_bsf_linear_in_omega : forall o a b x,
  surface (set_bsf o (x * a + (1 - x) * b)) = x * surface (set_bsf o a) + (1 - x) * surface (set_bsf o b) /\
  volume (set_bsf o (x * a + (1 - x) * b)) = x * volume (set_bsf o a) + (1 - x) * volume (set_bsf o b) /\
  volume (set_omega o (x * a + b)) = x * volume (set_omega o a) + volume (set_omega o b).
Proof.
  intros o a b x. rt_unfold. unfold Rdiv. repeat split; ring.
Qed.
Print Assumptions C11_affine_in_bsf_linear_in_omega.
Example C11_example : 0 <= surface (set_t_0 ex_o (PI/3)) <= 1/5 * (1 * (1/2) * (1 + 1/2 * (1/2 * (1/2)))).
Proof.
  assert (E : brdf_val (set_t_0 ex_o (PI/3)) = 1 + 1/2 * (1/2 * (1/2)))
    by (unfold brdf_val, t_ex, t_0; cbn; rewrite cos_PI3; reflexivity).
  assert (E0 : mu_0 (set_t_0 ex_o (PI/3)) = 1/2) by (unfold mu_0, t_0; cbn; apply cos_PI3).
  assert (E1 : mu_ex (set_t_0 ex_o (PI/3)) = 1/2) by (unfold mu_ex, t_ex, t_0; cbn; apply cos_PI3).
  pose proof (C11_surface_bounds (set_t_0 ex_o (PI/3))) as K. rewrite E, E0, E1 in K.
  apply K; cbn; lra.
Qed.

(** C12 *)
Theorem C12_mono_geometry_invariant : forall o ops, geometry o = "mono"%string ->
  let r := geo_run o ops in
  t_ex r = t_0 r /\ p_ex r = p_0 r + PI /\
  t_0 r = last_t0 (t_0 o) ops /\ p_0 r = last_p0 (p_0 o) ops /\
  r = geo_run o (filter not_exit ops).
Proof.
  intros o ops Hg r. assert (Hm : is_mono o = true) by (unfold is_mono; rewrite Hg; reflexivity).
  assert (Hr : is_mono r = true) by (unfold r; rewrite geo_run_mono; auto).
  destruct (geo_run_fields ops o) as (F1 & F2 & _ & _ & _).
  unfold t_ex, p_ex. rewrite Hr. repeat split; auto.
  unfold r. symmetry. apply geo_run_drop_exit; auto.
Qed.
Print Assumptions C12_mono_geometry_invariant.
Example C12_example :
  let r := geo_run ex_o [OpTex 1; OpT0 (PI/3); OpInteraction; OpPex 2; OpP0 3] in
  t_ex r = PI/3 /\ p_ex r = 3 + PI.
Proof. split; reflexivity. Qed.

(** C13: the cosines follow the geometry in every history ... *)
Theorem C13_cosines_follow : forall o ops,
  let r := geo_run o ops in
  mu_0 r = cos (last_t0 (t_0 o) ops) /\
  mu_ex r = (if String.eqb (geometry o) "mono" then cos (last_t0 (t_0 o) ops)
             else cos (last_tex (t_ex o) ops)).
Proof.
  intros o ops r. destruct (geo_run_fields ops o) as (F1 & F2 & F3 & F4 & _).
  assert (Hm : is_mono r = is_mono o) by apply geo_run_mono.
  unfold mu_0, mu_ex, t_ex. rewrite Hm. unfold t_0. fold r in F1, F3. rewrite F1. split; auto.
  unfold is_mono in *. destruct (String.eqb (geometry o) "mono"); auto. rewrite F3; auto.
Qed.
Print Assumptions C13_cosines_follow.

(** ... the memoised powers do so if no zenith angle is assigned after the object was created
    or its cache cleared ... *)
Theorem C13_powers_partial : forall o ops1 ops2,
  forallb (fun op => negb (assigns_theta op)) ops2 = true ->
  let r := geo_run (clear_cache (geo_run o ops1)) ops2 in
  fst (get_mu_0_x r) = map (fun k => mu_0 r ^ (k + 1)) (seq 0 (nmax o)) /\
  fst (get_mu_ex_x r) = map (fun k => mu_ex r ^ (k + 1)) (seq 0 (nmax o)).
Proof.
  intros o ops1 ops2 H r.
  assert (K : cache_ok r) by (apply cache_ok_run; auto; split; intros l Hl; discriminate).
  assert (N : nmax r = nmax o).
  { unfold r. destruct (geo_run_fields ops2 (clear_cache (geo_run o ops1))) as (_ & _ & _ & _ & ->).
    cbn. apply (geo_run_fields ops1 o). }
  destruct (cache_ok_get r K) as [A B]. rewrite A, B, N. split; reflexivity.
Qed.
Print Assumptions C13_powers_partial.

(** ... but not in general: after interaction() was evaluated once, a new incidence angle does
    not change the powers. *)
Theorem C13_powers_refuted : exists o ops,
  let r := geo_run o ops in
  fst (get_mu_0_x r) <> map (fun k => mu_0 r ^ (k + 1)) (seq 0 (nmax o)).
Proof.
  exists ex_o, [OpT0 (PI/3); OpInteraction; OpT0 0]. cbn. unfold mu_powers, mu_0, t_0; cbn.
  rewrite cos_0, cos_PI3. intro H. injection H. intros. lra.
Qed.
Print Assumptions C13_powers_refuted.
Example C13_example : fst (get_mu_0_x (geo_run ex_o [OpT0 (PI/3); OpInteraction])) = [1/2; 1/2*(1/2); 1/2*(1/2*(1/2))].
Proof. cbn. unfold mu_powers, mu_0, t_0; cbn. rewrite cos_PI3. rewrite ?Rmult_1_r. reflexivity. Qed.
