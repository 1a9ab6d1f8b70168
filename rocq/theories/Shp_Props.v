(** Property theorems for models built from the shipped scattering functions (C137-C140). *)
From Coq Require Import Reals List String Bool Lra Lia.
From Coquelicot Require Import Coquelicot.
From Verif Require Import Base Base_Proofs RT_Model RT_Spec RT_Proofs RT_Props Sca_Model Sca_Spec Sca_Props
  Shp_Model Shp_Spec Shp_Proofs.
Import ListNotations.
Local Open Scope R_scope.

(** ** C137: slopes and curvatures of every shipped model *)
(** what the functions are: weighted sums of the textbook formulas at the generalised scattering
    angle of the two directions *)
Theorem C137_values : forall pd v s t0 tex p0 pex,
  (v_ok pd v -> vfun_func v pd t0 tex p0 pex = v_sum pd (v_elems v) t0 tex p0 pex) /\
  (s_ok pd s -> sfun_func s pd t0 tex p0 pex = s_sum pd (s_elems s) t0 tex p0 pex).
Proof. intros. split; [apply vfun_value | apply sfun_value]. Qed.
Print Assumptions C137_values.

Theorem C137_slopes_linear : forall sig0 o v s t,
  shipped o v s -> v_ok (param_dict o) v -> s_ok (param_dict o) s ->
  geometry o = "mono"%string -> 0 < cos t -> no_edge 1 s t (p_0 o) ->
  is_derive (fun u => in_units false sig0 u (surface (set_t_0 o u))) t (surface_slope false sig0 (set_t_0 o t)) /\
  is_derive (fun u => in_units false sig0 u (volume (set_t_0 o u))) t (volume_slope false sig0 (set_t_0 o t)) /\
  is_derive (fun u => in_units false sig0 u (volume (set_t_0 o u) + surface (set_t_0 o u))) t
            (tot_slope false sig0 (set_t_0 o t)).
Proof.
  intros sig0 o v s t Hsh Hv Hs Hg Hc He.
  pose proof (back_p_dn false o v s t Hsh Hv) as Dp. pose proof (back_brdf_dn false o v s t Hsh Hs He) as Db.
  split; [|split].
  - apply C03_surface_slope_units; auto; discriminate.
  - apply C03_volume_slope_units; auto; discriminate.
  - apply C03_total_slope_units; auto; discriminate.
Qed.
Print Assumptions C137_slopes_linear.

Theorem C137_curvatures_linear : forall sig0 o v s t,
  shipped o v s -> v_ok (param_dict o) v -> s_ok (param_dict o) s ->
  geometry o = "mono"%string -> 0 < cos t -> no_edge 2 s t (p_0 o) ->
  is_derive_n (fun u => in_units false sig0 u (surface (set_t_0 o u))) 2 t (surface_curv false sig0 (set_t_0 o t)) /\
  is_derive_n (fun u => in_units false sig0 u (volume (set_t_0 o u))) 2 t (volume_curv false sig0 (set_t_0 o t)) /\
  is_derive_n (fun u => in_units false sig0 u (volume (set_t_0 o u) + surface (set_t_0 o u))) 2 t
            (tot_curv false sig0 (set_t_0 o t)).
Proof.
  intros sig0 o v s t Hsh Hv Hs Hg Hc He.
  pose proof (back_p_dn true o v s t Hsh Hv) as Dp. pose proof (back_brdf_dn true o v s t Hsh Hs He) as Db.
  split; [|split].
  - apply C05_surface_curv_units; auto; discriminate.
  - apply C05_volume_curv_units; auto; discriminate.
  - apply C05_total_curv_units; auto; discriminate.
Qed.
Print Assumptions C137_curvatures_linear.

Lemma contrib_pos o v s : shipped o v s -> v_ok (param_dict o) v -> s_ok (param_dict o) s ->
  v_weights (param_dict o) v -> s_weights (param_dict o) s -> vegetated o -> 0 < mu_0 o -> 0 < mu_ex o ->
  0 <= surface o /\ 0 < volume o.
Proof.
  intros [HV HS] Hv Hs Wv Ws (HI & Ht & Ho & Hb & HN) H0 He.
  assert (Pv : 0 < p_val o) by (unfold p_val; rewrite HV; apply vfun_pos; auto).
  assert (Ps : 0 <= brdf_val o) by (unfold brdf_val; rewrite HS; apply sfun_pos; auto).
  split.
  - apply C11_surface_bounds; auto; lra.
  - unfold volume. apply Rmult_lt_0_compat; [lra|]. apply Rmult_lt_0_compat; auto.
    apply Rmult_lt_0_compat.
    + apply Rdiv_lt_0_compat; [|lra]. repeat apply Rmult_lt_0_compat; auto.
    + assert (exp (- (tau (V o) / mu_0 o) - tau (V o) / mu_ex o) < 1); [|lra].
      rewrite <- exp_0. apply exp_increasing.
      assert (0 < tau (V o) / mu_0 o) by (apply Rdiv_lt_0_compat; auto).
      assert (0 < tau (V o) / mu_ex o) by (apply Rdiv_lt_0_compat; auto). lra.
Qed.
Lemma contrib_pos_t o v s t : shipped o v s -> v_ok (param_dict o) v -> s_ok (param_dict o) s ->
  v_weights (param_dict o) v -> s_weights (param_dict o) s -> vegetated o ->
  geometry o = "mono"%string -> 0 < cos t ->
  0 <= surface (set_t_0 o t) /\ 0 < volume (set_t_0 o t).
Proof.
  intros Hsh Hv Hs Wv Ws Hp Hg Hc. apply (contrib_pos (set_t_0 o t) v s); auto.
  unfold mu_ex, t_ex, is_mono. simpl. rewrite Hg. exact Hc.
Qed.

(** in dB the only additional condition is that the vegetation scatters at all *)
Theorem C137_dB : forall sig0 o v s t,
  shipped o v s -> v_ok (param_dict o) v -> s_ok (param_dict o) s ->
  v_weights (param_dict o) v -> s_weights (param_dict o) s -> vegetated o ->
  geometry o = "mono"%string -> 0 < cos t ->
  is_derive (fun u => in_units true sig0 u (volume (set_t_0 o u))) t (volume_slope true sig0 (set_t_0 o t)) /\
  is_derive_n (fun u => in_units true sig0 u (volume (set_t_0 o u))) 2 t (volume_curv true sig0 (set_t_0 o t)) /\
  (no_edge 1 s t (p_0 o) ->
   is_derive (fun u => in_units true sig0 u (volume (set_t_0 o u) + surface (set_t_0 o u))) t
             (tot_slope true sig0 (set_t_0 o t))) /\
  (no_edge 2 s t (p_0 o) ->
   is_derive_n (fun u => in_units true sig0 u (volume (set_t_0 o u) + surface (set_t_0 o u))) 2 t
             (tot_curv true sig0 (set_t_0 o t))).
Proof.
  intros sig0 o v s t Hsh Hv Hs Wv Ws Hp Hg Hc.
  destruct (contrib_pos_t o v s t Hsh Hv Hs Wv Ws Hp Hg Hc) as [P1 P2].
  split; [|split; [|split]].
  - apply C03_volume_slope_units; auto. apply (back_p_dn false o v s t Hsh Hv).
  - apply C05_volume_curv_units; auto. apply (back_p_dn true o v s t Hsh Hv).
  - intro He. apply C03_total_slope_units; auto; [apply (back_brdf_dn false o v s t Hsh Hs He) | apply (back_p_dn false o v s t Hsh Hv) | lra].
  - intro He. apply C05_total_curv_units; auto; [apply (back_brdf_dn true o v s t Hsh Hs He) | apply (back_p_dn true o v s t Hsh Hv) | lra].
Qed.
Print Assumptions C137_dB.

(** the surface contribution in dB: wherever it is positive *)
Theorem C137_dB_surface : forall sig0 o v s t,
  shipped o v s -> v_ok (param_dict o) v -> s_ok (param_dict o) s ->
  geometry o = "mono"%string -> 0 < cos t -> 0 < surface (set_t_0 o t) ->
  (no_edge 1 s t (p_0 o) ->
   is_derive (fun u => in_units true sig0 u (surface (set_t_0 o u))) t (surface_slope true sig0 (set_t_0 o t))) /\
  (no_edge 2 s t (p_0 o) ->
   is_derive_n (fun u => in_units true sig0 u (surface (set_t_0 o u))) 2 t (surface_curv true sig0 (set_t_0 o t))).
Proof.
  intros sig0 o v s t Hsh Hv Hs Hg Hc Hp. split; intro He.
  - apply C03_surface_slope_units; auto. apply (back_brdf_dn false o v s t Hsh Hs He).
  - apply C05_surface_curv_units; auto. apply (back_brdf_dn true o v s t Hsh Hs He).
Qed.
Print Assumptions C137_dB_surface.

(** the condition on the lobe is needed: a lobe of power 1 (default weights) has no derivative at
    45 degrees, whatever the other parts of the model are *)
Theorem C137_edge_needed : forall o N ph,
  SRF o = mkSurface N (SOne (SCos 1 (A3 1 1 1))) -> p_0 o = ph ->
  ~ no_edge 1 (SOne (SCos 1 (A3 1 1 1))) (PI / 4) ph /\ ~ ex_derive (back_brdf o) (PI / 4).
Proof.
  intros o N ph HS Hp. split.
  - intro H. destruct (H (Num 1) 1%nat (A3 1 1 1) (or_introl eq_refl)) as [K|[K|K]]; [|discriminate|lia].
    apply K. rewrite (proj2 (C15_backscatter _ _)). replace (2 * (PI / 4)) with (PI / 2) by field. apply cos_PI2.
  - intros [l Hl].
    assert (Hl2 : is_derive (fun t => 1 / PI * ramp (cos (2 * t))) (PI / 4) l).
    { revert Hl. apply is_derive_ext. intro t. unfold back_brdf. rewrite HS. simpl. unfold selem_func; simpl.
      rewrite (proj2 (C15_backscatter _ _)). unfold coslobe_func, ramp. simpl. ring. }
    assert (Hg : is_derive (fun t => 1 / PI * cos (2 * t)) (PI / 4) (- (2 / PI))).
    { auto_derive; auto. replace (2 * (PI / 4)) with (PI / 2) by field. rewrite sin_PI2. field. apply PI_neq0. }
    apply is_derive_Reals in Hl2. apply is_derive_Reals in Hg.
    pose proof PI_RGT_0 as HP.
    assert (Heps : 0 < / (2 * PI)) by (apply Rinv_0_lt_compat; lra).
    destruct (Hl2 _ Heps) as [d1 K1]. destruct (Hg _ Heps) as [d2 K2].
    set (h := Rmin (Rmin d1 d2) (PI / 4) / 2).
    assert (Hm : 0 < Rmin (Rmin d1 d2) (PI / 4)) by (repeat apply Rmin_pos; try apply cond_pos; lra).
    assert (Hh : 0 < h) by (unfold h; lra).
    assert (Hh1 : h < d1) by (unfold h; pose proof (Rmin_l (Rmin d1 d2) (PI / 4)); pose proof (Rmin_l d1 d2); lra).
    assert (Hh2 : h < d2) by (unfold h; pose proof (Rmin_l (Rmin d1 d2) (PI / 4)); pose proof (Rmin_r d1 d2); lra).
    assert (Hh3 : h <= PI / 8) by (unfold h; pose proof (Rmin_r (Rmin d1 d2) (PI / 4)); lra).
    assert (E0 : cos (2 * (PI / 4)) = 0) by (replace (2 * (PI / 4)) with (PI / 2) by field; apply cos_PI2).
    (* right of the edge the lobe vanishes *)
    assert (A : Rabs l < / (2 * PI)).
    { assert (Hne : h <> 0) by lra. specialize (K1 h Hne). rewrite Rabs_pos_eq in K1 by lra. specialize (K1 Hh1).
      rewrite E0, (ramp_neg 0) in K1 by lra. rewrite ramp_neg in K1.
      - replace ((1 / PI * 0 - 1 / PI * 0) / h - l) with (- l) in K1 by (field; lra). rewrite Rabs_Ropp in K1. exact K1.
      - replace (2 * (PI / 4 + h)) with (2 * h + PI / 2) by field. rewrite cos_plus, cos_PI2, sin_PI2.
        assert (0 <= sin (2 * h)) by (apply sin_ge_0; lra). lra. }
    (* left of it it is the cosine *)
    assert (B : Rabs (l + 2 / PI) < 2 * / (2 * PI)).
    { assert (Hne : - h <> 0) by lra. specialize (K1 _ Hne). specialize (K2 _ Hne).
      rewrite Rabs_Ropp, Rabs_pos_eq in K1, K2 by lra. specialize (K1 Hh1). specialize (K2 Hh2).
      rewrite E0, (ramp_neg 0) in K1 by lra. rewrite ramp_pos in K1.
      - rewrite E0 in K2. set (q := (1 / PI * cos (2 * (PI / 4 + - h)) - 1 / PI * 0) / - h) in *.
        replace (l + 2 / PI) with (- (q - l) + (q - - (2 / PI))) by ring.
        eapply Rle_lt_trans; [apply Rabs_triang|]. rewrite Rabs_Ropp. lra.
      - replace (2 * (PI / 4 + - h)) with (- (2 * h) + PI / 2) by field. rewrite cos_plus, cos_PI2, sin_PI2, sin_neg.
        assert (0 <= sin (2 * h)) by (apply sin_ge_0; lra). lra. }
    replace (2 / PI) with (4 * / (2 * PI)) in B by (field; lra).
    apply Rabs_def2 in A. apply Rabs_def2 in B. lra.
Qed.
Print Assumptions C137_edge_needed.

Lemma uw_S : unit_weights (A3 1 1 1).
Proof. repeat split; simpl; rewrite Rabs_pos_eq; lra. Qed.
Lemma uw_V : unit_weights (A3 (-1) 1 1).
Proof. repeat split; simpl; try (rewrite Rabs_pos_eq; lra). rewrite Rabs_left; lra. Qed.
Lemma ex_v_ok : v_ok (param_dict ex_sh) ex_v /\ v_weights (param_dict ex_sh) ex_v.
Proof.
  split; [|split].
  - intros w e [H|[H|[]]]; injection H as <- <-; (split; [eexists; split; [reflexivity|exact I]|]); simpl.
    + split; [|apply uw_V]. eexists; split; [reflexivity|]. unfold asym; lra.
    + apply uw_V.
  - intros w e [H|[H|[]]]; injection H as <- <-; eexists; (split; [reflexivity|]); unfold nonneg; lra.
  - do 2 eexists. split; [left; reflexivity|]. eexists; split; [reflexivity|]. unfold positive; lra.
Qed.
Lemma ex_s_ok : s_ok (param_dict ex_sh) ex_s /\ s_weights (param_dict ex_sh) ex_s.
Proof.
  split.
  - intros w e [H|[H|[]]]; injection H as <- <-; (split; [eexists; split; [reflexivity|exact I]|]); simpl.
    + split; [|apply uw_S]. eexists; split; [reflexivity|]. unfold asym; lra.
    + apply uw_S.
  - intros w e [H|[H|[]]]; injection H as <- <-; eexists; (split; [reflexivity|]); unfold nonneg; lra.
Qed.
Example C137_example : forall t, 0 < cos t ->
  is_derive (fun u => in_units true true u (volume (set_t_0 ex_sh u) + surface (set_t_0 ex_sh u))) t
            (tot_slope true true (set_t_0 ex_sh t)) /\
  is_derive_n (fun u => in_units true true u (volume (set_t_0 ex_sh u) + surface (set_t_0 ex_sh u))) 2 t
            (tot_curv true true (set_t_0 ex_sh t)).
Proof.
  intros t Ht.
  assert (E : forall n, (n <= 2)%nat -> no_edge n ex_s t (p_0 ex_sh)).
  { intros n Hn w i a [H|[H|[]]]; [discriminate|]. injection H as <- <- <-. right; right. lia. }
  destruct (C137_dB true ex_sh ex_v ex_s t) as (_ & _ & A & B); auto.
  - split; reflexivity.
  - apply ex_v_ok.
  - apply ex_s_ok.
  - apply ex_v_ok.
  - apply ex_s_ok.
  - repeat split; simpl; lra.
Qed.

(** a bare Lambertian surface has a positive contribution *)
Example C137_surface_example : forall o t, SRF o = mkSurface 1 (SOne (SIso (A3 1 1 1))) -> 0 < cos t -> 0 < I0 o -> bsf o = 1 ->
  0 < surface (set_t_0 o t).
Proof.
  intros o t HS Hc HI Hb. unfold surface. simpl. rewrite HS, Hb. unfold brdf_val, mu_0. simpl. rewrite HS. simpl.
  unfold selem_func. simpl. unfold iso_func.
  match goal with |- 0 < ?x => replace x with (I0 o * cos t * (1 / PI)) by ring end.
  pose proof PI_RGT_0. apply Rmult_lt_0_compat; [apply Rmult_lt_0_compat; assumption|]. apply Rdiv_lt_0_compat; lra.
Qed.

(** ** C138: jacobian entries of the free parameters of shipped functions (asymmetry parameters
    and weighting factors given as symbols), in all units, for every geometry *)
Theorem C138_jacobian : forall dB sig0 o v s key x,
  shipped o v s -> v_ok (param_dict o) v -> s_ok (param_dict o) s ->
  free_key key -> dget string_dec key (param_dict o) = Some x ->
  0 < cos (t_0 o) -> (dB = true -> 0 < total o) ->
  exists j, jac_entry dB sig0 o key = Ok j /\
    is_derive (fun y => in_units dB sig0 (t_0 o) (total (set_param o key y))) x j.
Proof.
  intros dB sig0 o v s key x Hsh Hv Hs Hk Hx Hc Hp.
  destruct (C08_jacobian_free_parameter o key x Hk Hx (shipped_diff_in o v s key Hsh Hv Hs)) as (jl & Hj & Hd).
  destruct (free_key_eqb key Hk) as (E1 & E2 & E3 & E4).
  destruct (C09_jacobian_units dB sig0 o key x jl) as (j & A & B); auto.
  - unfold key_value. rewrite E1, E2, E3, E4. exact Hx.
  - unfold with_key. rewrite E1, E2, E3, E4. exact Hd.
  - exists j. split; auto. unfold with_key in B. rewrite E1, E2, E3, E4 in B. exact B.
Qed.
Print Assumptions C138_jacobian.
Example C138_example : forall t, 0 < cos t -> exists j, jac_entry true true (set_t_0 ex_sh t) "g" = Ok j /\
  is_derive (fun y => in_units true true t (total (set_param (set_t_0 ex_sh t) "g" y))) (1/3) j.
Proof.
  intros t Ht. apply (C138_jacobian true true (set_t_0 ex_sh t) ex_v ex_s "g"%string (1/3)); auto.
  - split; reflexivity.
  - apply ex_v_ok.
  - apply ex_s_ok.
  - repeat split; discriminate.
  - intros _. destruct (contrib_pos_t ex_sh ex_v ex_s t) as [A B]; auto.
    + split; reflexivity.
    + apply ex_v_ok.
    + apply ex_s_ok.
    + apply ex_v_ok.
    + apply ex_s_ok.
    + repeat split; simpl; lra.
    + unfold total. lra.
Qed.

(** ** C139: sign, bounds and monotonicity for every shipped model, bistatic or not *)
Theorem C139_bounds : forall o v s,
  shipped o v s -> v_ok (param_dict o) v -> s_ok (param_dict o) s ->
  v_weights (param_dict o) v -> s_weights (param_dict o) s ->
  0 <= tau (V o) -> 0 < mu_0 o -> 0 < mu_ex o -> 0 <= bsf o <= 1 -> 0 <= I0 o ->
  0 <= NormBRDF (SRF o) -> 0 <= omega (V o) ->
  0 <= surface o <= NormBRDF (SRF o) * (I0 o * mu_0 o * brdf_val o) /\
  0 <= volume o <= (1 - bsf o) * (I0 o * omega (V o) * (mu_0 o / (mu_0 o + mu_ex o)) * p_val o) /\
  (forall t1 t2, t1 <= t2 ->
     surface (set_tau o t2) <= surface (set_tau o t1) /\ volume (set_tau o t1) <= volume (set_tau o t2)).
Proof.
  intros o v s [HV HS] Hv Hs Wv Ws Ht H0 He Hb HI HN Ho.
  assert (Pv : 0 < p_val o) by (unfold p_val; rewrite HV; apply vfun_pos; auto).
  assert (Ps : 0 <= brdf_val o) by (unfold brdf_val; rewrite HS; apply sfun_pos; auto).
  split; [|split].
  - apply C11_surface_bounds; auto.
  - apply C11_volume_bounds; auto; lra.
  - intros t1 t2 H. apply C11_monotone_in_tau; auto; lra.
Qed.
Print Assumptions C139_bounds.

Theorem C139_positive : forall o v s,
  shipped o v s -> v_ok (param_dict o) v -> s_ok (param_dict o) s ->
  v_weights (param_dict o) v -> s_weights (param_dict o) s -> vegetated o ->
  0 < mu_0 o -> 0 < mu_ex o -> 0 <= surface o /\ 0 < volume o /\ 0 < total o.
Proof.
  intros o v s Hsh Hv Hs Wv Ws Hp H0 He.
  destruct (contrib_pos o v s Hsh Hv Hs Wv Ws Hp H0 He) as [A B]. unfold total. lra.
Qed.
Print Assumptions C139_positive.
Example C139_example : 0 < total (set_t_0 ex_sh (PI / 3)).
Proof.
  apply (C139_positive (set_t_0 ex_sh (PI / 3)) ex_v ex_s).
  - split; reflexivity.
  - apply ex_v_ok.
  - apply ex_s_ok.
  - apply ex_v_ok.
  - apply ex_s_ok.
  - repeat split; simpl; lra.
  - unfold mu_0, t_0; simpl. rewrite cos_PI3. lra.
  - unfold mu_ex, t_ex, t_0; simpl. rewrite cos_PI3. lra.
Qed.

(** ** C140: Helmholtz reciprocity of the surface and volume contributions *)
Theorem C140_reciprocity : forall o v s,
  shipped o v s -> geometry o <> "mono"%string ->
  surface o * mu_ex o = surface (exchanged o) * mu_0 o /\
  (mu_0 o + mu_ex o <> 0 -> volume o * mu_ex o = volume (exchanged o) * mu_0 o) /\
  (mu_0 o + mu_ex o <> 0 -> total o * mu_ex o = total (exchanged o) * mu_0 o).
Proof.
  intros o v s [HV HS] Hg.
  assert (Hm : is_mono o = false) by (unfold is_mono; apply String.eqb_neq; exact Hg).
  assert (Hm' : is_mono (exchanged o) = false) by (unfold is_mono in *; simpl; exact Hm).
  assert (M1 : mu_0 (exchanged o) = mu_ex o) by (unfold mu_0, mu_ex, t_0, t_ex; rewrite Hm; reflexivity).
  assert (M2 : mu_ex (exchanged o) = mu_0 o) by (unfold mu_0, mu_ex, t_0, t_ex; rewrite Hm'; reflexivity).
  assert (B : brdf_val (exchanged o) = brdf_val o).
  { unfold brdf_val, t_0, t_ex, p_0, p_ex. rewrite Hm, Hm'. simpl. rewrite HS. simpl. apply sfun_exch. }
  assert (P : p_val (exchanged o) = p_val o).
  { unfold p_val, t_0, t_ex, p_0, p_ex. rewrite Hm, Hm'. simpl. rewrite HV. simpl. apply vfun_exch. }
  assert (A : surface o * mu_ex o = surface (exchanged o) * mu_0 o).
  { unfold surface. rewrite M1, M2, B. simpl.
    replace (- (tau (V o) / mu_ex o) - tau (V o) / mu_0 o) with (- (tau (V o) / mu_0 o) - tau (V o) / mu_ex o) by ring.
    ring. }
  assert (D : mu_0 o + mu_ex o <> 0 -> volume o * mu_ex o = volume (exchanged o) * mu_0 o).
  { intro Hne. unfold volume. rewrite M1, M2, P. simpl.
    replace (- (tau (V o) / mu_ex o) - tau (V o) / mu_0 o) with (- (tau (V o) / mu_0 o) - tau (V o) / mu_ex o) by ring.
    rewrite (Rplus_comm (mu_ex o) (mu_0 o)). unfold Rdiv. ring. }
  split; [exact A|]. split; [exact D|].
  intro Hne. unfold total. rewrite !Rmult_plus_distr_r, A, (D Hne). reflexivity.
Qed.
Print Assumptions C140_reciprocity.
Definition ex_shb : RT :=
  init 1 (PI/6) (PI/3) 0 1 (mkVolume (1/2) (3/10) ex_v) (mkSurface (1/5) ex_s) "vvvv"%string (1/10)
       (("g"%string, 1/3) :: nil) 3.
Example C140_example : total ex_shb * cos (PI / 3) = total (exchanged ex_shb) * cos (PI / 6).
Proof.
  destruct (C140_reciprocity ex_shb ex_v ex_s) as (_ & _ & H).
  - split; reflexivity.
  - discriminate.
  - apply H. unfold mu_0, mu_ex, t_0, t_ex; simpl. rewrite cos_PI3.
    assert (0 < cos (PI / 6)) by (apply cos_gt_0; pose proof PI_RGT_0; lra). lra.
Qed.
