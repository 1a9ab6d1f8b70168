From Coq Require Import Reals List String Bool Lra Lia.
From Coquelicot Require Import Coquelicot.
From Verif Require Import Base Base_Proofs RT_Model RT_Spec.
Import ListNotations.
Local Open Scope R_scope.

(** *** mono geometry: closed forms along the incidence angle *)
Lemma is_mono_set_t_0 : forall o t, is_mono (set_t_0 o t) = is_mono o.
Proof. reflexivity. Qed.

Lemma surface_mono : forall o t, is_mono o = true -> cos t <> 0 ->
  surface (set_t_0 o t) =
  NormBRDF (SRF o) * ((1 - bsf o) * (exp (- (2 * tau (V o) / cos t)) * (I0 o * cos t * back_brdf o t))
                      + bsf o * (I0 o * cos t * back_brdf o t)).
Proof.
  intros o t Hm Hc. unfold surface, brdf_val, mu_0, mu_ex, t_ex, p_ex. rewrite is_mono_set_t_0, Hm.
  cbn [t_0 p_0 set_t_0 gt_0 gp_0 V SRF I0 bsf param_dict]. unfold back_brdf, t_0, p_0, set_t_0; cbn.
  replace (- (tau (V o) / cos t) - tau (V o) / cos t) with (- (2 * tau (V o) / cos t)) by (field; auto).
  reflexivity.
Qed.

Lemma volume_mono : forall o t, is_mono o = true -> cos t <> 0 ->
  volume (set_t_0 o t) =
  (1 - bsf o) * (I0 o * omega (V o) / 2 * (1 - exp (- (2 * tau (V o) / cos t))) * back_p o t).
Proof.
  intros o t Hm Hc. unfold volume, p_val, mu_0, mu_ex, t_ex, p_ex. rewrite is_mono_set_t_0, Hm.
  unfold back_p, t_0, p_0, set_t_0; cbn.
  replace (- (tau (V o) / cos t) - tau (V o) / cos t) with (- (2 * tau (V o) / cos t)) by (field; auto).
  field. lra.
Qed.

Lemma locally_cos_pos : forall t, 0 < cos t -> locally t (fun u => 0 < cos u).
Proof.
  intros t H. apply (continuous_cos t). apply (open_gt 0). exact H.
Qed.

Lemma surface_is_derive : forall o t, is_mono o = true -> 0 < cos t ->
  ex_derive (back_brdf o) t ->
  is_derive (along_t0 surface o) t (surface_I_slope (set_t_0 o t)).
Proof.
  intros o t Hm Hc Hd.
  apply (is_derive_ext_loc (fun t => NormBRDF (SRF o) * ((1 - bsf o) * (exp (- (2 * tau (V o) / cos t)) * (I0 o * cos t * back_brdf o t))
                      + bsf o * (I0 o * cos t * back_brdf o t)))).
  - generalize (locally_cos_pos t Hc). apply filter_imp. intros u Hu.
    unfold along_t0. rewrite surface_mono; auto. lra.
  - unfold surface_I_slope, brdf_val, mu_0, t_ex, p_ex, brdf_theta_diff. rewrite is_mono_set_t_0, Hm.
    unfold t_0, p_0, set_t_0; cbn.
    change (fun x => brdf (SRF o) (param_dict o) x x (gp_0 o) (gp_0 o + PI)) with (back_brdf o).
    change (fun t1 => brdf (SRF o) (param_dict o) t1 t1 (gp_0 o) (gp_0 o + PI)) with (back_brdf o).
    change (brdf (SRF o) (param_dict o) t t (gp_0 o) (gp_0 o + PI)) with (back_brdf o t).
    auto_derive.
    + repeat split; auto; lra.
    + change (Derive_n (fun x0 : R => back_brdf o x0) 1 t) with (Derive (back_brdf o) t).
      change (fun x0 : R => back_brdf o x0) with (back_brdf o).
      unfold Rdiv. generalize (exp (- (2 * tau (V o) * / cos t))); intro E.
      field. lra.
Qed.

Lemma volume_is_derive : forall o t, is_mono o = true -> 0 < cos t ->
  ex_derive (back_p o) t ->
  is_derive (along_t0 volume o) t (volume_I_slope (set_t_0 o t)).
Proof.
  intros o t Hm Hc Hd.
  apply (is_derive_ext_loc (fun t => (1 - bsf o) * (I0 o * omega (V o) / 2 * (1 - exp (- (2 * tau (V o) / cos t))) * back_p o t))).
  - generalize (locally_cos_pos t Hc). apply filter_imp. intros u Hu.
    unfold along_t0. rewrite volume_mono; auto. lra.
  - unfold volume_I_slope, p_val, mu_0, t_ex, p_ex, p_theta_diff. rewrite is_mono_set_t_0, Hm.
    unfold t_0, p_0, set_t_0; cbn.
    change (fun x => p (V o) (param_dict o) x x (gp_0 o) (gp_0 o + PI)) with (back_p o).
    change (fun t1 => p (V o) (param_dict o) t1 t1 (gp_0 o) (gp_0 o + PI)) with (back_p o).
    change (p (V o) (param_dict o) t t (gp_0 o) (gp_0 o + PI)) with (back_p o t).
    auto_derive.
    + repeat split; auto; lra.
    + change (fun x0 : R => back_p o x0) with (back_p o).
      unfold Rdiv. generalize (exp (- (2 * tau (V o) * / cos t))); intro E.
      field. lra.
Qed.

(** second derivatives *)
Lemma back_brdf_set : forall o u, back_brdf (set_t_0 o u) = back_brdf o.
Proof. reflexivity. Qed.

Lemma surface_slope_form : forall o t, is_mono o = true ->
  surface_I_slope (set_t_0 o t) =
  NormBRDF (SRF o) *
  ((1 - bsf o) *
   (I0 o * exp (- (2 * tau (V o) / cos t)) *
    (cos t * Derive (back_brdf o) t -
     (2 * tau (V o) / cos t + 1) * sin t * back_brdf o t)) +
   bsf o * (I0 o * (cos t * Derive (back_brdf o) t - sin t * back_brdf o t))).
Proof.
  intros o t Hm. unfold surface_I_slope, brdf_val, mu_0, t_ex, p_ex, brdf_theta_diff.
  rewrite is_mono_set_t_0, Hm. reflexivity.
Qed.

Lemma volume_slope_form : forall o t, is_mono o = true ->
  volume_I_slope (set_t_0 o t) =
  (1 - bsf o) * I0 o * omega (V o) / 2
  * ((exp (- (2 * tau (V o) / cos t)) * 2 * tau (V o) * sin t / cos t ^ 2) * back_p o t
     + (1 - exp (- (2 * tau (V o) / cos t))) * Derive (back_p o) t).
Proof.
  intros o t Hm. unfold volume_I_slope, p_val, mu_0, t_ex, p_ex, p_theta_diff.
  rewrite is_mono_set_t_0, Hm. reflexivity.
Qed.

Lemma twice_diff_ex : forall f t, twice_diff f t -> ex_derive f t.
Proof. intros f t [H _]. apply locally_singleton in H. exact H. Qed.

Lemma sin2 : forall t, sin t ^ 2 = 1 - cos t ^ 2.
Proof. intro t. generalize (sin2_cos2 t). unfold Rsqr. intro. lra. Qed.

Lemma surface_slope_is_derive : forall o t, is_mono o = true -> 0 < cos t ->
  twice_diff (back_brdf o) t ->
  is_derive (along_t0 surface_I_slope o) t (surface_I_curv (set_t_0 o t)).
Proof.
  intros o t Hm Hc Hd. pose proof (twice_diff_ex _ _ Hd) as H1. destruct Hd as [_ H2].
  apply (is_derive_ext (fun t => NormBRDF (SRF o) *
  ((1 - bsf o) *
   (I0 o * exp (- (2 * tau (V o) / cos t)) *
    (cos t * Derive (back_brdf o) t -
     (2 * tau (V o) / cos t + 1) * sin t * back_brdf o t)) +
   bsf o * (I0 o * (cos t * Derive (back_brdf o) t - sin t * back_brdf o t))))).
  - intro u. symmetry. apply surface_slope_form; auto.
  - unfold surface_I_curv, brdf_val, mu_0, t_ex, p_ex, brdf_theta_diff. rewrite is_mono_set_t_0, Hm.
    unfold t_0, p_0, set_t_0; cbn [gt_0 gp_0 V SRF I0 bsf param_dict].
    change (fun t1 => brdf (SRF o) (param_dict o) t1 t1 (gp_0 o) (gp_0 o + PI)) with (back_brdf o).
    change (brdf (SRF o) (param_dict o) t t (gp_0 o) (gp_0 o + PI)) with (back_brdf o t).
    change (Derive_n (back_brdf o) 1 t) with (Derive (back_brdf o) t).
    change (Derive_n (back_brdf o) 2 t) with (Derive (Derive (back_brdf o)) t).
    set (D := Derive (back_brdf o)) in *.
    auto_derive.
    + repeat split; auto; lra.
    + change (fun x0 : R => back_brdf o x0) with (back_brdf o).
      change (fun x0 : R => D x0) with D. fold D.
      unfold Rdiv. generalize (exp (- (2 * tau (V o) * / cos t))); intro E.
      rewrite sin2.
      generalize (Derive D t) (D t) (back_brdf o t). intros d2 d1 b.
      transitivity (NormBRDF (SRF o) * ((1 - bsf o) * (I0 o * E * (cos t * d2 - 2 * sin t * d1 * (2 * tau (V o) * / cos t + 1) +
         (4 * tau (V o) ^ 2 * / cos t ^ 3 * sin t ^ 2 - 2 * tau (V o) * (sin t ^ 2 + cos t ^ 2) - cos t) * b)) + bsf o * (I0 o * (cos t * d2 - 2 * sin t * d1 - cos t * b)))).
      * field_simplify; try lra. rewrite sin2. field. lra.
      * rewrite sin2. f_equal. f_equal. f_equal. f_equal. f_equal. ring.
Qed.

Lemma volume_slope_is_derive : forall o t, is_mono o = true -> 0 < cos t ->
  twice_diff (back_p o) t ->
  is_derive (along_t0 volume_I_slope o) t (volume_I_curv (set_t_0 o t)).
Proof.
  intros o t Hm Hc Hd. pose proof (twice_diff_ex _ _ Hd) as H1. destruct Hd as [_ H2].
  apply (is_derive_ext (fun t =>   (1 - bsf o) * I0 o * omega (V o) / 2
  * ((exp (- (2 * tau (V o) / cos t)) * 2 * tau (V o) * sin t / cos t ^ 2) * back_p o t
     + (1 - exp (- (2 * tau (V o) / cos t))) * Derive (back_p o) t))).
  - intro u. symmetry. apply volume_slope_form; auto.
  - unfold volume_I_curv, p_val, mu_0, t_ex, p_ex, p_theta_diff. rewrite is_mono_set_t_0, Hm.
    unfold t_0, p_0, set_t_0; cbn [gt_0 gp_0 V SRF I0 bsf param_dict].
    change (fun t1 => p (V o) (param_dict o) t1 t1 (gp_0 o) (gp_0 o + PI)) with (back_p o).
    change (p (V o) (param_dict o) t t (gp_0 o) (gp_0 o + PI)) with (back_p o t).
    change (Derive_n (back_p o) 1 t) with (Derive (back_p o) t).
    change (Derive_n (back_p o) 2 t) with (Derive (Derive (back_p o)) t).
    set (D := Derive (back_p o)) in *.
    auto_derive.
    + repeat split; auto; try lra. apply Rmult_integral_contrapositive; split; lra.
    + change (fun x0 : R => back_p o x0) with (back_p o).
      change (fun x0 : R => D x0) with D. fold D.
      unfold Rdiv. generalize (exp (- (2 * tau (V o) * / cos t))); intro E.
      generalize (Derive D t) (D t) (back_p o t). intros d2 d1 b.
      replace (sin t ^ 2 + 1 - 2 * tau (V o) * / cos t * sin t ^ 2)
        with (2 * sin t ^ 2 + cos t ^ 2 - 2 * tau (V o) * / cos t * sin t ^ 2)
        by (rewrite (sin2 t); ring).
      field. lra.
Qed.

(** *** unit conversions *)
Definition units_slope (dB sig0 : bool) (t f f' : R) : R :=
  match sig0, dB with
  | false, false => f'
  | true, false => 4 * PI * (cos t * f' - sin t * f)
  | false, true => 10 / ln 10 * f' / f
  | true, true => 10 / ln 10 * (f' / f - tan t)
  end.
Definition units_curv (dB sig0 : bool) (t f f' f'' : R) : R :=
  match sig0, dB with
  | false, false => f''
  | true, false => 4 * PI * (cos t * f'' - 2 * sin t * f' - cos t * f)
  | false, true => 10 / ln 10 * (f'' / f - f' ^ 2 / f ^ 2)
  | true, true => 10 / ln 10 * (f'' / f - f' ^ 2 / f ^ 2 - / (cos t ^ 2))
  end.

Lemma ln10_neq0 : ln 10 <> 0.
Proof. assert (0 < ln 10) by (rewrite <- ln_1; apply ln_increasing; lra). lra. Qed.

Lemma units_slope_ok : forall dB sig0 f t f',
  is_derive f t f' -> 0 < cos t -> (dB = true -> 0 < f t) ->
  is_derive (fun u => in_units dB sig0 u (f u)) t (units_slope dB sig0 t (f t) f').
Proof.
  intros dB sig0 f t f' Hd Hc Hp. pose proof ln10_neq0 as Hl. pose proof PI_RGT_0 as HPI.
  assert (He : ex_derive f t) by (exists f'; auto).
  assert (HD : Derive f t = f') by (apply is_derive_unique; auto).
  destruct dB, sig0; unfold in_units, units_slope.
  - assert (0 < f t) by (apply Hp; auto).
    auto_derive.
    + repeat split; auto.
      apply Rmult_lt_0_compat; [apply Rmult_lt_0_compat; [|]|]; lra.
    + change (fun x : R => f x) with f. rewrite HD. unfold tan. field. repeat split; lra.
  - assert (0 < f t) by (apply Hp; auto).
    auto_derive; [repeat split; auto|]. change (fun x : R => f x) with f. rewrite HD. field. split; lra.
  - auto_derive; [repeat split; auto|]. change (fun x : R => f x) with f. rewrite HD. ring.
  - exact Hd.
Qed.

Lemma locally_pos : forall f t, ex_derive f t -> 0 < f t -> locally t (fun u => 0 < f u).
Proof.
  intros f t He Hp. pose proof (ex_derive_continuous f t He) as Hco.
  apply Hco. apply (open_gt 0). exact Hp.
Qed.

Lemma units_curv_ok : forall dB sig0 f g t f'',
  locally t (fun u => is_derive f u (g u)) -> is_derive g t f'' -> 0 < cos t ->
  (dB = true -> 0 < f t) ->
  is_derive_n (fun u => in_units dB sig0 u (f u)) 2 t (units_curv dB sig0 t (f t) (g t) f'').
Proof.
  intros dB sig0 f g t f'' Hf Hg Hc Hp. pose proof ln10_neq0 as Hl.
  assert (Hft : is_derive f t (g t)) by (apply (locally_singleton _ _ Hf)).
  assert (He : ex_derive f t) by (exists (g t); auto).
  assert (HD : Derive f t = g t) by (apply is_derive_unique; auto).
  assert (Heg : ex_derive g t) by (exists f''; auto).
  assert (HDg : Derive g t = f'') by (apply is_derive_unique; auto).
  assert (Hlp : locally t (fun u => dB = true -> 0 < f u)).
  { destruct dB.
    - generalize (locally_pos f t He (Hp eq_refl)). apply filter_imp. auto.
    - apply filter_forall. intros; discriminate. }
  change (is_derive (fun u => Derive (fun v => in_units dB sig0 v (f v)) u) t
            (units_curv dB sig0 t (f t) (g t) f'')).
  apply (is_derive_ext_loc (fun u => units_slope dB sig0 u (f u) (g u))).
  - generalize (filter_and _ _ Hf (filter_and _ _ (locally_cos_pos t Hc) Hlp)).
    apply filter_imp. intros u (H1 & H2 & H3). symmetry. apply is_derive_unique.
    apply units_slope_ok; auto.
  - destruct dB, sig0; unfold units_slope, units_curv.
    + assert (0 < f t) by (apply Hp; auto). unfold tan.
      auto_derive; [repeat split; auto; lra|].
      change (fun x : R => f x) with f. change (fun x : R => g x) with g. rewrite HD, HDg.
      replace (/ (cos t ^ 2)) with (1 + (sin t / cos t) ^ 2).
      { field. repeat split; lra. }
      replace 1 with (sin t ^ 2 + cos t ^ 2) at 1 by (rewrite sin2; ring).
      replace (sin t ^ 2 + cos t ^ 2 + (sin t / cos t) ^ 2) with (1 + (sin t / cos t) ^ 2) by (rewrite (sin2 t); ring).
      replace 1 with ((sin t ^ 2 + cos t ^ 2)) by (rewrite sin2; ring).
      apply (Rmult_eq_reg_r (cos t ^ 2)); [|apply pow_nonzero; lra].
      field_simplify; try lra. rewrite (sin2 t). 
      replace (cos t ^ 4) with (cos t ^ 2 * cos t ^ 2) by ring. ring.
    + assert (0 < f t) by (apply Hp; auto).
      auto_derive; [repeat split; auto; lra|].
      change (fun x : R => f x) with f. change (fun x : R => g x) with g. rewrite HD, HDg.
      field. split; lra.
    + auto_derive; [repeat split; auto|].
      change (fun x : R => f x) with f. change (fun x : R => g x) with g. rewrite HD, HDg. ring.
    + exact Hg.
Qed.

(** *** jacobian *)
Lemma dset_same : forall (d : pdict) k v, dget string_dec k d = Some v -> dset string_dec k v d = d.
Proof.
  induction d as [|[k' v'] d IH]; intros k v H; simpl in *; [discriminate|].
  destruct (string_dec k k'); [congruence | rewrite IH; auto].
Qed.

Lemma with_key_same : forall o key v, key_value o key = Some v -> with_key o key v = o.
Proof.
  intros o key v. unfold key_value, with_key.
  destruct o as [i0 g a b c d [ta om pp] [nb br] bs pd nm c1 c2]; cbn.
  destruct (String.eqb key "omega"); [intro H; injection H as <-; reflexivity|].
  destruct (String.eqb key "tau"); [intro H; injection H as <-; reflexivity|].
  destruct (String.eqb key "NormBRDF"); [intro H; injection H as <-; reflexivity|].
  destruct (String.eqb key "bsf"); [intro H; injection H as <-; reflexivity|].
  intro H. unfold set_param; cbn. rewrite dset_same; auto.
Qed.

Lemma free_key_eqb : forall key, free_key key ->
  String.eqb key "omega" = false /\ String.eqb key "tau" = false /\
  String.eqb key "NormBRDF" = false /\ String.eqb key "bsf" = false.
Proof. intros key (H1 & H2 & H3 & H4). repeat split; apply String.eqb_neq; auto. Qed.

Ltac rt_unfold := unfold total, surface, volume, brdf_val, p_val, mu_0, mu_ex, t_ex, p_ex, t_0, p_0, is_mono,
  set_omega, set_tau, set_NormBRDF, set_bsf, set_param, set_V, set_SRF in *;
  cbn [I0 geometry gt_0 gp_0 gt_ex gp_ex V SRF bsf param_dict tau omega p NormBRDF brdf] in *.

Lemma omega_is_derive : forall o w,
  is_derive (fun v => total (set_omega o v)) w (dsurface_domega o + dvolume_domega o).
Proof.
  intros o w. unfold dsurface_domega, dvolume_domega. rt_unfold. auto_derive; auto. unfold Rdiv. ring.
Qed.

Lemma NormBRDF_is_derive : forall o w,
  is_derive (fun v => total (set_NormBRDF o v)) w (dsurface_dR o + dvolume_dR o).
Proof.
  intros o w. unfold dsurface_dR, dvolume_dR. rt_unfold. auto_derive; auto. unfold Rdiv. ring.
Qed.

Lemma bsf_is_derive : forall o w,
  is_derive (fun v => total (set_bsf o v)) w (dsurface_dbsf o + dvolume_dbsf o).
Proof.
  intros o w. unfold dsurface_dbsf, dvolume_dbsf. rt_unfold. auto_derive; auto. unfold Rdiv. ring.
Qed.

(** the true derivative in tau *)
Definition true_dtau (o : RT) : R :=
  dsurface_dtau o
  + (1 - bsf o) * (I0 o * omega (V o) * (mu_0 o / (mu_0 o + mu_ex o))
                   * ((/ mu_0 o + / mu_ex o) * exp (- tau (V o) / mu_0 o - tau (V o) / mu_ex o)) * p_val o).

Lemma tau_is_derive : forall o, mu_0 o <> 0 -> mu_ex o <> 0 ->
  is_derive (fun v => total (set_tau o v)) (tau (V o)) (true_dtau o).
Proof.
  intros o H0 He. unfold true_dtau, dsurface_dtau.
  replace (- tau (V o) / mu_0 o - tau (V o) / mu_ex o) with (- (tau (V o) / mu_0 o) - tau (V o) / mu_ex o)
    by (field; auto).
  rt_unfold.
  set (B := brdf _ _ _ _ _ _). set (PV := p _ _ _ _ _ _). set (m0 := cos (gt_0 o)) in *.
  set (mex := cos (if (geometry o =? "mono")%string then gt_0 o else gt_ex o)) in *.
  auto_derive; auto.
  change (- (tau (V o) * / m0) + - (tau (V o) * / mex)) with (- (tau (V o) / m0) - tau (V o) / mex).
  set (E := exp _). unfold Rdiv. set (q := / (m0 + mex)). field. auto.
Qed.

Lemma free_is_derive : forall o key v, diff_in o key ->
  dget string_dec key (param_dict o) = Some v ->
  is_derive (fun x => total (set_param o key x)) v (d_surface_ddummy key o + d_volume_ddummy key o).
Proof.
  intros o key v Hd Hv. destruct (Hd v Hv) as [H1 H2].
  unfold d_surface_ddummy, d_volume_ddummy, d_surface_dummy, d_volume_dummy. rewrite Hv.
  set (b := fun x => brdf (SRF o) (dset string_dec key x (param_dict o)) (t_0 o) (t_ex o) (p_0 o) (p_ex o)) in *.
  set (q := fun x => p (V o) (dset string_dec key x (param_dict o)) (t_0 o) (t_ex o) (p_0 o) (p_ex o)) in *.
  apply (is_derive_ext (fun x =>
    NormBRDF (SRF o) * ((1 - bsf o) * (exp (- (tau (V o) / mu_0 o) - tau (V o) / mu_ex o) * (I0 o * mu_0 o * b x))
       + bsf o * (I0 o * mu_0 o * b x))
    + (1 - bsf o) * (I0 o * omega (V o) * mu_0 o / (mu_0 o + mu_ex o) * (1 - exp (- (tau (V o) / mu_0 o) - tau (V o) / mu_ex o)) * q x))).
  - intro x. reflexivity.
  - auto_derive; [repeat split; auto|].
    change (fun x : R => b x) with b. change (fun x : R => q x) with q. unfold Rdiv.
    change (- (tau (V o) * / mu_0 o) - tau (V o) * / mu_ex o) with (- (tau (V o) * / mu_0 o) + - (tau (V o) * / mu_ex o)).
    ring.
Qed.

Lemma jac_entry_norm : forall dB sig0 o key jl,
  jac_entry false false o key = Ok jl -> jac_entry dB sig0 o key = Ok (jl * jac_norm dB sig0 o).
Proof.
  intros dB sig0 o key jl. unfold jac_entry.
  change (jac_norm false false o) with 1.
  repeat match goal with |- context [if ?b then _ else _] => destruct b end;
  intro H; inversion H; f_equal; ring.
Qed.

Lemma jac_chain : forall dB sig0 (f : R -> R) x f' t,
  is_derive f x f' -> 0 < cos t -> (dB = true -> 0 < f x) ->
  is_derive (fun v => in_units dB sig0 t (f v)) x
    (f' * (if andb sig0 (negb dB) then 4 * PI * cos t else if dB then 10 / (ln 10 * f x) else 1)).
Proof.
  intros dB sig0 f x f' t Hd Hc Hp. pose proof ln10_neq0 as Hl. pose proof PI_RGT_0 as HPI.
  assert (He : ex_derive f x) by (exists f'; auto).
  assert (HD : Derive f x = f') by (apply is_derive_unique; auto).
  destruct dB, sig0; unfold in_units; cbn [andb negb].
  - assert (0 < f x) by auto. auto_derive.
    + repeat split; auto. apply Rmult_lt_0_compat; [apply Rmult_lt_0_compat; [|]|]; lra.
    + change (fun x : R => f x) with f. rewrite HD. field. repeat split; lra.
  - assert (0 < f x) by auto. auto_derive; [repeat split; auto|].
    change (fun x : R => f x) with f. rewrite HD. field. split; lra.
  - auto_derive; [repeat split; auto|]. change (fun x : R => f x) with f. rewrite HD. ring.
  - rewrite Rmult_1_r. exact Hd.
Qed.

(** *** geometry histories *)
Lemma geo_step_mono : forall o op, is_mono (geo_step o op) = is_mono o.
Proof.
  intros o [v|v|v|v| |]; cbn; try reflexivity; unfold set_t_ex, set_p_ex, get_mu_0_x, get_mu_ex_x.
  - destruct (is_mono o) eqn:E; auto.
  - destruct (is_mono o) eqn:E; auto.
  - destruct (cache_mu_0_x o); cbn; destruct (cache_mu_ex_x o); reflexivity.
Qed.

Lemma geo_run_mono : forall ops o, is_mono (geo_run o ops) = is_mono o.
Proof.
  unfold geo_run. induction ops as [|op ops IH]; intro o; cbn; auto. rewrite IH. apply geo_step_mono.
Qed.

Definition same_geo (a b : RT) : Prop :=
  gt_0 a = gt_0 b /\ gp_0 a = gp_0 b /\ gt_ex a = gt_ex b /\ gp_ex a = gp_ex b /\
  geometry a = geometry b /\ nmax a = nmax b.

Lemma get_mu_same_geo : forall o, same_geo (snd (get_mu_ex_x (snd (get_mu_0_x o)))) o.
Proof.
  intro o. unfold get_mu_0_x. destruct (cache_mu_0_x o); cbn; unfold get_mu_ex_x;
  destruct (cache_mu_ex_x _); cbn; repeat split.
Qed.

(** the caches hold nothing or the powers of the current cosines *)
Definition cache_ok (o : RT) : Prop :=
  (forall l, cache_mu_0_x o = Some l -> l = mu_powers (mu_0 o) (nmax o)) /\
  (forall l, cache_mu_ex_x o = Some l -> l = mu_powers (mu_ex o) (nmax o)).

Lemma cache_ok_step : forall o op, assigns_theta op = false -> cache_ok o -> cache_ok (geo_step o op).
Proof.
  intros o op Ha [H0 He]. destruct op; try discriminate Ha; cbn.
  - split; intros l Hl; [apply H0 in Hl | apply He in Hl]; exact Hl.
  - unfold set_p_ex. destruct (is_mono o) eqn:E; [split; auto|].
    split; intros l Hl; [apply H0 in Hl | apply He in Hl]; exact Hl.
  - unfold get_mu_0_x. destruct (cache_mu_0_x o) eqn:E0; cbn; unfold get_mu_ex_x; cbn;
    destruct (cache_mu_ex_x o) eqn:E1; cbn; split; cbn; intros l' Hl;
    try (injection Hl as <-); try rewrite E0 in *; try rewrite E1 in *;
    try (injection Hl as <-); try reflexivity; try (apply H0; reflexivity); try (apply He; reflexivity).
  - split; intros l Hl; discriminate.
Qed.

Lemma cache_ok_run : forall ops o, forallb (fun op => negb (assigns_theta op)) ops = true ->
  cache_ok o -> cache_ok (geo_run o ops).
Proof.
  unfold geo_run. induction ops as [|op ops IH]; intros o H Ho; cbn in *; auto.
  apply andb_true_iff in H as [H1 H2]. apply IH; auto. apply cache_ok_step; auto.
  destruct (assigns_theta op); auto.
Qed.

Lemma cache_ok_get : forall o, cache_ok o ->
  fst (get_mu_0_x o) = mu_powers (mu_0 o) (nmax o) /\
  fst (get_mu_ex_x o) = mu_powers (mu_ex o) (nmax o).
Proof.
  intros o [H0 He]. unfold get_mu_0_x, get_mu_ex_x. split.
  - destruct (cache_mu_0_x o); cbn; auto.
  - destruct (cache_mu_ex_x o); cbn; auto.
Qed.

Lemma geo_fields : forall o op,
  gt_0 (geo_step o op) = (match op with OpT0 v => v | _ => gt_0 o end) /\
  gp_0 (geo_step o op) = (match op with OpP0 v => v | _ => gp_0 o end) /\
  (is_mono o = false -> gt_ex (geo_step o op) = (match op with OpTex v => v | _ => gt_ex o end)) /\
  geometry (geo_step o op) = geometry o /\ nmax (geo_step o op) = nmax o.
Proof.
  intros o [v|v|v|v| |]; cbn; try (repeat split; reflexivity); unfold set_t_ex, set_p_ex.
  - destruct (is_mono o) eqn:E; repeat split; intros; congruence.
  - destruct (is_mono o) eqn:E; repeat split; intros; congruence.
  - destruct (get_mu_same_geo o) as (H1 & H2 & H3 & H4 & H5 & H6). rewrite H1, H2, H3, H5, H6. repeat split.
Qed.

Lemma geo_run_fields : forall ops o,
  gt_0 (geo_run o ops) = last_t0 (gt_0 o) ops /\
  gp_0 (geo_run o ops) = last_p0 (gp_0 o) ops /\
  (is_mono o = false -> gt_ex (geo_run o ops) = last_tex (gt_ex o) ops) /\
  geometry (geo_run o ops) = geometry o /\ nmax (geo_run o ops) = nmax o.
Proof.
  unfold geo_run. induction ops as [|op ops IH]; intro o; cbn [fold_left].
  - repeat split; reflexivity.
  - destruct (IH (geo_step o op)) as (H1 & H2 & H3 & H4 & H5).
    destruct (geo_fields o op) as (F1 & F2 & F3 & F4 & F5).
    rewrite H1, H2, H4, H5, F1, F2, F4, F5.
    split; [|split; [|split; [|split]]]; try reflexivity.
    + destruct op; reflexivity.
    + destruct op; reflexivity.
    + intro Hm. rewrite H3 by (rewrite geo_step_mono; auto). rewrite F3 by auto. destruct op; reflexivity.
Qed.

Lemma geo_run_drop_exit : forall ops o, is_mono o = true ->
  geo_run o (filter not_exit ops) = geo_run o ops.
Proof.
  unfold geo_run. induction ops as [|op ops IH]; intros o Hm; cbn; auto.
  assert (Hs : is_mono (geo_step o op) = true) by (rewrite geo_step_mono; auto).
  destruct (not_exit op) eqn:E; cbn.
  - apply IH; auto.
  - destruct op; try discriminate E; cbn; unfold set_t_ex, set_p_ex; rewrite Hm; apply IH; auto.
Qed.

(** *** bounds *)
Lemma att_range : forall o, 0 <= tau (V o) -> 0 < mu_0 o -> 0 < mu_ex o ->
  0 < exp (- (tau (V o) / mu_0 o) - tau (V o) / mu_ex o) <= 1.
Proof.
  intros o Ht H0 He. split; [apply exp_pos|].
  rewrite <- exp_0.
  assert (0 <= tau (V o) / mu_0 o) by (apply Rmult_le_pos; auto; left; apply Rinv_0_lt_compat; auto).
  assert (0 <= tau (V o) / mu_ex o) by (apply Rmult_le_pos; auto; left; apply Rinv_0_lt_compat; auto).
  destruct (Req_dec (- (tau (V o) / mu_0 o) - tau (V o) / mu_ex o) 0) as [E|E].
  - rewrite E. lra.
  - left. apply exp_increasing. lra.
Qed.

Lemma exp_le : forall x y, x <= y -> exp x <= exp y.
Proof. intros x y [H|H]; [left; apply exp_increasing; auto | rewrite H; lra]. Qed.

Lemma ex_brdf_diff : forall t, ex_derive (back_brdf ex_o) t.
Proof. intro t. unfold back_brdf, ex_o; cbn. auto_derive. auto. Qed.
Lemma ex_p_diff : forall t, ex_derive (back_p ex_o) t.
Proof. intro t. unfold back_p, ex_o; cbn. auto_derive. auto. Qed.
Lemma ex_brdf_twice : forall t, twice_diff (back_brdf ex_o) t.
Proof.
  intro t. split; [apply filter_forall; apply ex_brdf_diff|].
  apply (ex_derive_ext (fun t => - cos t * sin t)).
  - intro u. symmetry. apply is_derive_unique. unfold back_brdf, ex_o; cbn. auto_derive; auto. field.
  - auto_derive. auto.
Qed.
Lemma ex_p_twice : forall t, twice_diff (back_p ex_o) t.
Proof.
  intro t. split; [apply filter_forall; apply ex_p_diff|].
  apply (ex_derive_ext (fun t => - (3 / (16 * PI)) * 4 * (cos t) ^ 3 * sin t)).
  - intro u. symmetry. apply is_derive_unique. unfold back_p, ex_o; cbn. auto_derive; auto.
    unfold Rdiv. ring.
  - auto_derive. auto.
Qed.
Lemma cos_PI3_pos : 0 < cos (PI / 3).
Proof. rewrite cos_PI3. lra. Qed.
Lemma cos_PI6_pos : 0 < cos (PI / 6).
Proof. pose proof PI_RGT_0. apply cos_gt_0; lra. Qed.

Lemma exp_lt1 : forall x, x < 0 -> exp x < 1.
Proof. intros x H. rewrite <- exp_0. apply exp_increasing; auto. Qed.
