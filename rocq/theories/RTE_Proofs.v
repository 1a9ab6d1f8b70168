(** Analysis for the first-order solution of the radiative transfer equation *)
From Coq Require Import Reals Lra Psatz.
From Coquelicot Require Import Coquelicot.
From Verif Require Import Int_Spec RTE_Spec.
Local Open Scope R_scope.

(** ** functions on an interval *)
Definition clamp (a b x : R) : R := Rmax a (Rmin b x).
Lemma clamp_in a b x : a <= b -> a <= clamp a b x <= b.
Proof. intros. unfold clamp, Rmax, Rmin. destruct (Rle_dec b x), (Rle_dec a _); lra. Qed.
Lemma clamp_id a b x : a <= x <= b -> clamp a b x = x.
Proof. intros. unfold clamp, Rmax, Rmin. destruct (Rle_dec b x), (Rle_dec a _); lra. Qed.
Lemma clamp_lip a b x y : a <= b -> Rabs (clamp a b x - clamp a b y) <= Rabs (x - y).
Proof. intros. unfold clamp, Rmax, Rmin. repeat destruct (Rle_dec _ _); unfold Rabs; repeat destruct (Rcase_abs _); lra. Qed.
Lemma clamp_continuous (f : R -> R) a b : a <= b -> continuous_on (fun t => a <= t <= b) f ->
  forall x, continuous (fun t => f (clamp a b t)) x.
Proof.
  intros Hab Hf x. unfold continuous. specialize (Hf (clamp a b x) (clamp_in a b x Hab)).
  apply (filterlim_comp _ _ _ (clamp a b) f _ (within (fun t => a <= t <= b) (locally (clamp a b x)))); [|exact Hf].
  intros P [d Hd]. exists d. intros y Hy. apply Hd; [|apply clamp_in; exact Hab].
  unfold ball in *; simpl in *; unfold AbsRing_ball, abs, minus, plus, opp in *; simpl in *.
  eapply Rle_lt_trans; [apply (clamp_lip a b y x Hab)|exact Hy].
Qed.

(** no derivative inside, continuous up to the boundary: the boundary values agree *)
Lemma const_on (W : R -> R) a b : a <= b -> continuous_on (fun t => a <= t <= b) W ->
  (forall t, a < t < b -> is_derive W t 0) -> W a = W b.
Proof.
  intros Hab Hc Hd. destruct (MVT_gen (fun t => W (clamp a b t)) a b (fun _ => 0)) as (c & _ & E).
  - intros x Hx. rewrite Rmin_left, Rmax_right in Hx by exact Hab. apply (is_derive_ext_loc W); [|apply Hd; exact Hx].
    assert (P : 0 < Rmin (x - a) (b - x)) by (apply Rmin_pos; lra). exists (mkposreal _ P). intros y Hy.
    unfold ball in Hy; simpl in Hy; unfold AbsRing_ball, abs, minus, plus, opp in Hy; simpl in Hy. symmetry. f_equal. apply clamp_id.
    assert (Rmin (x - a) (b - x) <= x - a) by apply Rmin_l. assert (Rmin (x - a) (b - x) <= b - x) by apply Rmin_r.
    unfold Rabs in Hy. destruct (Rcase_abs _) in Hy; lra.
  - intros x _. apply continuity_pt_filterlim. apply clamp_continuous; auto.
  - rewrite !clamp_id in E by lra. lra.
Qed.
Lemma continuous_on_all (f : R -> R) (D : R -> Prop) : (forall x, D x -> continuous f x) -> continuous_on D f.
Proof. intros H x Hx. eapply filterlim_filter_le_1; [apply filter_le_within|apply H; exact Hx]. Qed.
Lemma continuous_on_sub (f : R -> R) (D E : R -> Prop) : (forall x, E x -> D x) -> continuous_on D f -> continuous_on E f.
Proof. intros H. apply continuous_on_subset. exact H. Qed.
Lemma continuous_on_mult (f g : R -> R) (D : R -> Prop) : continuous_on D f -> continuous_on D g -> continuous_on D (fun x => f x * g x).
Proof.
  intros Hf Hg x Hx. eapply filterlim_comp_2; [apply Hf; exact Hx|apply Hg; exact Hx|].
  apply (filterlim_mult (K := R_AbsRing)).
Qed.
Lemma continuous_on_plus (f g : R -> R) (D : R -> Prop) : continuous_on D f -> continuous_on D g -> continuous_on D (fun x => f x + g x).
Proof.
  intros Hf Hg x Hx. eapply filterlim_comp_2; [apply Hf; exact Hx|apply Hg; exact Hx|].
  apply (filterlim_plus (K := R_AbsRing) (V := R_NormedModule)).
Qed.

Lemma RInt_zero a b : RInt (fun _ => 0) a b = 0.
Proof. rewrite RInt_const. change ((b - a) * 0 = 0). ring. Qed.

(** ** exp(-x/mu), continued by 0 for mu = 0 *)
Definition att (x mu : R) : R := if Rle_dec mu 0 then 0 else exp (- x / mu).
Lemma att_pos x mu : 0 < mu -> att x mu = exp (- x / mu).
Proof. intros. unfold att. destruct (Rle_dec mu 0); [lra|reflexivity]. Qed.
Lemma att_neg x mu : mu <= 0 -> att x mu = 0.
Proof. intros. unfold att. destruct (Rle_dec mu 0); [reflexivity|lra]. Qed.
Lemma att_le x mu : 0 < x -> 0 < mu -> att x mu <= mu / x.
Proof.
  intros Hx Hm. rewrite att_pos by exact Hm. replace (- x / mu) with (- (x / mu)) by (field; lra). rewrite exp_Ropp.
  assert (P : 0 < x / mu) by (apply Rdiv_lt_0_compat; auto). assert (H : 1 + x / mu < exp (x / mu)) by (apply exp_ineq1; lra).
  replace (mu / x) with (/ (x / mu)) by (field; lra). apply Rinv_le_contravar; lra.
Qed.
Lemma att_bounds x mu : 0 <= x -> 0 <= att x mu <= 1.
Proof.
  intros Hx. unfold att. destruct (Rle_dec mu 0); [lra|]. split; [left; apply exp_pos|].
  rewrite <- exp_0. destruct Hx as [Hx|<-]; [left; apply exp_increasing|right; f_equal; field; lra].
  assert (0 < x / mu) by (apply Rdiv_lt_0_compat; lra). replace (- x / mu) with (- (x / mu)) by (field; lra). lra.
Qed.
Lemma att_continuous2 x mu : 0 < x -> continuity_2d_pt att x mu.
Proof.
  intros Hx. destruct (Rtotal_order mu 0) as [H|[->|H]].
  - apply (continuity_2d_pt_ext_loc (fun _ _ => 0)); [|apply continuity_2d_pt_const].
    assert (P : 0 < - mu) by lra. exists (mkposreal _ P). intros u v _ Hv. simpl in Hv. rewrite att_neg; [reflexivity|].
    unfold Rabs in Hv. destruct (Rcase_abs _) in Hv; lra.
  - intros eps. assert (P : 0 < Rmin (x / 2) (eps * (x / 2))).
    { apply Rmin_pos; [lra|]. apply Rmult_lt_0_compat; [apply eps|lra]. }
    exists (mkposreal _ P). intros u v Hu Hv. simpl in Hu, Hv. rewrite (att_neg x 0) by lra. rewrite Rminus_0_r.
    assert (A : Rmin (x / 2) (eps * (x / 2)) <= x / 2) by apply Rmin_l. assert (B : Rmin (x / 2) (eps * (x / 2)) <= eps * (x / 2)) by apply Rmin_r.
    assert (U : x / 2 < u) by (unfold Rabs in Hu; destruct (Rcase_abs _) in Hu; lra).
    destruct (Rle_dec v 0) as [Hn|Hn]; [rewrite att_neg, Rabs_R0 by exact Hn; apply eps|].
    assert (V : v < eps * (x / 2)) by (unfold Rabs in Hv; destruct (Rcase_abs _) in Hv; lra).
    destruct (att_bounds u v) as [L _]; [lra|]. rewrite Rabs_pos_eq by exact L.
    eapply Rle_lt_trans; [apply att_le; lra|]. apply Rmult_lt_reg_r with u; [lra|]. replace (v / u * u) with v by (field; lra).
    eapply Rlt_trans; [exact V|]. apply Rmult_lt_compat_l; [apply eps|lra].
  - apply (continuity_2d_pt_ext_loc (fun u v => exp (- u / v))).
    + exists (mkposreal _ H). intros u v _ Hv. simpl in Hv. rewrite att_pos; [reflexivity|]. unfold Rabs in Hv. destruct (Rcase_abs _) in Hv; lra.
    + apply (continuity_1d_2d_pt_comp exp (fun u v => - u / v)).
      * apply derivable_continuous_pt, derivable_pt_exp.
      * apply continuity_2d_pt_mult; [apply continuity_2d_pt_opp, continuity_2d_pt_id1|]. apply continuity_2d_pt_inv; [apply continuity_2d_pt_id2|lra].
Qed.

Section Kernel.
Variables (tau mx : R).
Hypothesis Hmx : 0 < mx.

(** attenuation on the path: up to depth [s] with cosine [mu], from there with cosine [mx] *)
Definition ker (s mu : R) : R := exp (- s / mx) * att (tau - s) mu.
Lemma exp_cont (c x : R) : continuous (fun s => exp (- s / c)) x.
Proof. apply (ex_derive_continuous (fun s => exp (- s / c))). auto_derive. exact I. Qed.
Lemma exp_cont2 (m c x : R) : continuous (fun s => exp (- (c - s) / m)) x.
Proof. apply (ex_derive_continuous (fun s => exp (- (c - s) / m))). auto_derive. exact I. Qed.
Lemma exp_cont3 (a x : R) : continuous (fun s => exp (a * s)) x.
Proof. apply (ex_derive_continuous (fun s => exp (a * s))). auto_derive. exact I. Qed.
Lemma ker_cont_s mu s : continuous (fun s => ker s mu) s.
Proof.
  unfold ker. apply (continuous_mult (fun s => exp (- s / mx))); [apply exp_cont|]. unfold att. destruct (Rle_dec mu 0); [apply continuous_const|].
  apply exp_cont2.
Qed.
Lemma ker_cont2 s mu : s < tau -> continuity_2d_pt ker s mu.
Proof.
  intros Hs. unfold ker. apply continuity_2d_pt_mult.
  - apply (continuity_1d_2d_pt_comp exp (fun u v => - u / mx)); [apply derivable_continuous_pt, derivable_pt_exp|].
    apply continuity_2d_pt_mult; [apply continuity_2d_pt_opp, continuity_2d_pt_id1|apply continuity_2d_pt_const].
  - assert (C : continuity_2d_pt att (tau - s) mu) by (apply att_continuous2; lra).
    intros eps. destruct (C eps) as [d Hd]. exists d. intros u v Hu Hv. apply Hd; [|exact Hv].
    replace (tau - u - (tau - s)) with (- (u - s)) by ring. rewrite Rabs_Ropp. exact Hu.
Qed.
Lemma ker_nonneg s mu : s <= tau -> 0 <= ker s mu.
Proof. intros. apply Rmult_le_pos; [left; apply exp_pos|]. apply att_bounds. lra. Qed.

(** *** integral over the depth *)
Definition inner (t mu : R) : R := RInt (fun s => ker s mu) t tau.
Lemma inner_ex t mu : ex_RInt (fun s => ker s mu) t tau.
Proof. apply (ex_RInt_continuous (V := R_CompleteNormedModule)). intros. apply ker_cont_s. Qed.
Lemma inner_derive t mu : is_derive (fun t => inner t mu) t (- ker t mu).
Proof.
  apply (is_derive_RInt' (V := R_NormedModule) (fun s => ker s mu) (fun t => inner t mu) t tau); [|apply ker_cont_s].
  apply filter_forall. intros x. apply (RInt_correct (V := R_CompleteNormedModule)), inner_ex.
Qed.
Lemma inner_zero mu : inner tau mu = 0.
Proof. unfold inner. apply (RInt_point (V := R_CompleteNormedModule)). Qed.
Lemma inner_nonneg t mu : t <= tau -> 0 <= inner t mu.
Proof. intros Ht. apply RInt_ge_0; [exact Ht|apply inner_ex|]. intros x Hx. apply ker_nonneg. lra. Qed.
Lemma exp_mono a b c : 0 < c -> a <= b -> exp (- b / c) <= exp (- a / c).
Proof.
  intros Hc [H| ->]; [left; apply exp_increasing|right; reflexivity].
  apply Rmult_lt_compat_r; [apply Rinv_0_lt_compat; exact Hc|lra].
Qed.
Lemma inner_lip t mu : 0 <= t <= tau -> inner t mu <= tau - t.
Proof.
  intros Ht. replace (tau - t) with (RInt (fun _ => 1) t tau) by (rewrite RInt_const; change ((tau - t) * 1 = tau - t); ring).
  apply RInt_le; [lra|apply inner_ex|apply ex_RInt_const|]. intros s Hs. unfold ker.
  destruct (att_bounds (tau - s) mu) as [A B]; [lra|]. assert (exp (- s / mx) <= exp (- 0 / mx)) by (apply exp_mono; lra).
  replace (- 0 / mx) with 0 in H by (field; lra). rewrite exp_0 in H. assert (0 < exp (- s / mx)) by apply exp_pos. nra.
Qed.
Lemma int_exp mu t : 0 < mu -> is_RInt (fun s => exp (- (tau - s) / mu)) t tau (mu * (1 - exp (- (tau - t) / mu))).
Proof.
  intros Hm. replace (mu * (1 - exp (- (tau - t) / mu))) with (minus (mu * exp (- (tau - tau) / mu)) (mu * exp (- (tau - t) / mu))).
  - apply (is_RInt_derive (fun s => mu * exp (- (tau - s) / mu)) (fun s => exp (- (tau - s) / mu))).
    + intros x _. auto_derive; [exact I|]. replace (- (tau + - x) * / mu) with (- (tau - x) / mu) by (unfold Rdiv; ring). field. lra.
    + intros x _. apply exp_cont2.
  - unfold minus, plus, opp; simpl. replace (- (tau - tau) / mu) with 0 by (field; lra). rewrite exp_0. ring.
Qed.
Lemma inner_small t mu : t <= tau -> 0 < mu -> inner t mu <= exp (- t / mx) * mu.
Proof.
  intros Ht Hm. assert (E := int_exp mu t Hm).
  apply Rle_trans with (exp (- t / mx) * (mu * (1 - exp (- (tau - t) / mu)))).
  - apply (is_RInt_scal _ _ _ (exp (- t / mx))) in E.
    apply (is_RInt_le (fun s => ker s mu) (fun s => scal (exp (- t / mx)) (exp (- (tau - s) / mu))) t tau); [exact Ht|apply (RInt_correct (V := R_CompleteNormedModule)), inner_ex|exact E|].
    intros s Hs. unfold ker. rewrite att_pos by exact Hm. apply Rmult_le_compat_r; [left; apply exp_pos|]. apply exp_mono; lra.
  - apply Rmult_le_compat_l; [left; apply exp_pos|]. assert (0 < exp (- (tau - t) / mu)) by apply exp_pos. nra.
Qed.
(** for mu > 0 *)
Definition phi (L a : R) : R := RInt (fun r => exp (a * r)) 0 L.
Lemma phi_continuous L a : continuous (phi L) a.
Proof.
  apply (ex_derive_continuous (phi L)). eexists. apply (is_derive_RInt_param (fun a r => exp (a * r)) 0 L a).
  - apply filter_forall. intros x t _. auto_derive. exact I.
  - intros t _. apply (continuity_2d_pt_ext (fun u v => v * exp (u * v))).
    + intros u v. symmetry. apply is_derive_unique. auto_derive; [exact I|ring].
    + apply continuity_2d_pt_mult; [apply continuity_2d_pt_id2|]. apply (continuity_1d_2d_pt_comp exp (fun u v => u * v)); [apply derivable_continuous_pt, derivable_pt_exp|].
      apply continuity_2d_pt_mult; [apply continuity_2d_pt_id1|apply continuity_2d_pt_id2].
  - apply filter_forall. intros y. apply (ex_RInt_continuous (V := R_CompleteNormedModule)). intros z _. apply exp_cont3.
Qed.
Lemma inner_phi t mu : 0 < mu -> inner t mu = exp (- tau / mx) * phi (tau - t) (/ mx - / mu).
Proof.
  intros Hm. unfold inner, phi.
  assert (X : ex_RInt (fun r => exp ((/ mx - / mu) * r)) 0 (tau - t)).
  { apply (ex_RInt_continuous (V := R_CompleteNormedModule)). intros z _. apply exp_cont3. }
  apply (is_RInt_unique (V := R_CompleteNormedModule)).
  apply (RInt_correct (V := R_CompleteNormedModule)) in X. apply is_RInt_swap in X. apply (is_RInt_scal _ _ _ (exp (- tau / mx))) in X.
  replace (tau - t) with (-1 * t + tau) in X by ring. replace 0 with (-1 * tau + tau) in X at 2 by ring.
  replace 0 with (-1 * tau + tau) in X at 1 by ring.
  apply (is_RInt_comp_lin _ (-1) tau t tau) in X.
  apply (is_RInt_ext _ (fun s => opp (ker s mu))) in X.
  2:{ intros s _. unfold ker. rewrite att_pos by exact Hm. unfold scal, opp; simpl. unfold mult; simpl. rewrite <- !exp_plus.
      replace (- tau / mx + (/ mx - / mu) * (-1 * s + tau)) with (- s / mx + - (tau - s) / mu) by (field; lra). ring. }
  apply is_RInt_opp in X. replace (-1 * tau + tau) with 0 in X by ring. replace (-1 * t + tau) with (tau - t) in X by ring.
  replace (exp (- tau / mx) * RInt (fun r : R => exp ((/ mx - / mu) * r)) 0 (tau - t))
    with (opp (scal (exp (- tau / mx)) (opp (RInt (fun r : R => exp ((/ mx - / mu) * r)) 0 (tau - t))))).
  - eapply is_RInt_ext; [|exact X]. intros s _. unfold opp; simpl. ring.
  - unfold opp, scal; simpl. unfold mult; simpl. ring.
Qed.
Lemma inner_cont t mu : t <= tau -> continuous (inner t) mu.
Proof.
  intros Ht. destruct (Rtotal_order mu 0) as [H|[->|H]].
  - apply (continuous_ext_loc _ (fun _ => 0)); [|apply continuous_const].
    assert (P : 0 < - mu) by lra. exists (mkposreal _ P). intros y Hy.
    unfold ball in Hy; simpl in Hy; unfold AbsRing_ball, abs, minus, plus, opp in Hy; simpl in Hy.
    assert (y <= 0) by (unfold Rabs in Hy; destruct (Rcase_abs _) in Hy; lra).
    symmetry. unfold inner. rewrite (RInt_ext _ (fun _ => 0)); [apply RInt_zero|].
    intros x _. unfold ker. rewrite att_neg by lra. apply Rmult_0_r.
  - assert (Z : forall y, y <= 0 -> inner t y = 0).
    { intros y Hy. unfold inner. rewrite (RInt_ext _ (fun _ => 0)); [apply RInt_zero|].
      intros x _. unfold ker. rewrite att_neg by lra. apply Rmult_0_r. }
    unfold continuous. rewrite (Z 0) by lra. apply filterlim_locally. intros eps.
    assert (P : 0 < eps / exp (- t / mx)) by (apply Rdiv_lt_0_compat; [apply eps|apply exp_pos]).
    exists (mkposreal _ P). intros y Hy. unfold ball in *; simpl in *; unfold AbsRing_ball, abs, minus, plus, opp in *; simpl in *.
    destruct (Rle_dec y 0) as [Hn|Hn]; [rewrite Z by exact Hn; rewrite Ropp_0, Rplus_0_r, Rabs_R0; apply eps|].
    rewrite Ropp_0, Rplus_0_r in *. rewrite Rabs_pos_eq in Hy by lra. rewrite Rabs_pos_eq by (apply inner_nonneg; exact Ht).
    eapply Rle_lt_trans; [apply inner_small; lra|]. apply Rmult_lt_reg_r with (/ exp (- t / mx)); [apply Rinv_0_lt_compat, exp_pos|].
    assert (exp (- t / mx) <> 0) by (apply Rgt_not_eq, exp_pos). replace (exp (- t / mx) * y * / exp (- t / mx)) with y by (field; auto). exact Hy.
  - apply (continuous_ext_loc _ (fun mu => exp (- tau / mx) * phi (tau - t) (/ mx - / mu))).
    + exists (mkposreal _ H). intros y Hy. unfold ball in Hy; simpl in Hy; unfold AbsRing_ball, abs, minus, plus, opp in Hy; simpl in Hy.
      symmetry. apply inner_phi. unfold Rabs in Hy; destruct (Rcase_abs _) in Hy; lra.
    + apply (continuous_mult (fun _ => exp (- tau / mx))); [apply continuous_const|].
      apply (continuous_comp (fun mu => / mx - / mu) (phi (tau - t))); [|apply phi_continuous].
      apply (continuous_minus (fun _ => / mx) (fun mu => / mu)); [apply continuous_const|]. apply continuous_Rinv. lra.
Qed.

(** *** integral over the directions *)
Variable g : R -> R.
Hypothesis Hg : forall x, continuous g x.
Definition outer (t : R) : R := RInt (fun mu => inner t mu * g mu) 0 1.
Lemma outer_ex t : t <= tau -> ex_RInt (fun mu => inner t mu * g mu) 0 1.
Proof. intros Ht. apply (ex_RInt_continuous (V := R_CompleteNormedModule)). intros z _. apply (continuous_mult (inner t) g); [apply inner_cont; exact Ht|apply Hg]. Qed.
Lemma below t : t < tau -> locally t (fun y => y < tau).
Proof.
  intros H. assert (P : 0 < tau - t) by lra. exists (mkposreal _ P). intros y Hy.
  unfold ball in Hy; simpl in Hy; unfold AbsRing_ball, abs, minus, plus, opp in Hy; simpl in Hy. unfold Rabs in Hy; destruct (Rcase_abs _) in Hy; lra.
Qed.
Lemma inner_g_derive t mu : is_derive (fun t => inner t mu * g mu) t (- ker t mu * g mu).
Proof.
  replace (- ker t mu * g mu) with (- ker t mu * g mu + inner t mu * 0) by ring.
  apply (is_derive_mult (fun t => inner t mu) (fun _ => g mu) t (- ker t mu) 0); [apply inner_derive|apply (is_derive_const (V := R_NormedModule))|].
  intros. apply Rmult_comm.
Qed.
Lemma cont2_of_1 (h : R -> R) x y : continuous h y -> continuity_2d_pt (fun _ v => h v) x y.
Proof. intros H. apply (continuity_1d_2d_pt_comp h (fun _ v => v)); [apply continuity_pt_filterlim; exact H|apply continuity_2d_pt_id2]. Qed.
Lemma outer_derive t : t < tau -> is_derive outer t (- RInt (fun mu => ker t mu * g mu) 0 1).
Proof.
  intros Ht. assert (D : is_derive outer t (RInt (fun mu => Derive (fun u => inner u mu * g mu) t) 0 1)).
  { apply (is_derive_RInt_param (fun u mu => inner u mu * g mu) 0 1 t).
    - apply filter_forall. intros x mu _. eexists. apply inner_g_derive.
    - intros mu _. apply (continuity_2d_pt_ext (fun u v => - ker u v * g v)).
      + intros u v. symmetry. apply is_derive_unique, inner_g_derive.
      + apply continuity_2d_pt_mult; [apply continuity_2d_pt_opp, ker_cont2; exact Ht|apply cont2_of_1, Hg].
    - generalize (below t Ht). apply filter_imp. intros y Hy. apply outer_ex. lra. }
  replace (- RInt (fun mu => ker t mu * g mu) 0 1) with (RInt (fun mu => Derive (fun u => inner u mu * g mu) t) 0 1); [exact D|].
  rewrite (RInt_ext _ (fun mu => opp (ker t mu * g mu))).
  - apply (RInt_opp (V := R_CompleteNormedModule) (fun mu => ker t mu * g mu) 0 1). apply (ex_RInt_continuous (V := R_CompleteNormedModule)). intros z _. apply (continuous_mult (ker t) g); [|apply Hg].
    assert (C : continuity_2d_pt ker t z) by (apply ker_cont2; exact Ht).
    apply filterlim_locally. intros eps. destruct (C eps) as [d Hd]. exists d. intros y Hy.
    unfold ball in *; simpl in *; unfold AbsRing_ball, abs, minus, plus, opp in *; simpl in *. apply Hd; [|exact Hy].
    rewrite Rminus_eq_0, Rabs_R0. apply d.
  - intros mu _. replace (opp (ker t mu * g mu)) with (- ker t mu * g mu) by (unfold opp; simpl; ring).
    apply is_derive_unique, inner_g_derive.
Qed.
Lemma outer_zero : outer tau = 0.
Proof.
  unfold outer. rewrite (RInt_ext _ (fun _ => 0)); [apply RInt_zero|].
  intros x _. rewrite inner_zero. apply Rmult_0_l.
Qed.
Lemma outer_bound t : 0 <= t <= tau -> Rabs (outer t) <= (tau - t) * RInt (fun mu => Rabs (g mu)) 0 1.
Proof.
  intros Ht. assert (X : ex_RInt (fun mu => Rabs (g mu)) 0 1).
  { apply (ex_RInt_continuous (V := R_CompleteNormedModule)). intros z _. apply (continuous_comp g Rabs); [apply Hg|apply continuous_Rabs]. }
  apply (norm_RInt_le (V := R_NormedModule) (fun mu => inner t mu * g mu) (fun mu => scal (tau - t) (Rabs (g mu))) 0 1); [lra| |apply (RInt_correct (V := R_CompleteNormedModule)), outer_ex; lra|].
  - intros mu _. change (Rabs (inner t mu * g mu) <= (tau - t) * Rabs (g mu)). rewrite Rabs_mult.
    apply Rmult_le_compat_r; [apply Rabs_pos|]. rewrite Rabs_pos_eq by (apply inner_nonneg; lra). apply inner_lip; exact Ht.
  - apply (is_RInt_scal (V := R_NormedModule) (fun mu => Rabs (g mu)) 0 1 (tau - t)), (RInt_correct (V := R_CompleteNormedModule)), X.
Qed.
Lemma outer_continuous : 0 < tau -> continuous_on (in_layer tau) outer.
Proof.
  intros Htau t [H0 [H1| ->]].
  - eapply filterlim_filter_le_1; [apply filter_le_within|].
    apply (ex_derive_continuous outer). eexists. apply outer_derive. exact H1.
  - rewrite outer_zero. set (M := RInt (fun mu => Rabs (g mu)) 0 1).
    assert (HM : 0 <= M).
    { apply RInt_ge_0; [lra| |intros; apply Rabs_pos]. apply (ex_RInt_continuous (V := R_CompleteNormedModule)). intros z _. apply (continuous_comp g Rabs); [apply Hg|apply continuous_Rabs]. }
    apply filterlim_locally. intros eps. assert (P : 0 < eps / (M + 1)) by (apply Rdiv_lt_0_compat; [apply eps|lra]).
    exists (mkposreal _ P). intros y Hy Hl. unfold ball in *; simpl in *; unfold AbsRing_ball, abs, minus, plus, opp in *; simpl in *.
    rewrite Ropp_0, Rplus_0_r. eapply Rle_lt_trans; [apply outer_bound; exact Hl|]. fold M.
    assert (Q : tau - y < eps / (M + 1)). { destruct Hl. unfold Rabs in Hy; destruct (Rcase_abs _) in Hy; lra. }
    assert (A : (tau - y) * (M + 1) < eps). { apply Rmult_lt_reg_r with (/ (M + 1)); [apply Rinv_0_lt_compat; lra|]. replace ((tau - y) * (M + 1) * / (M + 1)) with (tau - y) by (field; lra). exact Q. }
    destruct Hl. nra.
Qed.
End Kernel.
