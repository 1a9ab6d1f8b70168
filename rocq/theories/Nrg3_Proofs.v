(** Existence of the integrals of the energy balance; expansions are finite sums of products *)
From Coq Require Import Reals List Lra Psatz.
From Coquelicot Require Import Coquelicot.
From Verif Require Import Sca_Model Int_Model Int_Spec RTE_Proofs RTE2_Proofs Nrg_Spec Nrg_Proofs Nrg2_Proofs.
Import ListNotations.
Local Open Scope R_scope.

Lemma exp_lip a b s : 0 <= a -> 0 <= b -> 0 <= s -> Rabs (exp (- (s * a)) - exp (- (s * b))) <= s * Rabs (a - b).
Proof.
  assert (W : forall a b s, 0 <= a <= b -> 0 <= s -> 0 <= exp (- (s * a)) - exp (- (s * b)) <= s * (b - a)).
  { clear. intros a b s H Hs. assert (L : exp (- (s * b)) <= exp (- (s * a))) by (apply exp_le; nra).
    split; [lra|]. assert (E1 : exp (- (s * a)) <= 1) by (rewrite <- exp_0; apply exp_le; nra).
    assert (X : exp (- (s * b)) = exp (- (s * a)) * exp (- (s * (b - a)))) by (rewrite <- exp_plus; f_equal; ring).
    assert (Y : 1 - s * (b - a) <= exp (- (s * (b - a)))).
    { destruct (Req_dec (s * (b - a)) 0) as [Z|Z]; [rewrite Z, Ropp_0, exp_0; lra|].
      pose proof (exp_ineq1 (- (s * (b - a)))). assert (- (s * (b - a)) <> 0) by lra. specialize (H0 H1). lra. }
    rewrite X. pose proof (exp_pos (- (s * a))). assert (0 <= s * (b - a)) by nra. nra. }
  intros Ha Hb Hs. destruct (Rle_dec a b) as [H|H].
  - destruct (W a b s) as [A B]; [lra|lra|]. rewrite Rabs_pos_eq by exact A. rewrite (Rabs_left1 (a - b)) by lra. lra.
  - destruct (W b a s) as [A B]; [lra|lra|]. rewrite (Rabs_left1 (exp _ - _)) by lra. rewrite (Rabs_pos_eq (a - b)) by lra. lra.
Qed.
Lemma inner_lip_mx tau x y mu : 0 <= tau -> 0 < x -> 0 < y -> Rabs (inner tau y 0 mu - inner tau x 0 mu) <= tau * (tau * Rabs (/ y - / x)).
Proof.
  intros Ht Hx Hy.
  assert (D : is_RInt (fun s => ker tau y s mu - ker tau x s mu) 0 tau (inner tau y 0 mu - inner tau x 0 mu)).
  { apply (is_RInt_minus (fun s => ker tau y s mu) (fun s => ker tau x s mu)); apply (RInt_correct (V := R_CompleteNormedModule)), inner_ex. }
  assert (Z := norm_RInt_le_const (fun s => ker tau y s mu - ker tau x s mu) 0 tau (inner tau y 0 mu - inner tau x 0 mu) (tau * Rabs (/ y - / x)) Ht).
  rewrite Rminus_0_r in Z. apply Z; [|exact D]. intros s Hs. change (Rabs (ker tau y s mu - ker tau x s mu) <= tau * Rabs (/ y - / x)). unfold ker.
  destruct (att_bounds (tau - s) mu) as [A B]; [lra|]. rewrite <- Rmult_minus_distr_r, Rabs_mult, (Rabs_pos_eq (att _ _)) by exact A.
  assert (E := exp_lip (/ y) (/ x) s). replace (- s / y) with (- (s * / y)) by (unfold Rdiv; ring). replace (- s / x) with (- (s * / x)) by (unfold Rdiv; ring).
  assert (0 < / y) by (apply Rinv_0_lt_compat; exact Hy). assert (0 < / x) by (apply Rinv_0_lt_compat; exact Hx).
  specialize (E ltac:(lra) ltac:(lra) ltac:(lra)). pose proof (Rabs_pos (/ y - / x)). pose proof (Rabs_pos (exp (- (s * / y)) - exp (- (s * / x)))).
  apply Rle_trans with (Rabs (exp (- (s * / y)) - exp (- (s * / x))) * 1); [apply Rmult_le_compat_l; assumption|]. nra.
Qed.
Lemma abs_cd q : continuous_dir q -> continuous_dir (fun t p => Rabs (q t p)).
Proof. intros C m ph. apply (continuity_1d_2d_pt_comp Rabs (dir q)); [apply continuity_pt_filterlim, continuous_Rabs|apply C]. Qed.
Lemma H_abs g q k : continuous_dir g -> continuous_dir q -> (forall th ph, 0 < cos th < 1 -> Rabs (g th ph) <= k * Rabs (q th ph)) -> Rabs (H g) <= k * H (fun t p => Rabs (q t p)).
Proof.
  intros Cg Cq L. rewrite <- H_scal by (apply abs_cd; exact Cq). assert (C : continuous_dir (fun th ph => k * Rabs (q th ph))).
  { apply (cd_mult (fun _ _ => k)); [apply cd_const|apply abs_cd; exact Cq]. }
  apply Rabs_le. split.
  - assert (X : H (fun th ph => -1 * g th ph) <= H (fun th ph => k * Rabs (q th ph))).
    { apply H_le; [apply (cd_mult (fun _ _ => -1)); [apply cd_const|exact Cg]|exact C|]. intros th ph Hc. specialize (L th ph Hc). apply Rabs_le_between in L. lra. }
    rewrite H_scal in X by exact Cg. lra.
  - apply H_le; [exact Cg|exact C|]. intros th ph Hc. specialize (L th ph Hc). apply Rabs_le_between in L. lra.
Qed.

Section Exist.
Variables (tau : R) (Ht : 0 < tau).
(** integral with the kernel for exit cosine [m], continued by 0 *)
Definition Z (q : R -> R -> R) (m : R) : R := if Rle_dec m 0 then 0 else H (fun ts ps => inner tau m 0 (cos ts) * q ts ps).
Lemma Z_pos q m : 0 < m -> Z q m = H (fun ts ps => inner tau m 0 (cos ts) * q ts ps).
Proof. intros. unfold Z. destruct (Rle_dec m 0); [lra|reflexivity]. Qed.
Lemma iq_cd q m : 0 < m -> continuous_dir q -> continuous_dir (fun ts ps => inner tau m 0 (cos ts) * q ts ps).
Proof. intros Hm C. apply (cd_mult (fun ts _ => inner tau m 0 (cos ts))); [apply inner_cd; lra|exact C]. Qed.
Lemma Z_small q m : continuous_dir q -> 0 < m -> Rabs (Z q m) <= m * H (fun t p => Rabs (q t p)).
Proof.
  intros C Hm. rewrite Z_pos by exact Hm. apply H_abs; [apply iq_cd; assumption|exact C|]. intros th ph _. rewrite Rabs_mult.
  apply Rmult_le_compat_r; [apply Rabs_pos|]. destruct (inner_beam tau m (cos th)) as [A B]; [lra|exact Hm|]. rewrite Rabs_pos_eq by exact A.
  eapply Rle_trans; [exact B|]. pose proof (exp_pos (- (tau / m))). nra.
Qed.
Lemma Z_lip q x y : continuous_dir q -> 0 < x -> 0 < y -> Rabs (Z q y - Z q x) <= tau * (tau * Rabs (/ y - / x)) * H (fun t p => Rabs (q t p)).
Proof.
  intros C Hx Hy. rewrite !Z_pos by assumption.
  replace (H (fun ts ps => inner tau y 0 (cos ts) * q ts ps) - H (fun ts ps => inner tau x 0 (cos ts) * q ts ps))
    with (1 * H (fun ts ps => inner tau y 0 (cos ts) * q ts ps) + -1 * H (fun ts ps => inner tau x 0 (cos ts) * q ts ps)) by ring.
  rewrite <- H_lin by (apply iq_cd; assumption). apply H_abs; [|exact C|].
  - apply cd_plus; [apply (cd_mult (fun _ _ => 1)); [apply cd_const|]|apply (cd_mult (fun _ _ => -1)); [apply cd_const|]]; apply iq_cd; assumption.
  - intros th ph _. replace (1 * (inner tau y 0 (cos th) * q th ph) + -1 * (inner tau x 0 (cos th) * q th ph)) with ((inner tau y 0 (cos th) - inner tau x 0 (cos th)) * q th ph) by ring.
    rewrite Rabs_mult. apply Rmult_le_compat_r; [apply Rabs_pos|]. apply inner_lip_mx; lra.
Qed.
Lemma Z_cont q x : continuous_dir q -> 0 <= x -> continuous (Z q) x.
Proof.
  intros C Hx. set (M := H (fun t p => Rabs (q t p))). assert (HM : 0 <= M) by (apply H_pos; [apply abs_cd; exact C|intros; apply Rabs_pos]).
  destruct Hx as [Hx| <-].
  - apply filterlim_locally. intros eps.
    assert (Ci : continuous (fun y => / y) x) by (apply continuous_Rinv; lra).
    assert (Pe : 0 < eps / (tau * tau * M + 1)) by (apply Rdiv_lt_0_compat; [apply eps|]; assert (0 <= tau * tau * M) by (repeat apply Rmult_le_pos; lra); lra).
    assert (F := proj1 (filterlim_locally _ _) Ci (mkposreal _ Pe)).
    assert (Px : locally x (fun y => 0 < y)).
    { exists (mkposreal x Hx). intros y Hy. unfold ball in Hy; simpl in Hy; unfold AbsRing_ball, abs, minus, plus, opp in Hy; simpl in Hy. unfold Rabs in Hy; destruct (Rcase_abs _) in Hy; lra. }
    generalize (filter_and _ _ F Px). apply filter_imp. intros y [Hy Hp].
    unfold ball in *; simpl in *; unfold AbsRing_ball, abs, minus, plus, opp in *; simpl in *.
    eapply Rle_lt_trans; [apply (Z_lip q x y C Hx Hp)|]. fold M.
    set (D := Rabs (/ y + - / x)) in *. change (Rabs (/ y - / x)) with D. pose proof (Rabs_pos (/ y + - / x)) as D0. fold D in D0.
    assert (K : 0 <= tau * tau * M) by (repeat apply Rmult_le_pos; lra).
    assert (X : D * (tau * tau * M + 1) < eps).
    { apply Rmult_lt_reg_r with (/ (tau * tau * M + 1)); [apply Rinv_0_lt_compat; lra|]. replace (D * (tau * tau * M + 1) * / (tau * tau * M + 1)) with D by (field; lra). exact Hy. }
    replace (tau * (tau * D) * M) with (D * (tau * tau * M)) by ring. lra.
  - assert (Z0 : Z q 0 = 0) by (unfold Z; destruct (Rle_dec 0 0); [reflexivity|lra]). unfold continuous. rewrite Z0. apply filterlim_locally. intros eps.
    assert (Pe : 0 < eps / (M + 1)) by (apply Rdiv_lt_0_compat; [apply eps|lra]). exists (mkposreal _ Pe). intros y Hy.
    unfold ball in *; simpl in *; unfold AbsRing_ball, abs, minus, plus, opp in *; simpl in *. rewrite Ropp_0, Rplus_0_r in *.
    destruct (Rle_dec y 0) as [Hn|Hn].
    + unfold Z. destruct (Rle_dec y 0); [|lra]. rewrite Rabs_R0. apply eps.
    + rewrite Rabs_pos_eq in Hy by lra. eapply Rle_lt_trans; [apply Z_small; [exact C|lra]|]. fold M.
      assert (X : y * (M + 1) < eps). { apply Rmult_lt_reg_r with (/ (M + 1)); [apply Rinv_0_lt_compat; lra|]. replace (y * (M + 1) * / (M + 1)) with y by (field; lra). exact Hy. }
      lra.
Qed.
(** the second term of the interaction contribution *)
Definition second (l : list ((R -> R -> R) * (R -> R -> R))) (f0 : R -> R -> R) (x y : R) : R :=
  fold_right (fun ab s => fst ab x y * Z (fun ts ps => snd ab ts ps * f0 ts ps) (cos x) + s) 0 l.
Lemma second_cd l f0 : good l -> continuous_dir f0 -> continuous_dir (second l f0).
Proof.
  intros G C. induction G as [|[a b] l [A B] _ IH]; [exact (cd_const 0)|]. simpl in *.
  apply (cd_plus (fun x y => a x y * Z (fun ts ps => b ts ps * f0 ts ps) (cos x))); [|exact IH].
  apply (cd_mult a); [exact A|]. apply (cd_cos (Z (fun ts ps => b ts ps * f0 ts ps))). intros m Hm. apply Z_cont; [apply cd_mult; assumption|lra].
Qed.
Lemma second_val l f0 x y : good l -> continuous_dir f0 -> 0 < cos x ->
  second l f0 x y = H (fun ts ps => inner tau (cos x) 0 (cos ts) * (sum_of_products l x y ts ps * f0 ts ps)).
Proof.
  intros G C Hx. induction G as [|[a b] l [A B] G IH].
  - simpl. symmetry. etransitivity; [|apply H_zero]. apply H_ext. intros. simpl. ring.
  - simpl in A, B. cbn [second fold_right fst snd]. change (fold_right _ 0 l) with (second l f0 x y). rewrite IH, Z_pos by exact Hx.
    rewrite <- H_scal by (apply iq_cd; [exact Hx|apply cd_mult; assumption]). rewrite <- H_plus.
    + apply H_ext. intros. cbn [sum_of_products fold_right fst snd]. change (fold_right _ 0 l) with (sum_of_products l x y th ph). ring.
    + apply (cd_mult (fun _ _ => a x y)); [apply cd_const|]. apply iq_cd; [exact Hx|apply cd_mult; assumption].
    + apply iq_cd; [exact Hx|]. apply cd_mult; [apply sum_cd_r; exact G|exact C].
Qed.
End Exist.

(** ** expansions *)
Lemma sum_app l1 l2 t p t' p' : sum_of_products (l1 ++ l2) t p t' p' = sum_of_products l1 t p t' p' + sum_of_products l2 t p t' p'.
Proof. induction l1 as [|[a b] l1 IH]; simpl; [ring|]. unfold sum_of_products in *. cbn [fold_right app fst snd]. rewrite IH. ring. Qed.
Lemma sep_const c : separable (fun _ _ _ _ => c).
Proof.
  exists [((fun _ _ => c), (fun _ _ => 1))]. split; [|intros; unfold sum_of_products; simpl; ring].
  constructor; [|constructor]. split; apply cd_const.
Qed.
Lemma sep_one a b : continuous_dir a -> continuous_dir b -> separable (fun t p t' p' => a t p * b t' p').
Proof. intros A B. exists [(a, b)]. split; [|intros; unfold sum_of_products; simpl; ring]. constructor; [|constructor]. split; assumption. Qed.
Lemma sep_plus f g : separable f -> separable g -> separable (fun t p t' p' => f t p t' p' + g t p t' p').
Proof.
  intros (l1 & G1 & E1) (l2 & G2 & E2). exists (l1 ++ l2). split; [apply Forall_app; split; assumption|]. intros. rewrite E1, E2, sum_app. reflexivity.
Qed.
Lemma sep_times (a b : R -> R -> R) g : continuous_dir a -> continuous_dir b -> separable g -> separable (fun t p t' p' => a t p * b t' p' * g t p t' p').
Proof.
  intros A B (l & G & E). exists (map (fun ab => ((fun t p => a t p * fst ab t p), (fun t p => b t p * snd ab t p))) l). split.
  - clear E. induction G as [|[c d] l [C D] _ IH]; [constructor|]. constructor; [|exact IH]. simpl in *. split; apply cd_mult; assumption.
  - intros. rewrite E. clear. induction l as [|[a1' b1'] l IH]; [unfold sum_of_products; simpl; ring|]. unfold sum_of_products in *. simpl. rewrite <- IH. ring.
Qed.
Lemma sep_ext f g : (forall t p t' p', f t p t' p' = g t p t' p') -> separable f -> separable g.
Proof. intros X (l & G & E). exists l. split; [exact G|]. intros. rewrite <- X. apply E. Qed.
Lemma sep_mult f g : separable f -> separable g -> separable (fun t p t' p' => f t p t' p' * g t p t' p').
Proof.
  intros (l & G & E) Sg. apply (sep_ext (fun t p t' p' => sum_of_products l t p t' p' * g t p t' p')); [intros; rewrite E; reflexivity|]. clear E.
  induction G as [|[a b] l [A B] _ IH].
  - apply (sep_ext (fun _ _ _ _ => 0)); [intros; simpl; ring|apply sep_const].
  - apply (sep_ext (fun t p t' p' => a t p * b t' p' * g t p t' p' + sum_of_products l t p t' p' * g t p t' p')).
    + intros. unfold sum_of_products. simpl. ring.
    + apply sep_plus; [apply sep_times; assumption|exact IH].
Qed.
Lemma sep_scal c f : separable f -> separable (fun t p t' p' => c * f t p t' p').
Proof. intros S. apply (sep_mult (fun _ _ _ _ => c)); [apply sep_const|exact S]. Qed.

Lemma cos_az : continuous_dir (fun _ ph => cos ph).
Proof. apply cd_az. intros x. apply continuous_cos. Qed.
Lemma sin_az : continuous_dir (fun _ ph => sin ph).
Proof. apply cd_az. intros x. apply continuous_sin. Qed.
Lemma sep_scat a : separable (fun t p t' p' => scat_angle t t' p p' a).
Proof.
  apply (sep_ext (fun t p t' p' => a0 a * (cos t * cos t') + (a1 a * ((sin t * cos p) * (sin t' * cos p')) + a2 a * ((sin t * sin p) * (sin t' * sin p'))))).
  - intros. unfold scat_angle. ring.
  - apply sep_plus; [|apply sep_plus]; apply sep_scal.
    + apply (sep_one (fun t _ => cos t) (fun t _ => cos t)); apply cos_cd.
    + apply (sep_one (fun t p => sin t * cos p) (fun t p => sin t * cos p)); apply cd_mult; try apply cd_sin; apply cos_az.
    + apply (sep_one (fun t p => sin t * sin p) (fun t p => sin t * sin p)); apply cd_mult; try apply cd_sin; apply sin_az.
Qed.
Lemma sep_leg2 n X : separable X -> separable (fun t p t' p' => fst (leg2 n (X t p t' p'))) /\ separable (fun t p t' p' => snd (leg2 n (X t p t' p'))).
Proof.
  intros S. induction n as [|n [A B]]; [split; [exact (sep_const 1)|exact S]|]. split.
  - eapply sep_ext; [|exact B]. intros. cbn [leg2]. destruct (leg2 n _). reflexivity.
  - apply (sep_ext (fun t p t' p' => (2 * INR (Datatypes.S n) + 1) / INR (Datatypes.S (Datatypes.S n)) * (X t p t' p' * snd (leg2 n (X t p t' p')))
                        + - (INR (Datatypes.S n) / INR (Datatypes.S (Datatypes.S n))) * fst (leg2 n (X t p t' p')))).
    + intros. cbn [leg2]. destruct (leg2 n _) as [u v]. cbn [fst snd]. field. apply not_0_INR. discriminate.
    + apply sep_plus; apply sep_scal; [apply sep_mult; assumption|exact A].
Qed.
Lemma sep_sum {A} (F : A -> R -> R -> R -> R -> R) l : (forall x, In x l -> separable (F x)) ->
  separable (fun t p t' p' => fold_right Rplus 0 (map (fun x => F x t p t' p') l)).
Proof.
  induction l as [|x l IH]; intros Hl; [apply (sep_const 0)|]. simpl.
  apply (sep_plus (F x)); [apply Hl; left; reflexivity|apply IH; intros; apply Hl; right; assumption].
Qed.
Lemma sep_leg_sum c n X : separable X -> separable (fun t p t' p' => leg_sum c n (X t p t' p')).
Proof. intros S. unfold leg_sum. apply (sep_sum (fun k t p t' p' => c k * leg k (X t p t' p'))). intros k _. apply sep_scal. apply (sep_leg2 k X S). Qed.
Lemma sep_S S : separable (S_value S).
Proof. unfold S_value. apply (sep_sum (fun e t p t' p' => legexpansion_S (e_coefs e) (e_np e) (e_a e) t p t' p')). intros e _. unfold legexpansion_S. apply sep_leg_sum, sep_scat. Qed.
Lemma sep_V V : separable (V_value V).
Proof.
  unfold V_value. apply (sep_sum (fun e t p t' p' => legexpansion_V (e_coefs e) (e_np e) (e_a e) t p t' p')). intros e _. unfold legexpansion_V. apply sep_leg_sum.
  apply (sep_ext (fun t p t' p' => scat_angle t t' p p' (A3 (- a0 (e_a e)) (a1 (e_a e)) (a2 (e_a e))))); [|apply sep_scat].
  intros. unfold scat_angle. rewrite Rtrigo_facts.cos_pi_minus, Rtrigo_facts.sin_pi_minus. cbn [a0 a1 a2]. ring.
Qed.
