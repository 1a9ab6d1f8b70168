(** Proofs about the truncation error of the interaction term. *)
From Coq Require Import Reals List Lra Lia.
From Coquelicot Require Import Coquelicot.
From Verif Require Import Base Sca_Model Sca_Spec Leg_Proofs Sca_Proofs Sca3_Proofs Int_Model Int_Spec Int2_Proofs Cvg_Spec.
Import ListNotations.
Local Open Scope R_scope.

(** ** the kernel is bounded by mu_s / tau *)
Lemma exp_ge_sq u : 0 <= u -> u ^ 2 <= exp u.
Proof.
  intros Hu. assert (A : u <= exp (u / 2)).
  { replace (u / 2) with (u / 4 + u / 4) by field. rewrite exp_plus. pose proof (exp_ineq1_le (u / 4)) as E.
    assert (0 <= (1 - u / 4) ^ 2) by apply pow2_ge_0. nra. }
  replace u with (u / 2 + u / 2) at 2 by field. rewrite exp_plus. simpl. nra.
Qed.

Lemma slope_le tau x : 0 < tau -> 0 < x -> 0 <= tau / x ^ 2 * exp (- tau / x) <= / tau.
Proof.
  intros Ht Hx. assert (U : 0 < tau / x) by (apply Rdiv_lt_0_compat; lra).
  pose proof (exp_ge_sq (tau / x) (Rlt_le _ _ U)) as E. pose proof (exp_pos (tau / x)) as P.
  replace (- tau / x) with (- (tau / x)) by (field; lra). rewrite exp_Ropp.
  replace (tau / x ^ 2) with (/ tau * (tau / x) ^ 2) by (field; lra).
  assert (I : 0 < / tau) by (apply Rinv_0_lt_compat; lra). assert (J : 0 < / exp (tau / x)) by (apply Rinv_0_lt_compat; lra).
  assert (K : 0 <= (tau / x) ^ 2) by apply pow2_ge_0.
  split.
  - apply Rmult_le_pos; [apply Rmult_le_pos; [lra|exact K]|lra].
  - rewrite Rmult_assoc. rewrite <- (Rmult_1_r (/ tau)) at 2. apply Rmult_le_compat_l; [lra|].
    apply (Rmult_le_reg_r (exp (tau / x))); [lra|]. rewrite Rmult_assoc, Rinv_l by lra. lra.
Qed.

Lemma kernel_le_lt tau a b : 0 < tau -> 0 < a -> a < b ->
  0 <= exp (- tau / b) - exp (- tau / a) <= / tau * (b - a).
Proof.
  intros Ht Ha Hb.
  destruct (MVT_cor2 (fun x => exp (- tau / x)) (fun x => tau / x ^ 2 * exp (- tau / x)) a b Hb) as [c [E Hc]].
  { intros c Hc. apply is_derive_Reals. auto_derive; [lra|].
    unfold Rdiv. generalize (exp (- tau * / c)). intros w. field. lra. }
  rewrite E. pose proof (slope_le tau c Ht ltac:(lra)) as [L U]. split.
  - apply Rmult_le_pos; lra.
  - apply Rmult_le_compat_r; lra.
Qed.

Lemma kernel_bound tau mu m : 0 < tau -> 0 < mu -> 0 <= m ->
  Rabs (m / (mu - m) * (exp (- tau / mu) - exp (- tau / m))) <= / tau * m.
Proof.
  intros Ht Hmu [Hm|Hm].
  - assert (I : 0 < / tau) by (apply Rinv_0_lt_compat; lra).
    destruct (Rtotal_order m mu) as [L|[E|G]].
    + destruct (kernel_le_lt tau m mu Ht Hm L) as [A B]. rewrite Rabs_right.
      2:{ apply Rle_ge, Rmult_le_pos; [|exact A]. apply Rlt_le, Rdiv_lt_0_compat; lra. }
      apply Rle_trans with (m / (mu - m) * (/ tau * (mu - m))).
      * apply Rmult_le_compat_l; [|exact B]. apply Rlt_le, Rdiv_lt_0_compat; lra.
      * right. field. lra.
    + subst m. rewrite Rminus_eq_0. rewrite Rminus_eq_0. rewrite Rmult_0_r, Rabs_R0. apply Rmult_le_pos; lra.
    + destruct (kernel_le_lt tau mu m Ht Hmu G) as [A B].
      replace (m / (mu - m) * (exp (- tau / mu) - exp (- tau / m))) with (m / (m - mu) * (exp (- tau / m) - exp (- tau / mu))) by (field; lra).
      rewrite Rabs_right.
      2:{ apply Rle_ge, Rmult_le_pos; [|exact A]. apply Rlt_le, Rdiv_lt_0_compat; lra. }
      apply Rle_trans with (m / (m - mu) * (/ tau * (m - mu))).
      * apply Rmult_le_compat_l; [|exact B]. apply Rlt_le, Rdiv_lt_0_compat; lra.
      * right. field. lra.
  - subst m. unfold Rdiv. rewrite !Rmult_0_l, Rabs_R0. lra.
Qed.

(** ** errors of the integrals *)
Lemma half_int c : is_RInt (fun x => c * x) 0 1 (c / 2).
Proof.
  replace (c / 2) with (c * 1 ^ 2 / 2 - c * 0 ^ 2 / 2) by field.
  apply (is_RInt_FTC (fun x => c * x) (fun x => c * x ^ 2 / 2)); [lra| |].
  - intros x _. auto_derive; [exact I|field].
  - intros x _. apply contM; [apply contC|apply contI].
Qed.

Lemma F_int_close tau mu g h F H e : 0 < tau -> 0 < mu -> (forall m, 0 <= m <= 1 -> Rabs (g m - h m) <= e) ->
  is_F_int tau mu g F -> is_F_int tau mu h H -> Rabs (F - H) <= e / (2 * tau).
Proof.
  intros Ht Hmu He HF HH. unfold is_F_int in *.
  pose proof (is_RInt_minus _ _ _ _ _ _ HF HH) as D.
  replace (e / (2 * tau)) with ((/ tau * e) / 2) by (field; lra).
  refine (norm_RInt_le _ (fun x => (/ tau * e) * x) 0 1 _ _ ltac:(lra) _ D (half_int (/ tau * e))).
  intros x Hx. cbv beta.
  match goal with |- norm ?q <= _ => replace q with (x / (mu - x) * (exp (- tau / mu) - exp (- tau / x)) * (g x - h x)) end.
  2:{ unfold minus, plus, opp; simpl. ring. }
  unfold norm; simpl. unfold abs; simpl. rewrite Rabs_mult.
  replace (/ tau * e * x) with (/ tau * x * e) by ring.
  apply Rmult_le_compat; try apply Rabs_pos; [apply kernel_bound; lra|apply He; exact Hx].
Qed.

Lemma product_close (a b a' b' eV eS BV BS : R) :
  Rabs (a - a') <= eV -> Rabs (b - b') <= eS -> Rabs a' <= BV -> Rabs b' <= BS ->
  Rabs (a * b - a' * b') <= eV * (BS + eS) + BV * eS.
Proof.
  intros H1 H2 H3 H4. replace (a * b - a' * b') with ((a - a') * (b' + (b - b')) + a' * (b - b')) by ring.
  eapply Rle_trans; [apply Rabs_triang|]. rewrite !Rabs_mult.
  assert (Rabs (b' + (b - b')) <= BS + eS) by (eapply Rle_trans; [apply Rabs_triang|lra]).
  apply Rplus_le_compat; apply Rmult_le_compat; try apply Rabs_pos; assumption.
Qed.

Lemma azimuth_close (p q f g : R -> R -> R) e ts :
  ex_RInt (fun ps => p ts ps * f ts ps) 0 (2 * PI) -> ex_RInt (fun ps => q ts ps * g ts ps) 0 (2 * PI) ->
  (forall ps, Rabs (p ts ps * f ts ps - q ts ps * g ts ps) <= e) ->
  Rabs (azimuth_product p f ts - azimuth_product q g ts) <= 2 * PI * e.
Proof.
  intros [l1 H1] [l2 H2] He. unfold azimuth_product.
  rewrite (is_RInt_unique _ _ _ _ H1), (is_RInt_unique _ _ _ _ H2).
  pose proof (is_RInt_minus _ _ _ _ _ _ H1 H2) as D. pose proof PI_pos.
  replace (2 * PI * e) with ((2 * PI - 0) * e) by ring.
  refine (norm_RInt_le _ (fun _ => e) 0 (2 * PI) _ _ ltac:(lra) _ D (is_RInt_constR 0 (2 * PI) e)).
  intros x _. exact (He x).
Qed.

(** ** limits of the integrals *)
Lemma F_int_limit tau mu (g : nat -> R -> R) h (F : nat -> R) (e : nat -> R) : 0 < tau -> 0 < mu ->
  (forall n, is_F_int tau mu (g n) (F n)) ->
  (forall n m, 0 <= m <= 1 -> Rabs (g n m - h m) <= e n) -> is_lim_seq e 0 ->
  exists H, is_F_int tau mu h H /\ is_lim_seq F H.
Proof.
  intros Ht Hmu HF He Hl.
  set (K := fun x => x / (mu - x) * (exp (- tau / mu) - exp (- tau / x))).
  set (clip := fun (q : R -> R) x => if Rle_dec 0 x then if Rle_dec x 1 then K x * q x else 0 else 0).
  destruct (filterlim_RInt (fun n => clip (g n)) 0 1 eventually _ (clip h) F) as [H [L1 L2]].
  - intros n. eapply is_RInt_extR; [lra| |apply (HF n)]. intros x Hx. unfold clip, K.
    destruct (Rle_dec 0 x); [|lra]. destruct (Rle_dec x 1); [|lra]. reflexivity.
  - apply filterlim_locally. intros eps. apply is_lim_seq_spec in Hl.
    assert (Q : 0 < eps * tau) by (apply Rmult_lt_0_compat; [apply cond_pos|exact Ht]).
    destruct (Hl (mkposreal _ Q)) as [N HN]. exists N. intros n Hn x.
    specialize (HN n Hn). simpl in HN. rewrite Rminus_0_r in HN.
    change (Rabs (clip (g n) x - clip h x) < eps) || change (Rabs (minus (clip (g n) x) (clip h x)) < eps) || idtac.
    apply (Rle_lt_trans _ (/ tau * Rabs (e n))).
    2:{ apply (Rmult_lt_reg_l tau); [lra|]. rewrite <- Rmult_assoc, Rinv_r by lra. lra. }
    assert (I : 0 < / tau) by (apply Rinv_0_lt_compat; lra).
    change (Rabs (clip (g n) x - clip h x) <= / tau * Rabs (e n)).
    unfold clip. destruct (Rle_dec 0 x) as [X0|_]; [destruct (Rle_dec x 1) as [X1|_]|].
    + replace (K x * g n x - K x * h x) with (K x * (g n x - h x)) by ring. rewrite Rabs_mult.
      apply Rle_trans with (/ tau * x * e n).
      * apply Rmult_le_compat; try apply Rabs_pos; [apply kernel_bound; lra|apply He; lra].
      * pose proof (He n x ltac:(lra)) as E. pose proof (Rabs_pos (g n x - h x)). rewrite Rabs_right by lra.
        apply Rmult_le_compat_r; [lra|]. rewrite <- (Rmult_1_r (/ tau)) at 2. apply Rmult_le_compat_l; lra.
    + rewrite Rminus_0_r, Rabs_R0. apply Rmult_le_pos; [lra|apply Rabs_pos].
    + rewrite Rminus_0_r, Rabs_R0. apply Rmult_le_pos; [lra|apply Rabs_pos].
  - exists H. split; [|exact L1]. unfold is_F_int. eapply is_RInt_extR; [lra| |exact L2].
    intros x Hx. unfold clip, K. destruct (Rle_dec 0 x); [|lra]. destruct (Rle_dec x 1); [|lra]. reflexivity.
Qed.

(** ** the interaction term *)
Section Interaction.
  Variables (expi : R -> R) (expn : nat -> R -> R).
  Hypotheses (He : is_expi expi) (Hn : is_expn expn).

  Lemma within_nonneg e g h : within e g h -> 0 <= e.
  Proof. intros H. eapply Rle_trans; [apply Rabs_pos|apply (H 0 0 0 0)]. Qed.

  Lemma azimuth_error V S p f eV eS BV BS t1 p1 t2 p2 ts :
    bounded_obj V -> bounded_obj S -> azimuth_integrable p f ->
    within eV (V_value V) p -> within eS (S_value S) f -> bounded_by BV p -> bounded_by BS f ->
    Rabs (azimuth_product (V_value V t1 p1) (fun ts ps => S_value S ts ps t2 p2) ts
          - azimuth_product (p t1 p1) (fun ts ps => f ts ps t2 p2) ts)
    <= 2 * PI * (eV * (BS + eS) + BV * eS).
  Proof.
    intros HV HS Hpf WV WS B1 B2. apply azimuth_close.
    - eexists. apply (product_int V S t1 p1 t2 p2 ts HV HS).
    - apply Hpf.
    - intros ps. apply product_close; [apply WV|apply WS|apply B1|apply B2].
  Qed.

  Lemma interaction_error V S p f eV eS BV BS I0 omega tau NormBRDF bsf t_0 p_0 t_ex p_ex v w :
    bounded_obj V -> bounded_obj S -> azimuth_integrable p f ->
    within eV (V_value V) p -> within eS (S_value S) f -> bounded_by BV p -> bounded_by BS f ->
    0 < tau -> 0 < cos t_0 < 1 -> 0 < cos t_ex < 1 ->
    is_interaction (V_value V) (S_value S) I0 omega tau NormBRDF bsf t_0 p_0 t_ex p_ex v ->
    is_interaction p f I0 omega tau NormBRDF bsf t_0 p_0 t_ex p_ex w ->
    Rabs (v - w) <= strength I0 omega tau NormBRDF bsf t_0 t_ex * (PI / tau) * (eV * (BS + eS) + BV * eS).
  Proof.
    intros HV HS Hpf WV WS B1 B2 Ht H0 H1 [F1 [F2 [A1 [A2 ->]]]] [G1 [G2 [C1 [C2 ->]]]].
    set (E := eV * (BS + eS) + BV * eS).
    assert (D1 : Rabs (F1 - G1) <= 2 * PI * E / (2 * tau)).
    { eapply F_int_close; [exact Ht| |intros m _|exact A1|exact C1]; [lra|]. cbv beta. exact (azimuth_error V S p f eV eS BV BS t_0 p_0 t_ex p_ex (acos m) HV HS Hpf WV WS B1 B2). }
    assert (D2 : Rabs (F2 - G2) <= 2 * PI * E / (2 * tau)).
    { eapply F_int_close; [exact Ht| |intros m _|exact A2|exact C2]; [lra|]. cbv beta. exact (azimuth_error V S p f eV eS BV BS t_ex p_ex t_0 p_0 (acos m) HV HS Hpf WV WS B1 B2). }
    replace (2 * PI * E / (2 * tau)) with (PI / tau * E) in * by (field; lra).
    match goal with |- Rabs (?c * (?x * F1 + ?y * F2) - _) <= _ =>
      replace (c * (x * F1 + y * F2) - c * (x * G1 + y * G2)) with (c * (x * (F1 - G1) + y * (F2 - G2))) by ring end.
    rewrite Rabs_mult. unfold strength. fold E.
    match goal with |- _ <= Rabs ?c * ?q * (PI / tau) * E => replace (Rabs c * q * (PI / tau) * E) with (Rabs c * (q * (PI / tau * E))) by ring end.
    apply Rmult_le_compat_l; [apply Rabs_pos|].
    eapply Rle_trans; [apply Rabs_triang|]. rewrite !Rabs_mult.
    pose proof (exp_pos (- tau / cos t_ex)) as X. pose proof (exp_pos (- tau / cos t_0)) as Y.
    rewrite (Rabs_right (exp (- tau / cos t_ex))), (Rabs_right (exp (- tau / cos t_0))) by lra.
    rewrite Rmult_plus_distr_r.
    apply Rplus_le_compat; apply Rmult_le_compat_l; lra.
  Qed.

  Lemma interaction_exact_limit (V S : nat -> sobj) p f (eV eS : nat -> R) BV BS I0 omega tau NormBRDF bsf t_0 p_0 t_ex p_ex (v : nat -> R) :
    (forall n, bounded_obj (V n)) -> (forall n, bounded_obj (S n)) -> azimuth_integrable p f ->
    (forall n, within (eV n) (V_value (V n)) p) -> (forall n, within (eS n) (S_value (S n)) f) ->
    is_lim_seq eV 0 -> is_lim_seq eS 0 -> bounded_by BV p -> bounded_by BS f ->
    0 < tau -> 0 < cos t_0 < 1 -> 0 < cos t_ex < 1 ->
    (forall n, is_interaction (V_value (V n)) (S_value (S n)) I0 omega tau NormBRDF bsf t_0 p_0 t_ex p_ex (v n)) ->
    exists w, is_interaction p f I0 omega tau NormBRDF bsf t_0 p_0 t_ex p_ex w /\ is_lim_seq v w.
  Proof.
    intros HV HS Hpf WV WS LV LS B1 B2 Ht H0 H1 Hv.
    set (e := fun n => 2 * PI * (eV n * (BS + eS n) + BV * eS n)).
    assert (Le : is_lim_seq e 0).
    { replace (Finite 0) with (Finite (2 * PI * (0 * (BS + 0) + BV * 0))) by (f_equal; ring). unfold e.
      apply (is_lim_seq_scal_l _ (2 * PI) (Finite (0 * (BS + 0) + BV * 0))).
      apply is_lim_seq_plus'; [apply is_lim_seq_mult'; [exact LV|apply is_lim_seq_plus'; [apply is_lim_seq_const|exact LS]]|].
      apply (is_lim_seq_scal_l _ BV (Finite 0)); exact LS. }
    assert (X : exists F G : nat -> R, forall n,
      is_F_int tau (cos t_0) (fun mu => azimuth_product (V_value (V n) t_0 p_0) (fun ts ps => S_value (S n) ts ps t_ex p_ex) (acos mu)) (F n) /\
      is_F_int tau (cos t_ex) (fun mu => azimuth_product (V_value (V n) t_ex p_ex) (fun ts ps => S_value (S n) ts ps t_0 p_0) (acos mu)) (G n) /\
      v n = (1 - bsf) * NormBRDF * I0 * omega * cos t_0 * (exp (- tau / cos t_ex) * F n + exp (- tau / cos t_0) * G n)).
    { exists (fun n => RInt (fun mu_s => mu_s / (cos t_0 - mu_s) * (exp (- tau / cos t_0) - exp (- tau / mu_s)) *
         azimuth_product (V_value (V n) t_0 p_0) (fun ts ps => S_value (S n) ts ps t_ex p_ex) (acos mu_s)) 0 1),
        (fun n => RInt (fun mu_s => mu_s / (cos t_ex - mu_s) * (exp (- tau / cos t_ex) - exp (- tau / mu_s)) *
         azimuth_product (V_value (V n) t_ex p_ex) (fun ts ps => S_value (S n) ts ps t_0 p_0) (acos mu_s)) 0 1).
      intros n. destruct (Hv n) as [F1 [F2 [A1 [A2 A3]]]]. unfold is_F_int in *.
      rewrite (is_RInt_unique _ _ _ _ A1), (is_RInt_unique _ _ _ _ A2). tauto. }
    destruct X as [F [G X]].
    destruct (F_int_limit tau (cos t_0) (fun n mu => azimuth_product (V_value (V n) t_0 p_0) (fun ts ps => S_value (S n) ts ps t_ex p_ex) (acos mu))
                (fun mu => azimuth_product (p t_0 p_0) (fun ts ps => f ts ps t_ex p_ex) (acos mu)) F e) as [F' [P1 Q1]]; [lra|lra|apply X| |exact Le|].
    { intros n m _. exact (azimuth_error (V n) (S n) p f (eV n) (eS n) BV BS t_0 p_0 t_ex p_ex (acos m) (HV n) (HS n) Hpf (WV n) (WS n) B1 B2). }
    destruct (F_int_limit tau (cos t_ex) (fun n mu => azimuth_product (V_value (V n) t_ex p_ex) (fun ts ps => S_value (S n) ts ps t_0 p_0) (acos mu))
                (fun mu => azimuth_product (p t_ex p_ex) (fun ts ps => f ts ps t_0 p_0) (acos mu)) G e) as [G' [P2 Q2]]; [lra|lra|apply X| |exact Le|].
    { intros n m _. exact (azimuth_error (V n) (S n) p f (eV n) (eS n) BV BS t_ex p_ex t_0 p_0 (acos m) (HV n) (HS n) Hpf (WV n) (WS n) B1 B2). }
    eexists. split; [exists F', G'; split; [exact P1|split; [exact P2|reflexivity]]|].
    eapply is_lim_seq_ext; [intros n; symmetry; apply X|].
    apply (is_lim_seq_scal_l _ ((1 - bsf) * NormBRDF * I0 * omega * cos t_0) (Finite (exp (- tau / cos t_ex) * F' + exp (- tau / cos t_0) * G'))).
    apply is_lim_seq_plus'; [apply (is_lim_seq_scal_l _ _ (Finite F')); exact Q1|apply (is_lim_seq_scal_l _ _ (Finite G')); exact Q2].
  Qed.
End Interaction.

(** ** Legendre series *)
Lemma hg_tail_step t N : Rabs t < 1 -> hg_tail t N = (2 * INR N + 1) * Rabs t ^ N + hg_tail t (S N).
Proof. intros H. unfold hg_tail. rewrite S_INR. simpl. field. lra. Qed.

Lemma hg_tail_0 t : hg_tail t 0 = hg_total t.
Proof. unfold hg_tail, hg_total. simpl. f_equal. ring. Qed.

Lemma hg_tail_nonneg t N : Rabs t < 1 -> 0 <= hg_tail t N.
Proof.
  intros H. unfold hg_tail. pose proof (Rabs_pos t) as P. pose proof (pos_INR N) as Q.
  apply Rmult_le_pos; [apply Rmult_le_pos; [apply pow_le; exact P|nra]|].
  apply Rlt_le, Rinv_0_lt_compat, pow_lt. lra.
Qed.

Lemma hg_tail_anti t N : Rabs t < 1 -> hg_tail t (S N) <= hg_tail t N.
Proof.
  intros H. rewrite (hg_tail_step t N H). pose proof (pos_INR N).
  pose proof (pow_le (Rabs t) N (Rabs_pos t)). nra.
Qed.

Lemma weight_series t : Rabs t < 1 -> ex_series (fun n => (2 * INR n + 1) * Rabs t ^ n).
Proof.
  intros H. pose proof (Rabs_pos t).
  eexists. eapply ser_ext; [|apply (hg_series 1 (Rabs t)); lra]. intros n. cbv beta. rewrite leg_at_1. ring.
Qed.

Lemma hg_tail_lim t : Rabs t < 1 -> is_lim_seq (hg_tail t) 0.
Proof.
  intros H. pose proof (ex_series_lim_0 _ (weight_series t H)) as L.
  pose proof (is_lim_seq_geom (Rabs t) ltac:(rewrite Rabs_Rabsolu; exact H)) as G.
  set (D := / (1 - Rabs t) ^ 2).
  apply (is_lim_seq_ext (fun n => (1 - Rabs t) * D * ((2 * INR n + 1) * Rabs t ^ n) + 2 * Rabs t * D * Rabs t ^ n)).
  { intros n. unfold hg_tail, D. field. lra. }
  replace (Finite 0) with (Finite ((1 - Rabs t) * D * 0 + 2 * Rabs t * D * 0)) by (f_equal; ring).
  apply is_lim_seq_plus'; [apply (is_lim_seq_scal_l _ _ (Finite 0)); exact L|apply (is_lim_seq_scal_l _ _ (Finite 0)); exact G].
Qed.

Lemma hg_vanishing A t : 0 <= A -> Rabs t < 1 -> vanishing (fun N => A * hg_tail t N).
Proof.
  intros HA H. split.
  - intros N. apply Rmult_le_compat_l; [exact HA|apply hg_tail_anti, H].
  - replace (Finite 0) with (Rbar_mult A 0) by (simpl; f_equal; ring). apply is_lim_seq_scal_l, hg_tail_lim, H.
Qed.

Lemma vanishing_nonneg tail N : vanishing tail -> 0 <= tail N.
Proof.
  intros [A L]. assert (M : forall k, tail (N + k)%nat <= tail N).
  { induction k; [rewrite Nat.add_0_r; lra|]. rewrite Nat.add_succ_r. eapply Rle_trans; [apply A|exact IHk]. }
  apply (is_lim_seq_incr_n _ N) in L.
  apply (is_lim_seq_le (fun n => tail (n + N)%nat) (fun _ => tail N) 0 (tail N)); [|exact L|apply is_lim_seq_const].
  intros n. rewrite Nat.add_comm. apply M.
Qed.

Lemma leg_tail_bound c A t N k x : Rabs t < 1 -> -1 <= x <= 1 ->
  (forall n, Rabs (c n) <= A * ((2 * INR n + 1) * Rabs t ^ n)) ->
  Rabs (leg_sum c (N + k) x - leg_sum c N x) <= A * (hg_tail t N - hg_tail t (N + k)).
Proof.
  intros Ht Hx Hc. induction k.
  - rewrite Nat.add_0_r, !Rminus_eq_0, Rabs_R0, Rmult_0_r. lra.
  - rewrite Nat.add_succ_r, leg_sum_S.
    replace (leg_sum c (N + k) x + c (N + k)%nat * leg (N + k) x - leg_sum c N x)
      with ((leg_sum c (N + k) x - leg_sum c N x) + c (N + k)%nat * leg (N + k) x) by ring.
    eapply Rle_trans; [apply Rabs_triang|].
    replace (A * (hg_tail t N - hg_tail t (S (N + k)))) with
      (A * (hg_tail t N - hg_tail t (N + k)) + A * ((2 * INR (N + k) + 1) * Rabs t ^ (N + k)))
      by (rewrite (hg_tail_step t (N + k) Ht); ring).
    apply Rplus_le_compat; [exact IHk|]. rewrite Rabs_mult, <- (Rmult_1_r (A * _)).
    apply Rmult_le_compat; try apply Rabs_pos; [apply Hc|apply leg_bound, Hx].
Qed.

Lemma expands_by c (h : R -> R) A t : 0 <= A -> Rabs t < 1 ->
  (forall n, Rabs (c n) <= A * ((2 * INR n + 1) * Rabs t ^ n)) ->
  (forall x, -1 <= x <= 1 -> is_lim_seq (fun N => leg_sum c N x) (h x)) ->
  expands c h (fun N => A * hg_tail t N).
Proof.
  intros HA Ht Hc Hl N x Hx. specialize (Hl x Hx). apply (is_lim_seq_incr_n _ N) in Hl.
  pose proof (is_lim_seq_minus' _ _ _ _ Hl (is_lim_seq_const (leg_sum c N x))) as L. cbv beta in L.
  apply is_lim_seq_abs in L. simpl in L. rewrite Rabs_minus_sym.
  apply (is_lim_seq_le (fun k => Rabs (leg_sum c (k + N) x - leg_sum c N x)) (fun _ => A * hg_tail t N)
           (Rabs (h x - leg_sum c N x)) (A * hg_tail t N)); [|exact L|apply is_lim_seq_const].
  intros k. rewrite Nat.add_comm. eapply Rle_trans; [apply leg_tail_bound with (t := t) (A := A); assumption|].
  pose proof (hg_tail_nonneg t (N + k) Ht). apply Rmult_le_compat_l; lra.
Qed.

Lemma abs_lt_1 t : -1 < t < 1 -> Rabs t < 1.
Proof. intros. apply Rabs_def1; lra. Qed.

Lemma weight_abs A t n : 0 <= A -> Rabs (A * (2 * INR n + 1) * t ^ n) = A * ((2 * INR n + 1) * Rabs t ^ n).
Proof.
  intros HA. pose proof (pos_INR n). rewrite !Rabs_mult, <- RPow_abs, (Rabs_right A), (Rabs_right (2 * INR n + 1)) by lra. ring.
Qed.

Lemma hg_lim A t x (h : R) : -1 < t < 1 -> -1 <= x <= 1 -> h = A * ((1 - t ^ 2) / pow15 (1 + t ^ 2 - 2 * t * x)) ->
  is_lim_seq (fun N => leg_sum (fun n => A * (2 * INR n + 1) * t ^ n) N x) h.
Proof.
  intros Ht Hx ->. apply leg_sum_lim. eapply ser_ext; [|apply ser_scal, hg_series; assumption]. intros n. cbv beta. ring.
Qed.

Lemma leg_sum_ext c d N x : (forall n, c n = d n) -> leg_sum c N x = leg_sum d N x.
Proof. intros H. unfold leg_sum. f_equal. apply map_ext. intros n. rewrite H. reflexivity. Qed.

Lemma expands_hg A t c (h : R -> R) : -1 < t < 1 ->
  (forall n, c n = A * (2 * INR n + 1) * t ^ n) ->
  (forall x, -1 <= x <= 1 -> h x = A * ((1 - t ^ 2) / pow15 (1 + t ^ 2 - 2 * t * x))) ->
  expands c h (fun N => Rabs A * hg_tail t N).
Proof.
  intros Ht Hc Hh. apply expands_by; [apply Rabs_pos|apply abs_lt_1, Ht| |].
  - intros n. rewrite Hc, !Rabs_mult, <- RPow_abs. pose proof (pos_INR n). rewrite (Rabs_right (2 * INR n + 1)) by lra. right; ring.
  - intros x Hx. eapply is_lim_seq_ext; [|apply (hg_lim A t x (h x) Ht Hx (Hh x Hx))].
    intros N. cbv beta. apply leg_sum_ext. intros n. rewrite Hc. reflexivity.
Qed.

Lemma expands_hgV t : -1 < t < 1 -> expands (hgV_coefs t) (hgV_func t) (fun N => / (4 * PI) * hg_tail t N).
Proof.
  intros Ht. pose proof PI_pos. assert (0 < / (4 * PI)) by (apply Rinv_0_lt_compat; lra).
  rewrite <- (Rabs_right (/ (4 * PI))) by lra. apply expands_hg; [exact Ht| |].
  - intros n. unfold hgV_coefs. field. lra.
  - intros x Hx. unfold hgV_func. pose proof (pow15_pos _ (dpos x t Hx Ht)). field. lra.
Qed.

Lemma expands_hgS t : -1 < t < 1 -> expands (hgS_coefs t) (hgS_func t) (fun N => / PI * hg_tail t N).
Proof.
  intros Ht. pose proof PI_pos. assert (0 < / PI) by (apply Rinv_0_lt_compat; lra).
  rewrite <- (Rabs_right (/ PI)) by lra. apply expands_hg; [exact Ht| |].
  - intros n. unfold hgS_coefs. field. lra.
  - intros x Hx. unfold hgS_func. pose proof (pow15_pos _ (dpos x t Hx Ht)). field. lra.
Qed.

Lemma expands_nadir t a : -1 < t < 1 ->
  expands (hgnadir_coefs t a) (hgnadir_func t a) (fun N => Rabs (/ (nadir_hemreflect t a * PI)) * hg_tail t N).
Proof.
  intros Ht. pose proof PI_pos. apply expands_hg; [exact Ht| |].
  - intros n. unfold hgnadir_coefs. unfold Rdiv. rewrite Rinv_mult. ring.
  - intros x Hx. unfold hgnadir_func. unfold Rdiv. rewrite !Rinv_mult. ring.
Qed.

(** ** exact functions of the scattering angle *)
Lemma total_bound A t (h : R -> R) : 0 <= A -> expands (fun n => A * (2 * INR n + 1) * t ^ n) h (fun N => A * hg_tail t N) ->
  forall x, -1 <= x <= 1 -> Rabs (h x) <= A * hg_total t.
Proof.
  intros HA H x Hx. specialize (H 0%nat x Hx). cbv beta in H. rewrite hg_tail_0 in H. unfold leg_sum in H; simpl in H.
  rewrite Rminus_0_l, Rabs_Ropp in H. exact H.
Qed.

Lemma expands_total c h tail x : expands c h tail -> -1 <= x <= 1 -> Rabs (h x) <= tail 0%nat.
Proof.
  intros H Hx. specialize (H 0%nat x Hx). unfold leg_sum in H; simpl in H. rewrite Rminus_0_l, Rabs_Ropp in H. exact H.
Qed.

Lemma phase_within N c h tail a : unit_weights a -> expands c h tail ->
  within (tail N) (V_value (plain_obj N c a)) (phase h a).
Proof.
  intros Ha H t0 p0 ts ps. unfold V_value, phase; simpl. rewrite Rplus_0_r. unfold legexpansion_V. rewrite scat_refl_s.
  apply H. apply scat_bound, Ha.
Qed.
Lemma brdf_within N c h tail a : unit_weights a -> expands c h tail ->
  within (tail N) (S_value (plain_obj N c a)) (brdf h a).
Proof.
  intros Ha H t0 p0 ts ps. unfold S_value, brdf; simpl. rewrite Rplus_0_r. unfold legexpansion_S.
  apply H. apply scat_bound, Ha.
Qed.
Lemma phase_bounded h b a : unit_weights a -> (forall x, -1 <= x <= 1 -> Rabs (h x) <= b) -> bounded_by b (phase h a).
Proof. intros Ha H t0 p0 ts ps. apply H, scat_bound, Ha. Qed.
Lemma brdf_bounded h b a : unit_weights a -> (forall x, -1 <= x <= 1 -> Rabs (h x) <= b) -> bounded_by b (brdf h a).
Proof. intros Ha H t0 p0 ts ps. apply H, scat_bound, Ha. Qed.

Lemma phase_cont h a t0 p0 ts x : unit_weights a -> continuous_inside h ->
  continuous (fun ps => phase h a t0 p0 ts ps) x.
Proof.
  intros Ha Hh. unfold phase.
  apply (continuous_comp (fun ps => scat_angle t0 (PI - ts) p0 ps a) h); [|apply Hh, scat_bound, Ha].
  apply ex_derive_cont. unfold scat_angle. auto_derive. exact I.
Qed.
Lemma brdf_cont h a ts tx px x : unit_weights a -> continuous_inside h ->
  continuous (fun ps => brdf h a ts ps tx px) x.
Proof.
  intros Ha Hh. unfold brdf.
  apply (continuous_comp (fun ps => scat_angle ts tx ps px a) h); [|apply Hh, scat_bound, Ha].
  apply ex_derive_cont. unfold scat_angle. auto_derive. exact I.
Qed.

Lemma azimuth_continuous p f :
  (forall t1 p1 ts x, continuous (fun ps => p t1 p1 ts ps) x) -> (forall ts t2 p2 x, continuous (fun ps => f ts ps t2 p2) x) ->
  azimuth_integrable p f.
Proof.
  intros Hp Hf t1 p1 t2 p2 ts. apply (ex_RInt_continuous (V := R_CompleteNormedModule)). intros x _.
  apply contM; [apply Hp|apply Hf].
Qed.
