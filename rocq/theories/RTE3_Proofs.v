(** The first-order solution in terms of surface, volume and interaction contribution *)
From Coq Require Import Reals Lra Psatz.
From Coquelicot Require Import Coquelicot.
From Verif Require Import Int_Spec RTE_Spec RTE_Proofs RTE2_Proofs.
Local Open Scope R_scope.

Section Layer.
Variables p_du p_dd p_uu f : R -> R -> R -> R -> R.
Variables I0 omega tau t_0 p_0 t_ex p_ex : R.
Hypothesis (Htau : 0 < tau) (H0 : 0 < cos t_0) (Hx : 0 < cos t_ex).
Hypothesis Hp : forall th ph, p_uu th ph t_ex p_ex = p_dd t_ex p_ex th ph.
Hypothesis Hf : forall th ph, f t_0 p_0 th ph = f th ph t_0 p_0.
Hypothesis R1 : regular (p_dd t_0 p_0) (fun th ph => f th ph t_ex p_ex).
Hypothesis R2 : regular (p_dd t_ex p_ex) (fun th ph => f th ph t_0 p_0).

Let m0 := cos t_0.
Let mx := cos t_ex.
Let c := m0 * beam I0 t_0 tau.
Let az1 (mu : R) := azimuth_product (p_dd t_0 p_0) (fun th ph => f th ph t_ex p_ex) (acos mu).
Let az2 (mu : R) := azimuth_product (p_dd t_ex p_ex) (fun th ph => f th ph t_0 p_0) (acos mu).
Let g1 (mu : R) := az1 (clamp 0 1 mu).
Let g2 (mu : R) := az2 (clamp 0 1 mu).
Lemma g1_cont x : continuous g1 x.
Proof. apply (clamp_continuous az1); [lra|]. exact (proj2 R1). Qed.
Lemma g2_cont x : continuous g2 x.
Proof. apply (clamp_continuous az2); [lra|]. exact (proj2 R2). Qed.
Lemma cos_ac mu : 0 < mu < 1 -> cos (acos mu) = mu.
Proof. intros. apply cos_acos. lra. Qed.

Lemma azimuth_up U0 mu t : zeroth_order f I0 tau t_0 p_0 U0 -> 0 < mu < 1 -> 0 <= t <= tau ->
  RInt (fun ph => U0 (acos mu) ph t * p_uu (acos mu) ph t_ex p_ex) 0 (2 * PI) = c * (att (tau - t) mu * g2 mu).
Proof.
  intros HU Hm Ht. rewrite att_pos by lra. unfold g2. rewrite clamp_id by lra. unfold az2, azimuth_product.
  rewrite <- Rmult_assoc, <- RInt_scalR by (apply (proj1 R2); exact Hm).
  apply RInt_ext. intros ph _. destruct (HU (acos mu) ph) as [A B]; [rewrite cos_ac; lra|]. rewrite cos_ac in A by exact Hm.
  rewrite (up_free tau mu (U0 (acos mu) ph) t (proj1 Hm) A Ht), B, Hp, Hf.
  change (cos t_0 * beam I0 t_0 tau * f (acos mu) ph t_0 p_0 * exp (- (tau - t) / mu) * p_dd t_ex p_ex (acos mu) ph =
    c * exp (- (tau - t) / mu) * (p_dd t_ex p_ex (acos mu) ph * f (acos mu) ph t_0 p_0)). unfold c, m0. ring.
Qed.
Lemma azimuth_down D1 mu : first_down p_dd I0 omega tau t_0 p_0 D1 -> 0 < mu < 1 -> mu <> m0 ->
  RInt (fun ph => mu * D1 (acos mu) ph tau * f (acos mu) ph t_ex p_ex) 0 (2 * PI) =
  omega * I0 * m0 * (mu / (m0 - mu) * (exp (- tau / m0) - exp (- tau / mu)) * az1 mu).
Proof.
  intros HD Hm Hn. unfold az1, azimuth_product. rewrite <- Rmult_assoc, <- RInt_scalR by (apply (proj1 R1); exact Hm).
  apply RInt_ext. intros ph _. destruct (HD (acos mu) ph) as [A B]; [rewrite cos_ac; lra|]. rewrite cos_ac in A by exact Hm.
  assert (A' : downwelling tau mu (fun t => omega * I0 * p_dd t_0 p_0 (acos mu) ph * exp (- t / m0)) (D1 (acos mu) ph)).
  { destruct A as [A1 A2]. split; [exact A1|]. intros t Ht. specialize (A2 t Ht). unfold beam in A2. eapply derive_to; [exact A2|]. unfold m0. field. lra. }
  rewrite (down_exp tau Htau mu m0 _ _ (proj1 Hm) H0 Hn A' B).
  match goal with |- ?a = ?b => change (@eq R a b) end. field. intros E. apply Hn. lra.
Qed.
Lemma F_kernel mu1 g h : 0 < mu1 -> (forall x, continuous g x) -> (forall mu, 0 < mu < 1 -> g mu = h mu) ->
  is_F_int tau mu1 h (outer tau mu1 g 0 / mu1).
Proof.
  intros H1 Hg E. unfold is_F_int.
  assert (O : is_RInt (fun mu => inner tau mu1 0 mu * g mu) 0 1 (outer tau mu1 g 0)).
  { apply (RInt_correct (V := R_CompleteNormedModule)), outer_ex; [exact H1|exact Hg|lra]. }
  apply (is_RInt_scalR _ _ _ (/ mu1)) in O. rewrite Rmult_comm in O. eapply (one_point _ _ 0 1 mu1); [lra| |exact O].
  intros mu Hm Hn. cbv beta. rewrite inner_closed, E by lra. field. split; [intros X; apply Hn; lra|lra].
Qed.

Definition F1v := outer tau m0 g1 0 / m0.
Definition F2v := outer tau mx g2 0 / mx.
Lemma F1_ok : is_F_int tau m0 az1 F1v.
Proof. apply F_kernel; [exact H0|apply g1_cont|]. intros mu Hm. unfold g1. rewrite clamp_id by lra. reflexivity. Qed.
Lemma F2_ok : is_F_int tau mx az2 F2v.
Proof. apply F_kernel; [exact Hx|apply g2_cont|]. intros mu Hm. unfold g2. rewrite clamp_id by lra. reflexivity. Qed.

Lemma bottom D1 b : first_down p_dd I0 omega tau t_0 p_0 D1 ->
  (is_RInt (fun mu => RInt (fun ph => mu * D1 (acos mu) ph tau * f (acos mu) ph t_ex p_ex) 0 (2 * PI)) 0 1 b <-> b = omega * I0 * m0 * F1v).
Proof.
  intros HD. assert (A : is_RInt (fun mu => RInt (fun ph => mu * D1 (acos mu) ph tau * f (acos mu) ph t_ex p_ex) 0 (2 * PI)) 0 1 (omega * I0 * m0 * F1v)).
  { pose proof F1_ok as F. unfold is_F_int in F. apply (is_RInt_scalR _ _ _ (omega * I0 * m0)) in F.
    eapply (one_point _ _ 0 1 m0); [lra| |exact F]. intros mu Hm Hn. cbv beta. symmetry. apply azimuth_down; assumption. }
  split; [intros B; eapply is_RInt_uniqueR; eauto|intros ->; exact A].
Qed.
Lemma att_ex t : t < tau -> ex_RInt (fun mu => att (tau - t) mu * g2 mu) 0 1.
Proof.
  intros Ht. apply (ex_RInt_continuous (V := R_CompleteNormedModule)). intros z _. apply (continuous_mult (att (tau - t)) g2); [|apply g2_cont].
  assert (C : continuity_2d_pt att (tau - t) z) by (apply att_continuous2; lra).
  apply filterlim_locally. intros eps. destruct (C eps) as [d Hd]. exists d. intros y Hy.
  unfold ball in *; simpl in *; unfold AbsRing_ball, abs, minus, plus, opp in *; simpl in *. apply Hd; [|exact Hy].
  rewrite Rminus_eq_0, Rabs_R0. apply d.
Qed.
Lemma source_up U0 t S : zeroth_order f I0 tau t_0 p_0 U0 -> 0 < t < tau ->
  (is_RInt (fun mu => RInt (fun ph => U0 (acos mu) ph t * p_uu (acos mu) ph t_ex p_ex) 0 (2 * PI)) 0 1 S <->
   S = c * RInt (fun mu => att (tau - t) mu * g2 mu) 0 1).
Proof.
  intros HU Ht.
  assert (A : is_RInt (fun mu => RInt (fun ph => U0 (acos mu) ph t * p_uu (acos mu) ph t_ex p_ex) 0 (2 * PI)) 0 1 (c * RInt (fun mu => att (tau - t) mu * g2 mu) 0 1)).
  { eapply is_RInt_ext_open; [lra| |apply is_RInt_scalR, (RInt_correct (V := R_CompleteNormedModule)), att_ex; lra].
    intros mu Hm. cbv beta. symmetry. apply azimuth_up; [exact HU|exact Hm|lra]. }
  split; [intros B; eapply is_RInt_uniqueR; eauto|intros ->; exact A].
Qed.

Definition layer_value : R :=
  I0 * m0 * exp (- tau / m0 - tau / mx) * f t_0 p_0 t_ex p_ex
  + I0 * omega * m0 / (m0 + mx) * (1 - exp (- tau / m0 - tau / mx)) * p_du t_0 p_0 t_ex p_ex
  + I0 * omega * m0 * (exp (- tau / mx) * F1v + exp (- tau / m0) * F2v).

Lemma value_eq U0 : zeroth_order f I0 tau t_0 p_0 U0 ->
  U0 t_ex p_ex 0 + (driven tau I0 omega m0 mx c (p_du t_0 p_0 t_ex p_ex) g2 0 + exp (- tau / mx) * (omega * I0 * m0 * F1v)
    - driven tau I0 omega m0 mx c (p_du t_0 p_0 t_ex p_ex) g2 tau) = layer_value.
Proof.
  intros HU. destruct (HU t_ex p_ex Hx) as [A B]. rewrite (up_free tau (cos t_ex) (U0 t_ex p_ex) 0 Hx A) by lra. rewrite B.
  unfold driven. rewrite outer_zero, Rmult_0_r, !Rplus_0_r, exp_0. unfold layer_value, F2v, c, beam. fold m0 mx.
  assert (E : exp (- tau / m0 - tau / mx) = exp (- tau / m0) * exp (- tau / mx)) by (rewrite <- exp_plus; f_equal; unfold Rdiv; ring).
  replace (- (/ m0 + / mx) * tau) with (- tau / m0 - tau / mx) by (field; split; apply Rgt_not_eq; assumption).
  replace (- (tau - 0) / mx) with (- tau / mx) by (unfold Rdiv; ring). rewrite E. field.
  split; apply Rgt_not_eq; [exact Hx|]. unfold m0, mx. lra.
Qed.

Lemma solution_unique v : first_order_intensity p_du p_dd p_uu f I0 omega tau t_0 p_0 t_ex p_ex v -> v = layer_value.
Proof.
  intros (U0 & D1 & U1 & HU & HD & (J & HJ & HU1 & HB) & ->). apply (bottom D1 _ HD) in HB.
  assert (HS : forall t, 0 < t < tau -> J t = source tau I0 omega m0 c (p_du t_0 p_0 t_ex p_ex) g2 t).
  { intros t Ht. destruct (HJ t Ht) as (S & -> & HS). apply (source_up U0 t S HU Ht) in HS. rewrite HS. reflexivity. }
  rewrite (up_driven tau Htau I0 omega m0 mx c (p_du t_0 p_0 t_ex p_ex) g2 H0 Hx g2_cont J U1 HS HU1), HB. apply value_eq. exact HU.
Qed.

(** solutions of the three equations *)
Definition U0s (th ph t : R) : R := c * f t_0 p_0 th ph * exp (- (tau - t) / cos th).
Definition D1s (th ph t : R) : R :=
  omega * I0 * p_dd t_0 p_0 th ph *
  (if Req_EM_T (cos th) m0 then t / m0 * exp (- t / m0) else m0 / (m0 - cos th) * (exp (- t / m0) - exp (- t / cos th))).
Lemma U0s_ok : zeroth_order f I0 tau t_0 p_0 U0s.
Proof.
  intros th ph H. split; [split|].
  - apply continuous_on_all. intros x _. apply (ex_derive_continuous (U0s th ph)). unfold U0s. auto_derive. exact I.
  - intros t _. unfold U0s. auto_derive; [exact I|]. replace (- (tau + - t) * / cos th) with (- (tau - t) / cos th) by (unfold Rdiv; ring). field. lra.
  - unfold U0s. replace (- (tau - tau) / cos th) with 0 by (field; lra). rewrite exp_0. unfold c, m0. ring.
Qed.
Lemma D1s_ok : first_down p_dd I0 omega tau t_0 p_0 D1s.
Proof.
  intros th ph H. assert (M : m0 <> 0) by (apply Rgt_not_eq; exact H0). unfold D1s. destruct (Req_EM_T (cos th) m0) as [E|E].
  - rewrite E. split; [split|].
    + apply continuous_on_all. intros x _. apply (ex_derive_continuous (fun t => omega * I0 * p_dd t_0 p_0 th ph * (t / m0 * exp (- t / m0)))). auto_derive. exact I.
    + intros t _. auto_derive; [exact I|]. unfold beam. fold m0. replace (- t * / m0) with (- t / m0) by reflexivity. field. exact M.
    + field. exact M.
  - assert (N : m0 - cos th <> 0) by (intros X; apply E; lra). split; [split|].
    + apply continuous_on_all. intros x _.
      apply (ex_derive_continuous (fun t => omega * I0 * p_dd t_0 p_0 th ph * (m0 / (m0 - cos th) * (exp (- t / m0) - exp (- t / cos th))))). auto_derive. exact I.
    + intros t _. auto_derive; [exact I|]. unfold beam. fold m0. replace (- t * / m0) with (- t / m0) by reflexivity. replace (- t * / cos th) with (- t / cos th) by reflexivity. field. repeat split; lra.
    + replace (- 0 / m0) with 0 by (field; exact M). replace (- 0 / cos th) with 0 by (field; lra). ring.
Qed.
Lemma solution_exists : first_order_intensity p_du p_dd p_uu f I0 omega tau t_0 p_0 t_ex p_ex layer_value.
Proof.
  set (S := source tau I0 omega m0 c (p_du t_0 p_0 t_ex p_ex) g2).
  destruct (solution_ok tau Htau I0 omega m0 mx c (p_du t_0 p_0 t_ex p_ex) g2 H0 Hx g2_cont (omega * I0 * m0 * F1v) S) as [A B]; [reflexivity|].
  exists U0s, D1s, (solution tau I0 omega m0 mx c (p_du t_0 p_0 t_ex p_ex) g2 (omega * I0 * m0 * F1v)).
  split; [exact U0s_ok|]. split; [exact D1s_ok|]. split.
  - exists S. split; [|split; [exact A|]].
    + intros t Ht. eexists. split; [|apply (source_up U0s t _ U0s_ok Ht); reflexivity]. reflexivity.
    + apply (bottom D1s _ D1s_ok). exact B.
  - rewrite <- (value_eq U0s U0s_ok). f_equal.
    rewrite (up_driven tau Htau I0 omega m0 mx c (p_du t_0 p_0 t_ex p_ex) g2 H0 Hx g2_cont S _ (fun t _ => eq_refl) A). rewrite B. reflexivity.
Qed.
Lemma interaction_is vi : is_interaction p_dd f I0 omega tau 1 0 t_0 p_0 t_ex p_ex vi <->
  vi = I0 * omega * m0 * (exp (- tau / mx) * F1v + exp (- tau / m0) * F2v).
Proof.
  split.
  - intros (F1 & F2 & A & B & ->). assert (F1 = F1v) by (eapply is_RInt_uniqueR; [exact A|exact F1_ok]).
    assert (F2 = F2v) by (eapply is_RInt_uniqueR; [exact B|exact F2_ok]). subst F1 F2. fold m0 mx. ring.
  - intros ->. exists F1v, F2v. split; [exact F1_ok|]. split; [exact F2_ok|]. fold m0 mx. ring.
Qed.
Lemma first_order_iff v : first_order_intensity p_du p_dd p_uu f I0 omega tau t_0 p_0 t_ex p_ex v <->
  exists vi, is_interaction p_dd f I0 omega tau 1 0 t_0 p_0 t_ex p_ex vi /\
    v = I0 * cos t_0 * exp (- tau / cos t_0 - tau / cos t_ex) * f t_0 p_0 t_ex p_ex
        + I0 * omega * cos t_0 / (cos t_0 + cos t_ex) * (1 - exp (- tau / cos t_0 - tau / cos t_ex)) * p_du t_0 p_0 t_ex p_ex + vi.
Proof.
  split.
  - intros H. apply solution_unique in H. eexists. split; [apply interaction_is; reflexivity|]. rewrite H. reflexivity.
  - intros (vi & A & ->). apply interaction_is in A. subst vi. exact solution_exists.
Qed.
End Layer.
