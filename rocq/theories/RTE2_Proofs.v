(** Uniqueness and existence of the first-order solution *)
From Coq Require Import Reals Lra Psatz.
From Coquelicot Require Import Coquelicot.
From Verif Require Import Int_Spec RTE_Spec RTE_Proofs.
Local Open Scope R_scope.

Lemma is_RInt_ext_open (f g : R -> R) a b l : a <= b -> (forall x, a < x < b -> f x = g x) -> is_RInt f a b l -> is_RInt g a b l.
Proof. intros Hab H I. eapply is_RInt_ext; [|exact I]. intros x Hx. rewrite Rmin_left, Rmax_right in Hx by exact Hab. apply H. exact Hx. Qed.
(** the value in one point does not matter *)
Lemma one_point (f g : R -> R) a b c l : a <= b -> (forall x, a < x < b -> x <> c -> f x = g x) -> is_RInt f a b l -> is_RInt g a b l.
Proof.
  intros Hab H I. destruct (Rle_dec c a) as [Ha|Ha]; [eapply is_RInt_ext_open; [exact Hab| |exact I]; intros; apply H; lra|].
  destruct (Rle_dec b c) as [Hb|Hb]; [eapply is_RInt_ext_open; [exact Hab| |exact I]; intros; apply H; lra|].
  assert (E : ex_RInt f a b) by (exists l; exact I).
  assert (E1 : ex_RInt f a c) by (apply (ex_RInt_Chasles_1 (V := R_CompleteNormedModule) f a c b); [lra|exact E]).
  assert (E2 : ex_RInt f c b) by (apply (ex_RInt_Chasles_2 (V := R_CompleteNormedModule) f a c b); [lra|exact E]).
  destruct E1 as [l1 I1], E2 as [l2 I2].
  assert (l = plus l1 l2). { rewrite <- (is_RInt_unique _ _ _ _ I). apply is_RInt_unique. apply (is_RInt_Chasles f a c b); assumption. }
  subst l. apply (is_RInt_Chasles g a c b).
  - eapply is_RInt_ext_open; [lra| |exact I1]. intros; apply H; lra.
  - eapply is_RInt_ext_open; [lra| |exact I2]. intros; apply H; lra.
Qed.
Lemma RInt_scalR (f : R -> R) a b k : ex_RInt f a b -> RInt (fun x => k * f x) a b = k * RInt f a b.
Proof. intros H. exact (RInt_scal (V := R_CompleteNormedModule) f a b k H). Qed.
Lemma is_RInt_scalR (f : R -> R) a b k l : is_RInt f a b l -> is_RInt (fun x => k * f x) a b (k * l).
Proof. intros H. exact (is_RInt_scal (V := R_NormedModule) f a b k l H). Qed.
Lemma is_RInt_uniqueR (f : R -> R) a b l l' : is_RInt f a b l -> is_RInt f a b l' -> l = l'.
Proof. intros A B. rewrite <- (is_RInt_unique _ _ _ _ A). exact (is_RInt_unique _ _ _ _ B). Qed.
Lemma exp_cont_on (D : R -> Prop) a b : continuous_on D (fun t => exp (a * t + b)).
Proof. apply continuous_on_all. intros x _. apply (ex_derive_continuous (fun t => exp (a * t + b))). auto_derive. exact I. Qed.

(** closed form of the integral over the depth *)
Lemma inner_closed tau mx mu : 0 < mx -> 0 < mu -> mu <> mx ->
  inner tau mx 0 mu = mx * (mu / (mx - mu) * (exp (- tau / mx) - exp (- tau / mu))).
Proof.
  intros Hx Hm Hn. apply (is_RInt_unique (V := R_CompleteNormedModule)).
  set (a := / mu - / mx). assert (Ha : a <> 0).
  { unfold a. intros E. apply Hn. assert (/ mu = / mx) by lra. rewrite <- (Rinv_inv mu), <- (Rinv_inv mx). f_equal. assumption. }
  apply (is_RInt_ext (fun s => exp (- tau / mu) * exp (a * s))).
  { intros s _. unfold ker. rewrite att_pos by exact Hm. change (exp (- tau / mu) * exp (a * s) = exp (- s / mx) * exp (- (tau - s) / mu)).
    rewrite <- !exp_plus. f_equal. unfold a. field. lra. }
  replace (mx * (mu / (mx - mu) * (exp (- tau / mx) - exp (- tau / mu))))
    with (minus (exp (- tau / mu) * (exp (a * tau) / a)) (exp (- tau / mu) * (exp (a * 0) / a))).
  - apply (is_RInt_derive (fun s => exp (- tau / mu) * (exp (a * s) / a)) (fun s => exp (- tau / mu) * exp (a * s))).
    + intros x _. auto_derive; [exact I|]. field. exact Ha.
    + intros x _. apply (ex_derive_continuous (fun s => exp (- tau / mu) * exp (a * s))). auto_derive. exact I.
  - unfold minus, plus, opp; simpl. rewrite Rmult_0_r, exp_0.
    assert (E : exp (- tau / mu) * exp (a * tau) = exp (- tau / mx)) by (rewrite <- exp_plus; f_equal; unfold a; field; lra).
    replace (exp (- tau / mu) * (exp (a * tau) / a)) with (exp (- tau / mu) * exp (a * tau) / a) by (field; exact Ha). rewrite E.
    assert (A : / a = mx * mu / (mx - mu)). { unfold a. field. repeat split; try lra; intros E'; apply Hn; lra. }
    replace (exp (- tau / mx) / a + - (exp (- tau / mu) * (1 / a))) with ((exp (- tau / mx) - exp (- tau / mu)) * / a) by (field; exact Ha).
    rewrite A. field. intros E'. apply Hn. lra.
Qed.

Lemma derive_to (f : R -> R) (x l l' : R) : is_derive f x l -> l = l' -> is_derive f x l'.
Proof. intros H <-. exact H. Qed.

Section Sol.
Variables (tau : R).
Hypothesis Htau : 0 < tau.

(** upwelling radiation without source *)
Lemma up_free mu U t : 0 < mu -> upwelling tau mu (fun _ => 0) U -> 0 <= t <= tau -> U t = U tau * exp (- (tau - t) / mu).
Proof.
  intros Hm [C D] Ht.
  assert (E : exp (- / mu * t + 0) * U t = exp (- / mu * tau + 0) * U tau).
  { apply (const_on (fun s => exp (- / mu * s + 0) * U s) t tau); [lra| |].
    - apply continuous_on_mult; [apply exp_cont_on|]. apply (continuous_on_sub U (in_layer tau)); [|exact C]. unfold in_layer. intros; lra.
    - intros s Hs. assert (Hs' : 0 < s < tau) by lra. specialize (D s Hs').
      apply (derive_to _ _ ((- / mu * exp (- / mu * s + 0)) * U s + exp (- / mu * s + 0) * ((U s - 0) / mu))); [|field; lra].
      apply (is_derive_mult (fun s => exp (- / mu * s + 0)) U); [|exact D|apply Rmult_comm]. auto_derive; [exact I|ring]. }
  replace (- (tau - t) / mu) with ((- / mu * tau + 0) + - (- / mu * t + 0)) by (field; lra). rewrite exp_plus, exp_Ropp.
  assert (exp (- / mu * t + 0) <> 0) by (apply Rgt_not_eq, exp_pos). apply Rmult_eq_reg_l with (exp (- / mu * t + 0)); [|assumption].
  rewrite E. field. assumption.
Qed.
(** downwelling radiation with an exponentially decreasing source, from zero *)
Lemma down_exp mu m0 k D : 0 < mu -> 0 < m0 -> mu <> m0 -> downwelling tau mu (fun t => k * exp (- t / m0)) D -> D 0 = 0 ->
  D tau = k * m0 / (m0 - mu) * (exp (- tau / m0) - exp (- tau / mu)).
Proof.
  intros Hm H0 Hn [C Dr] Z. set (a := / mu - / m0). assert (Ha : a <> 0).
  { unfold a. intros E. apply Hn. assert (/ mu = / m0) by lra. rewrite <- (Rinv_inv mu), <- (Rinv_inv m0). f_equal. assumption. }
  assert (E : exp (/ mu * 0 + 0) * D 0 + - (k / (mu * a)) * exp (a * 0 + 0) = exp (/ mu * tau + 0) * D tau + - (k / (mu * a)) * exp (a * tau + 0)).
  { apply (const_on (fun s => exp (/ mu * s + 0) * D s + - (k / (mu * a)) * exp (a * s + 0)) 0 tau); [lra| |].
    - apply continuous_on_plus; [apply continuous_on_mult; [apply exp_cont_on|exact C]|].
      apply (continuous_on_mult (fun _ => - (k / (mu * a)))); [apply continuous_on_all; intros; apply continuous_const|apply exp_cont_on].
    - intros s Hs. specialize (Dr s Hs).
      assert (X : exp (/ mu * s + 0) * exp (- s / m0) = exp (a * s + 0)) by (rewrite <- exp_plus; f_equal; unfold a; field; lra).
      apply (derive_to _ _ (((/ mu * exp (/ mu * s + 0)) * D s + exp (/ mu * s + 0) * ((k * exp (- s / m0) - D s) / mu)) + (- (k / (mu * a)) * (a * exp (a * s + 0))))).
      + apply (is_derive_plus (fun s => exp (/ mu * s + 0) * D s) (fun s => - (k / (mu * a)) * exp (a * s + 0))).
        * apply (is_derive_mult (fun s => exp (/ mu * s + 0)) D); [|exact Dr|apply Rmult_comm]. auto_derive; [exact I|ring].
        * auto_derive; [exact I|ring].
      + replace (exp (/ mu * s + 0) * ((k * exp (- s / m0) - D s) / mu)) with (k / mu * (exp (/ mu * s + 0) * exp (- s / m0)) - exp (/ mu * s + 0) * D s / mu) by (field; lra).
        rewrite X. field. split; [exact Ha|lra]. }
  rewrite Z, !Rmult_0_r, !Rplus_0_r, exp_0 in E.
  assert (P : exp (/ mu * tau) <> 0) by (apply Rgt_not_eq, exp_pos).
  assert (X : exp (- tau / mu) * exp (/ mu * tau) = 1) by (rewrite <- exp_plus, <- exp_0; f_equal; field; lra).
  assert (Y : exp (- tau / mu) * exp (a * tau) = exp (- tau / m0)) by (rewrite <- exp_plus; f_equal; unfold a; field; lra).
  assert (E' : D tau = exp (- tau / mu) * (k / (mu * a) * exp (a * tau) - k / (mu * a))).
  { apply Rmult_eq_reg_l with (exp (/ mu * tau)); [|exact P]. rewrite <- Rmult_assoc, (Rmult_comm (exp (/ mu * tau)) (exp (- tau / mu))), X. lra. }
  rewrite E'. replace (exp (- tau / mu) * (k / (mu * a) * exp (a * tau) - k / (mu * a))) with (k / (mu * a) * (exp (- tau / mu) * exp (a * tau) - exp (- tau / mu))) by ring.
  rewrite Y. f_equal. assert (A : mu * a = (m0 - mu) / m0) by (unfold a; field; lra). rewrite A. field. split; [intros E''; apply Hn; lra|lra].
Qed.

Variables (I0 omega m0 mx c p : R) (g : R -> R).
Hypothesis (H0 : 0 < m0) (Hx : 0 < mx) (Hg : forall x, continuous g x).

(** the part of the solution that is driven by the sources *)
Definition driven (t : R) : R :=
  omega * I0 * p * m0 / (m0 + mx) * exp (- (/ m0 + / mx) * t + 0) + omega * c / mx * outer tau mx g t.
Definition source (t : R) : R :=
  omega * (I0 * exp (- t / m0) * p + c * RInt (fun mu => att (tau - t) mu * g mu) 0 1).
Lemma driven_derive t : t < tau -> is_derive driven t (- exp (- t / mx) * source t / mx).
Proof.
  intros Ht. assert (O := outer_derive tau mx Hx g Hg t Ht).
  assert (K : RInt (fun mu => ker tau mx t mu * g mu) 0 1 = exp (- t / mx) * RInt (fun mu => att (tau - t) mu * g mu) 0 1).
  { rewrite <- RInt_scalR.
    - apply RInt_ext. intros x _. unfold ker. change (exp (- t / mx) * att (tau - t) x * g x = exp (- t / mx) * (att (tau - t) x * g x)). ring.
    - apply (ex_RInt_continuous (V := R_CompleteNormedModule)). intros z _. apply (continuous_mult (att (tau - t)) g); [|apply Hg].
      assert (C : continuity_2d_pt att (tau - t) z) by (apply att_continuous2; lra).
      apply filterlim_locally. intros eps. destruct (C eps) as [d Hd]. exists d. intros y Hy.
      unfold ball in *; simpl in *; unfold AbsRing_ball, abs, minus, plus, opp in *; simpl in *. apply Hd; [|exact Hy].
      rewrite Rminus_eq_0, Rabs_R0. apply d. }
  rewrite K in O.
  assert (X : exp (- t / mx) * exp (- t / m0) = exp (- (/ m0 + / mx) * t + 0)) by (rewrite <- exp_plus; f_equal; field; lra).
  replace (- exp (- t / mx) * source t / mx)
    with (omega * I0 * p * m0 / (m0 + mx) * (- (/ m0 + / mx) * exp (- (/ m0 + / mx) * t + 0)) +
          omega * c / mx * (- (exp (- t / mx) * RInt (fun mu => att (tau - t) mu * g mu) 0 1))).
  - apply (is_derive_plus (fun t => omega * I0 * p * m0 / (m0 + mx) * exp (- (/ m0 + / mx) * t + 0)) (fun t => omega * c / mx * outer tau mx g t)).
    + auto_derive; [exact I|ring].
    + apply (is_derive_scal (outer tau mx g) t (omega * c / mx)). exact O.
  - unfold source. rewrite <- X. field. lra.
Qed.
Lemma driven_continuous : continuous_on (in_layer tau) driven.
Proof.
  apply continuous_on_plus.
  - apply (continuous_on_mult (fun _ => omega * I0 * p * m0 / (m0 + mx))); [apply continuous_on_all; intros; apply continuous_const|apply exp_cont_on].
  - apply (continuous_on_mult (fun _ => omega * c / mx)); [apply continuous_on_all; intros; apply continuous_const|].
    apply outer_continuous; assumption.
Qed.
Lemma up_driven J U : (forall t, 0 < t < tau -> J t = source t) -> upwelling tau mx J U ->
  U 0 = driven 0 + exp (- tau / mx) * U tau - driven tau.
Proof.
  intros HJ [C D].
  assert (E : exp (- / mx * 0 + 0) * U 0 + - driven 0 = exp (- / mx * tau + 0) * U tau + - driven tau).
  { apply (const_on (fun s => exp (- / mx * s + 0) * U s + - driven s) 0 tau); [lra| |].
    - apply continuous_on_plus; [apply continuous_on_mult; [apply exp_cont_on|exact C]|].
      intros x Hx'. eapply filterlim_comp; [apply driven_continuous; exact Hx'|]. apply (filterlim_opp (V := R_NormedModule)).
    - intros s Hs. specialize (D s Hs). rewrite HJ in D by exact Hs. assert (S := driven_derive s (proj2 Hs)).
      apply (derive_to _ _ (((- / mx * exp (- / mx * s + 0)) * U s + exp (- / mx * s + 0) * ((U s - source s) / mx)) + - (- exp (- s / mx) * source s / mx))).
      + apply (is_derive_plus (fun s => exp (- / mx * s + 0) * U s) (fun s => - driven s)).
        * apply (is_derive_mult (fun s => exp (- / mx * s + 0)) U); [|exact D|apply Rmult_comm]. auto_derive; [exact I|ring].
        * apply (is_derive_opp driven). exact S.
      + replace (- / mx * s + 0) with (- s / mx) by (field; lra). field. lra. }
  rewrite Rmult_0_r, Rplus_0_r, exp_0 in E. replace (- / mx * tau + 0) with (- tau / mx) in E by (field; lra). lra.
Qed.
(** a solution *)
Definition solution (b t : R) : R := exp (/ mx * t + 0) * (driven t - driven tau + exp (- tau / mx) * b).
Lemma solution_ok b J : (forall t, 0 < t < tau -> J t = source t) -> upwelling tau mx J (solution b) /\ solution b tau = b.
Proof.
  intros HJ. split; [split|].
  - apply continuous_on_mult; [apply exp_cont_on|].
    apply (continuous_on_plus (fun t => driven t - driven tau) (fun _ => exp (- tau / mx) * b)); [|apply continuous_on_all; intros; apply continuous_const].
    apply (continuous_on_plus driven (fun _ => - driven tau)); [apply driven_continuous|apply continuous_on_all; intros; apply continuous_const].
  - intros s Hs. rewrite HJ by exact Hs. assert (S := driven_derive s (proj2 Hs)). unfold solution.
    replace ((exp (/ mx * s + 0) * (driven s - driven tau + exp (- tau / mx) * b) - source s) / mx)
      with ((/ mx * exp (/ mx * s + 0)) * (driven s - driven tau + exp (- tau / mx) * b) + exp (/ mx * s + 0) * ((- exp (- s / mx) * source s / mx - 0) + 0)).
    + apply (is_derive_mult (fun s => exp (/ mx * s + 0)) (fun s => driven s - driven tau + exp (- tau / mx) * b)); [auto_derive; [exact I|ring]| |apply Rmult_comm].
      apply (is_derive_plus (fun s => driven s - driven tau) (fun _ => exp (- tau / mx) * b)); [|apply (is_derive_const (V := R_NormedModule))].
      apply (is_derive_minus driven (fun _ => driven tau)); [exact S|apply (is_derive_const (V := R_NormedModule))].
    + assert (X : exp (/ mx * s + 0) * exp (- s / mx) = 1) by (rewrite <- exp_plus, <- exp_0; f_equal; field; lra).
      replace (exp (/ mx * s + 0) * (- exp (- s / mx) * source s / mx - 0 + 0)) with (- (exp (/ mx * s + 0) * exp (- s / mx)) * source s / mx) by (field; lra).
      rewrite X. field. lra.
  - unfold solution. replace (exp (/ mx * tau + 0) * (driven tau - driven tau + exp (- tau / mx) * b)) with (exp (/ mx * tau + 0) * exp (- tau / mx) * b) by ring.
    rewrite <- exp_plus. replace (/ mx * tau + 0 + - tau / mx) with 0 by (field; lra). rewrite exp_0. ring.
Qed.
End Sol.
