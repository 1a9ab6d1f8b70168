(** Existence of the exponential integrals: the hypotheses on the oracles expi and expn can be met. *)
From Coq Require Import Reals List Lra Lia Arith Bool Psatz.
From Coquelicot Require Import Coquelicot.
From Verif Require Import Base Sca_Model Sca_Proofs Sca2_Proofs Int_Model Int_Spec Ei_Proofs Ei2_Proofs.
Import ListNotations.
Local Open Scope R_scope.

Lemma mono_lim (F : R -> R) (M : R) :
  (forall a b, 1 <= a <= b -> F a <= F b) -> (forall b, 1 <= b -> F b <= M) ->
  exists l : R, is_lim F p_infty l.
Proof.
  intros Hm HM. destruct (completeness (fun y => exists b, 1 <= b /\ y = F b)) as [l [Hu Hl]].
  - exists M. intros y [b [Hb ->]]. apply HM, Hb.
  - exists (F 1), 1. split; [lra|reflexivity].
  - exists l. intros P [eps HP]. simpl.
    destruct (Classical_Prop.classic (exists b, 1 <= b /\ l - eps < F b)) as [[b [Hb HF]]|N].
    + exists b. intros x Hx. apply HP. unfold ball; simpl; unfold AbsRing_ball, abs, minus, plus, opp; simpl.
      assert (F x <= l) by (apply Hu; exists x; split; [lra|reflexivity]).
      assert (F b <= F x) by (apply Hm; lra). apply Rabs_def1; lra.
    + exfalso. assert (K : l <= l - eps).
      { apply Hl. intros y [b [Hb ->]]. destruct (Rle_dec (F b) (l - eps)); [assumption|]. exfalso. apply N. exists b. split; lra. }
      pose proof (cond_pos eps). lra.
Qed.

Lemma expn_exists n tau : (1 <= n)%nat -> 0 < tau ->
  exists l : R, is_lim (fun b => RInt (fun t => exp (- tau * t) / t ^ n) 1 b) p_infty l.
Proof.
  intros Hn Ht. set (f := fun t => exp (- tau * t) / t ^ n).
  assert (Hc : forall t, 0 < t -> continuous f t).
  { intros t H. apply ex_derive_cont. unfold f. auto_derive. apply pow_nonzero. lra. }
  assert (Hi : forall a b, 0 < a -> 0 < b -> ex_RInt f a b).
  { intros a b Ha Hb. apply (ex_RInt_continuous f). intros z Hz. apply Hc. unfold Rmin in Hz. destruct (Rle_dec a b); lra. }
  assert (Hpos : forall t, 1 <= t -> 0 <= f t <= exp (- tau * t)).
  { intros t H1. assert (1 <= t ^ n) by (apply pow_R1_Rle, H1). pose proof (exp_pos (- tau * t)). unfold f.
    split; [left; apply Rdiv_lt_0_compat; lra|]. apply (Rmult_le_reg_r (t ^ n)); [lra|]. unfold Rdiv. rewrite Rmult_assoc, Rinv_l by lra. nra. }
  apply (mono_lim (fun b => RInt f 1 b) (exp (- tau) / tau)).
  - intros a b Hab. rewrite <- (RInt_Chasles f 1 a b) by (apply Hi; lra).
    assert (0 <= RInt f a b). { apply RInt_ge_0; [lra|apply Hi; lra|]. intros x Hx. apply Hpos. lra. }
    unfold plus; simpl. lra.
  - intros b Hb. apply Rle_trans with (RInt (fun t => exp (- tau * t)) 1 b).
    + apply RInt_le; [lra|apply Hi; lra| |intros x Hx; apply Hpos; lra].
      apply (ex_RInt_continuous (fun t => exp (- tau * t))). intros z _. apply ex_derive_cont. auto_derive. auto.
    + rewrite (RInt_FTC (fun t => exp (- tau * t)) (fun t => - exp (- tau * t) / tau)).
      * rewrite Rmult_1_r. assert (0 < exp (- tau * b) / tau) by (apply Rdiv_lt_0_compat; [apply exp_pos|exact Ht]). 
        unfold Rdiv in *. lra.
      * intros x _. auto_derive; [auto|]. field. lra.
      * intros x _. apply ex_derive_cont. auto_derive. auto.
Qed.

Lemma ei0_minf : exists l : R, is_lim ei0 m_infty l.
Proof.
  destruct (mono_lim (fun b => ei0 (- b)) (ei0 (-1) + exp (-1))) as [l Hl].
  - intros a b Hab. assert (0 <= ei0 (- b) - ei0 (- a)); [|lra].
    rewrite <- expt_int by (left; lra).
    rewrite <- (opp_RInt_swap (fun t => exp t / t)).
    2:{ apply (ex_RInt_continuous (fun t => exp t / t)). intros z Hz. apply expt_cont. rewrite Rmin_left, Rmax_right in Hz by lra. lra. }
    unfold opp; simpl. rewrite <- (RInt_opp (fun t => exp t / t)).
    2:{ apply (ex_RInt_continuous (fun t => exp t / t)). intros z Hz. apply expt_cont. rewrite Rmin_left, Rmax_right in Hz by lra. lra. }
    apply RInt_ge_0; [lra| |].
    + apply (ex_RInt_opp (fun t => exp t / t)). apply (ex_RInt_continuous (fun t => exp t / t)). intros z Hz. apply expt_cont.
      rewrite Rmin_left, Rmax_right in Hz by lra. lra.
    + intros x Hx. unfold opp; simpl. pose proof (exp_pos x). assert (/ x < 0) by (apply Rinv_lt_0_compat; lra). unfold Rdiv. nra.
  - intros b Hb. assert (H : ei0 (- b) - ei0 (-1) <= exp (-1)); [|lra].
    replace (ei0 (- b) - ei0 (-1)) with (- (ei0 (-1) - ei0 (- b))) by ring. rewrite <- expt_int by (left; lra).
    assert (I : ex_RInt (fun t => exp t / t) (- b) (-1)).
    { apply (ex_RInt_continuous (fun t => exp t / t)). intros z Hz. apply expt_cont. rewrite Rmin_left, Rmax_right in Hz by lra. lra. }
    assert (E : RInt exp (- b) (-1) = exp (-1) - exp (- b)).
    { apply (RInt_FTC exp exp); intros; [auto_derive; [auto|ring]|apply ex_derive_cont; auto_derive; auto]. }
    assert (RInt (fun t => opp (exp t / t)) (- b) (-1) <= RInt exp (- b) (-1)).
    { apply RInt_le; [lra|apply (ex_RInt_opp (fun t => exp t / t)), I| |].
      - apply (ex_RInt_continuous exp). intros z _. apply ex_derive_cont. auto_derive. auto.
      - intros x Hx. unfold opp; simpl. pose proof (exp_pos x). assert (-1 <= / x).
        { assert (/ x < 0) by (apply Rinv_lt_0_compat; lra). assert (x * / x = 1) by (apply Rinv_r; lra). nra. }
        unfold Rdiv. nra. }
    rewrite (RInt_opp (fun t => exp t / t)) in H by exact I. unfold opp in H; simpl in H. pose proof (exp_pos (- b)). lra.
  - exists l. apply (is_lim_ext (fun x => ei0 (- (- x)))); [intros; rewrite Ropp_involutive; reflexivity|].
    apply (is_lim_comp (fun b => ei0 (- b)) (fun x => - x) m_infty l p_infty); [exact Hl| |exists 0; intros; discriminate].
    replace p_infty with (Rbar_opp m_infty) by reflexivity. apply is_lim_opp. apply is_lim_id.
Qed.

Lemma special_exist : exists expi expn, is_expi expi /\ is_expn expn.
Proof.
  destruct ei0_minf as [l Hl].
  exists (fun x => ei0 x - l).
  exists (fun n tau => real (Lim (fun b => RInt (fun t => exp (- tau * t) / t ^ n) 1 b) p_infty)).
  split; [split|].
  - intros x Hx. apply (is_lim_ext_loc (fun a => ei0 x - ei0 a)).
    + exists 0. intros a Ha. rewrite expt_int by (left; lra). reflexivity.
    + apply is_lim_minus'; [apply is_lim_const|exact Hl].
  - intros x Hx. apply (flim_ext (fun e => (ei0 x - l) + (Eint (- e) - Eint e)) _ 1); [lra| |].
    + intros e He. rewrite expt_int by lra. unfold ei0 at 2 3. rewrite Rabs_Ropp. unfold ei0. ring.
    + assert (C : continuous (fun e => Eint (- e) - Eint e) 0).
      { apply contB.
        - apply (continuous_comp (fun e => - e) Eint); [apply ex_derive_cont; auto_derive; auto|].
          apply ex_derive_cont. exists (phi (- 0)). apply Eint_derive.
        - apply ex_derive_cont. exists (phi 0). apply Eint_derive. }
      eapply flim_val; [|apply flim_plus; [apply flim_const|apply (flim_cont _ C)]]. change (@eq R (ei0 x - l + (Eint (- 0) - Eint 0)) (ei0 x - l)).
      rewrite Ropp_0. ring.
  - intros n tau Hn Ht. destruct (expn_exists n tau Hn Ht) as [v Hv]. rewrite (is_lim_unique _ _ _ Hv). exact Hv.
Qed.
