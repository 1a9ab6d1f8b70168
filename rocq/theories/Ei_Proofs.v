(** Analysis of the exponential integrals behind the interaction term. *)
From Coq Require Import Reals List Lra Lia Arith Bool Psatz.
From Coquelicot Require Import Coquelicot.
From Verif Require Import Base Sca_Model Sca_Proofs Sca2_Proofs Int_Model Int_Spec.
Import ListNotations.
Local Open Scope R_scope.

(** (e^y - 1)/y *)
Definition phi (y : R) : R := if Req_EM_T y 0 then 1 else (exp y - 1) / y.

Lemma phi_exp y : exp y = 1 + y * phi y.
Proof. unfold phi. destruct (Req_EM_T y 0) as [->|H]; [rewrite exp_0; ring|field; exact H]. Qed.

Lemma contExt (f g : R -> R) x : locally x (fun y => f y = g y) -> continuous f x -> continuous g x.
Proof.
  intros H C. apply (continuous_ext_loc g f x).
  - revert H. apply filter_imp. auto.
  - exact C.
Qed.

Lemma phi_cont y : continuous phi y.
Proof.
  destruct (Req_EM_T y 0) as [->|H].
  - assert (L : is_lim phi 0 1).
    { apply (is_lim_ext_loc (fun y => (exp y - 1) / y)); [|apply is_lim_div_expm1_0].
      exists (mkposreal 1 Rlt_0_1). intros z _ Hz. unfold phi. destruct (Req_EM_T z 0); [contradiction|reflexivity]. }
    unfold continuous. replace (phi 0) with 1 by (unfold phi; destruct (Req_EM_T 0 0); congruence).
    apply is_lim_spec in L. intros P [eps HP]. destruct (L eps) as [d Hd]. exists d. intros z Hz.
    destruct (Req_EM_T z 0) as [->|Hz0].
    + apply HP. unfold phi. destruct (Req_EM_T 0 0); [|congruence]. apply ball_center.
    + apply HP. apply Hd; assumption.
  - apply (contExt (fun y => (exp y - 1) / y)).
    + assert (Hp : 0 < Rabs y) by (apply Rabs_pos_lt, H). exists (mkposreal _ Hp). intros z Hz.
      unfold phi. destruct (Req_EM_T z 0) as [->|]; [|reflexivity]. exfalso.
      unfold ball in Hz; simpl in Hz; unfold AbsRing_ball, abs, minus, plus, opp in Hz; simpl in Hz.
      rewrite Rplus_0_l, Rabs_Ropp in Hz. lra.
    + apply ex_derive_cont. auto_derive. exact H.
Qed.

Definition Eint (y : R) : R := RInt phi 0 y.
Lemma phi_int a b : ex_RInt phi a b.
Proof. apply (ex_RInt_continuous phi). intros; apply phi_cont. Qed.
Lemma Eint_derive y : is_derive Eint y (phi y).
Proof.
  unfold Eint. apply (is_derive_RInt phi (fun y => RInt phi 0 y) 0 y).
  - apply filter_forall. intros z. apply (RInt_correct phi). apply phi_int.
  - apply phi_cont.
Qed.

Lemma RInt_FTC (f F : R -> R) a b :
  (forall x, Rmin a b <= x <= Rmax a b -> is_derive F x (f x)) -> (forall x, Rmin a b <= x <= Rmax a b -> continuous f x) ->
  RInt f a b = F b - F a.
Proof. intros HD HC. apply is_RInt_unique. apply (is_RInt_derive F f); assumption. Qed.

Definition ei0 (x : R) : R := ln (Rabs x) + Eint x.
Lemma ei0_derive x : x <> 0 -> is_derive ei0 x (exp x / x).
Proof.
  intros Hx. replace (exp x / x) with (/ x + phi x) by (rewrite (phi_exp x); field; exact Hx).
  unfold ei0. apply (is_derive_plus (fun x => ln (Rabs x)) Eint x (/ x) (phi x)); [|apply Eint_derive].
  destruct (Rlt_dec 0 x) as [Hp|Hp].
  - apply (is_derive_ext_loc ln).
    + exists (mkposreal x Hp). intros z Hz. unfold ball in Hz; simpl in Hz; unfold AbsRing_ball, abs, minus, plus, opp in Hz; simpl in Hz.
      apply Rabs_def2 in Hz. rewrite Rabs_right by lra. reflexivity.
    + auto_derive; [exact Hp|]. field. lra.
  - assert (Hn : 0 < - x) by lra. apply (is_derive_ext_loc (fun z => ln (- z))).
    + exists (mkposreal (- x) Hn). intros z Hz. unfold ball in Hz; simpl in Hz; unfold AbsRing_ball, abs, minus, plus, opp in Hz; simpl in Hz.
      apply Rabs_def2 in Hz. rewrite Rabs_left by lra. reflexivity.
    + auto_derive; [exact Hn|]. field. lra.
Qed.
Lemma expt_cont x : x <> 0 -> continuous (fun t => exp t / t) x.
Proof. intros Hx. apply ex_derive_cont. auto_derive. exact Hx. Qed.

Lemma expt_int a b : (a < 0 /\ b < 0) \/ (0 < a /\ 0 < b) -> RInt (fun t => exp t / t) a b = ei0 b - ei0 a.
Proof.
  intros H. apply RInt_FTC; intros x Hx.
  - apply ei0_derive. unfold Rmin, Rmax in Hx. destruct (Rle_dec a b); lra.
  - apply expt_cont. unfold Rmin, Rmax in Hx. destruct (Rle_dec a b); lra.
Qed.

Section Expi.
  Variable expi : R -> R.
  Hypothesis Hexpi : is_expi expi.

  Lemma expi_neg_diff a b : a < 0 -> b < 0 -> expi b - expi a = ei0 b - ei0 a.
  Proof.
    intros Ha Hb. destruct Hexpi as [H _]. pose proof (H a Ha) as La. pose proof (H b Hb) as Lb.
    assert (L : is_lim (fun t => ei0 b - ei0 a) m_infty (expi b - expi a)).
    { apply (is_lim_ext_loc (fun t => RInt (fun t => exp t / t) t b - RInt (fun t => exp t / t) t a)).
      - exists 0. intros t Ht. rewrite !expt_int by (left; lra). ring.
      - apply is_lim_minus'; assumption. }
    apply is_lim_unique in L. rewrite Lim_const in L. congruence.
  Qed.

  Definition cE : R := expi (-1) - ei0 (-1).
  Lemma expi_neg x : x < 0 -> expi x = cE + ei0 x.
  Proof. intros Hx. pose proof (expi_neg_diff (-1) x ltac:(lra) Hx). unfold cE. lra. Qed.

  Lemma expi_m_infty : is_lim expi m_infty 0.
  Proof.
    destruct Hexpi as [H _]. pose proof (H (-1) ltac:(lra)) as L.
    apply (is_lim_ext_loc (fun a => expi (-1) - RInt (fun t => exp t / t) a (-1))).
    - exists 0. intros a Ha. rewrite expt_int by lra. pose proof (expi_neg_diff a (-1) Ha ltac:(lra)). lra.
    - replace (Finite 0) with (Finite (expi (-1) - expi (-1))) by (f_equal; ring).
      apply is_lim_minus'; [apply is_lim_const|exact L].
  Qed.

  Lemma expi_pos x : 0 < x -> expi x = cE + ei0 x.
  Proof.
    intros Hx. destruct Hexpi as [_ H]. specialize (H x Hx).
    assert (L : filterlim (fun e => expi (- e) + RInt (fun t => exp t / t) e x) (at_right 0) (locally (cE + ei0 x))).
    { apply (filterlim_ext_loc (fun e => cE + ei0 x + (Eint (- e) - Eint e))).
      - exists (mkposreal 1 Rlt_0_1). intros e _ He. rewrite expi_neg by lra. rewrite expt_int by lra.
        unfold ei0 at 2 3. rewrite Rabs_Ropp. unfold ei0. ring.
      - assert (C : continuous (fun e => cE + ei0 x + (Eint (- e) - Eint e)) 0).
        { apply contP; [apply contC|]. apply contB.
          - apply (continuous_comp (fun e => - e) Eint); [apply ex_derive_cont; auto_derive; auto|].
            apply ex_derive_cont. exists (phi (- 0)). apply Eint_derive.
          - apply ex_derive_cont. exists (phi 0). apply Eint_derive. }
        unfold continuous in C. replace (cE + ei0 x + (Eint (- 0) - Eint 0)) with (cE + ei0 x) in C by (rewrite Ropp_0; ring).
        eapply filterlim_filter_le_1; [|exact C]. apply filter_le_within. }
    exact (filterlim_locally_unique (V := R_NormedModule) (F := at_right 0) _ _ _ H L).
  Qed.

  Lemma expi_derive_neg x : x < 0 -> is_derive expi x (exp x / x).
  Proof.
    intros Hx. apply (is_derive_ext_loc (fun z => cE + ei0 z)).
    - assert (Hn : 0 < - x) by lra. exists (mkposreal (- x) Hn). intros z Hz.
      unfold ball in Hz; simpl in Hz; unfold AbsRing_ball, abs, minus, plus, opp in Hz; simpl in Hz.
      apply Rabs_def2 in Hz. rewrite expi_neg by lra. reflexivity.
    - replace (exp x / x) with (0 + exp x / x) by ring.
      apply (is_derive_plus (fun _ => cE) ei0 x 0 (exp x / x)); [exact (is_derive_const (V := R_NormedModule) cE x)|apply ei0_derive; lra].
  Qed.
End Expi.

(** integral over (0,1] by an antiderivative with limit at 0 *)
Lemma int0 (f G : R -> R) (l0 L : R) :
  (forall x, 0 < x <= 1 -> continuous f x) ->
  (forall x, 0 < x <= 1 -> is_derive G x (f x)) ->
  filterlim f (at_right 0) (locally l0) -> filterlim G (at_right 0) (locally L) ->
  is_RInt f 0 1 (G 1 - L).
Proof.
  intros Hc Hd Hf HG.
  set (f' := fun x => if Rle_dec x 0 then l0 else if Rle_dec x 1 then f x else f 1).
  assert (C : forall x, continuous f' x).
  { intros x. destruct (Rlt_dec x 0) as [Hx|Hx].
    - apply (contExt (fun _ => l0)); [|apply contC]. assert (Hn : 0 < - x) by lra. exists (mkposreal _ Hn). intros z Hz.
      unfold ball in Hz; simpl in Hz; unfold AbsRing_ball, abs, minus, plus, opp in Hz; simpl in Hz. apply Rabs_def2 in Hz.
      unfold f'. destruct (Rle_dec z 0); [reflexivity|lra].
    - destruct (Req_EM_T x 0) as [->|Hx0].
      + unfold continuous. replace (f' 0) with l0 by (unfold f'; destruct (Rle_dec 0 0); [reflexivity|lra]).
        intros P HP. destruct (Hf P HP) as [d Hd']. destruct HP as [eps HP].
        exists (mkposreal (Rmin d 1) (Rmin_pos _ _ (cond_pos d) Rlt_0_1)). intros z Hz. simpl in Hz.
        assert (Hz1 : Rabs z < d /\ Rabs z < 1).
        { unfold ball in Hz; simpl in Hz; unfold AbsRing_ball, abs, minus, plus, opp in Hz; simpl in Hz. rewrite Ropp_0, Rplus_0_r in Hz.
          split; eapply Rlt_le_trans; [exact Hz|apply Rmin_l|exact Hz|apply Rmin_r]. }
        unfold f'. destruct (Rle_dec z 0); [apply HP, ball_center|]. destruct Hz1 as [Z1 Z2]. apply Rabs_def2 in Z2.
        destruct (Rle_dec z 1); [|lra]. apply Hd'; [|lra].
        unfold ball; simpl; unfold AbsRing_ball, abs, minus, plus, opp; simpl. rewrite Ropp_0, Rplus_0_r. exact Z1.
      + destruct (Rlt_dec x 1) as [Hx1|Hx1].
        * apply (contExt f); [|apply Hc; lra]. assert (Hm : 0 < Rmin x (1 - x)) by (apply Rmin_pos; lra).
          exists (mkposreal _ Hm). intros z Hz.
          assert (Hz' : Rabs (z - x) < x /\ Rabs (z - x) < 1 - x).
          { unfold ball in Hz; simpl in Hz; unfold AbsRing_ball, abs, minus, plus, opp in Hz; simpl in Hz.
            split; eapply Rlt_le_trans; [exact Hz|apply Rmin_l|exact Hz|apply Rmin_r]. }
          destruct Hz' as [Z1 Z2]. apply Rabs_def2 in Z1. apply Rabs_def2 in Z2. unfold f'.
          destruct (Rle_dec z 0); [lra|]. destruct (Rle_dec z 1); [reflexivity|lra].
        * destruct (Req_EM_T x 1) as [->|Hn1].
          { pose proof (Hc 1 ltac:(lra)) as K. unfold continuous in *. replace (f' 1) with (f 1).
            2:{ unfold f'. destruct (Rle_dec 1 0); [lra|]. destruct (Rle_dec 1 1); [reflexivity|lra]. }
            intros P HP. destruct (K P HP) as [d Hd']. exists (mkposreal (Rmin d 1) (Rmin_pos _ _ (cond_pos d) Rlt_0_1)). intros z Hz. simpl in Hz.
            assert (Hz1 : Rabs (z - 1) < d /\ Rabs (z - 1) < 1).
            { unfold ball in Hz; simpl in Hz; unfold AbsRing_ball, abs, minus, plus, opp in Hz; simpl in Hz.
              split; eapply Rlt_le_trans; [exact Hz|apply Rmin_l|exact Hz|apply Rmin_r]. }
            destruct Hz1 as [Z1 Z2]. apply Rabs_def2 in Z2. unfold f'. destruct (Rle_dec z 0); [lra|].
            destruct (Rle_dec z 1); [apply Hd'; exact Z1|]. destruct HP as [eps HP]. apply HP, ball_center. }
          apply (contExt (fun _ => f 1)); [|apply contC]. assert (Hm : 0 < x - 1) by lra. exists (mkposreal _ Hm). intros z Hz.
          unfold ball in Hz; simpl in Hz; unfold AbsRing_ball, abs, minus, plus, opp in Hz; simpl in Hz. apply Rabs_def2 in Hz.
          unfold f'. destruct (Rle_dec z 0); [lra|]. destruct (Rle_dec z 1); [lra|reflexivity]. }
  assert (EX : forall a b, ex_RInt f' a b) by (intros a b; apply (ex_RInt_continuous f'); intros; apply C).
  apply (is_RInt_extR f' f); [lra| |].
  { intros x Hx. unfold f'. destruct (Rle_dec x 0); [lra|]. destruct (Rle_dec x 1); [reflexivity|lra]. }
  assert (E : RInt f' 0 1 = G 1 - L).
  2:{ rewrite <- E. apply (RInt_correct f'), EX. }
  assert (L1 : filterlim (fun e => RInt f' e 1) (at_right 0) (locally (RInt f' 0 1))).
  { assert (K : continuous (fun e => RInt f' e 1) 0).
    { apply ex_derive_cont. exists (opp (f' 0)). apply (is_derive_RInt' f' (fun e => RInt f' e 1) 0 1).
      - apply filter_forall. intros z. apply (RInt_correct f'), EX.
      - apply C. }
    eapply filterlim_filter_le_1; [|exact K]. apply filter_le_within. }
  assert (L2 : filterlim (fun e => RInt f' e 1) (at_right 0) (locally (G 1 - L))).
  { apply (filterlim_ext_loc (fun e => G 1 - G e)).
    - exists (mkposreal 1 Rlt_0_1). intros e He1 He. symmetry.
      unfold ball in He1; simpl in He1; unfold AbsRing_ball, abs, minus, plus, opp in He1; simpl in He1.
      rewrite Ropp_0, Rplus_0_r in He1. apply Rabs_def2 in He1.
      rewrite (RInt_ext f' f).
      + apply RInt_FTC; intros x Hx; rewrite Rmin_left, Rmax_right in Hx by lra; [apply Hd|apply Hc]; lra.
      + intros x Hx. rewrite Rmin_left, Rmax_right in Hx by lra. unfold f'.
        destruct (Rle_dec x 0); [lra|]. destruct (Rle_dec x 1); [reflexivity|lra].
    - apply (filterlim_comp_2 (F := at_right 0) (G := locally (G 1)) (H := locally (- L)) (fun _ => G 1) (fun e => - G e) Rplus).
      + apply filterlim_const.
      + apply (filterlim_comp _ _ _ G Ropp (at_right 0) (locally L)); [exact HG|]. apply (filterlim_opp L).
      + apply (filterlim_plus (G 1) (- L)). }
  exact (filterlim_locally_unique (V := R_NormedModule) (F := at_right 0) _ _ _ L1 L2).
Qed.
