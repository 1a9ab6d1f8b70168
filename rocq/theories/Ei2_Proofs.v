(** The integrals over the intermediate direction cosine. *)
From Coq Require Import Reals List Lra Lia Arith Bool Psatz.
From Coquelicot Require Import Coquelicot.
From Verif Require Import Base Sca_Model Sca_Proofs Sca2_Proofs Int_Model Int_Spec Ei_Proofs.
Import ListNotations.
Local Open Scope R_scope.

Notation flim f l := (filterlim f (at_right 0) (locally l)).
Lemma flim_plus (f g : R -> R) (a b : R) : flim f a -> flim g b -> flim (fun x => f x + g x) (a + b).
Proof.
  intros F G. apply (filterlim_comp_2 (F := at_right 0) (G := locally a) (H := locally b) f g Rplus F G). apply (filterlim_plus a b).
Qed.
Lemma flim_opp (f : R -> R) (a : R) : flim f a -> flim (fun x => - f x) (- a).
Proof. intros F. apply (filterlim_comp _ _ _ f Ropp (at_right 0) (locally a)); [exact F|]. apply (filterlim_opp a). Qed.
Lemma flim_minus (f g : R -> R) (a b : R) : flim f a -> flim g b -> flim (fun x => f x - g x) (a - b).
Proof. intros F G. apply flim_plus; [exact F|apply flim_opp, G]. Qed.
Lemma flim_mult (f g : R -> R) (a b : R) : flim f a -> flim g b -> flim (fun x => f x * g x) (a * b).
Proof.
  intros F G. apply (filterlim_comp_2 (F := at_right 0) (G := locally a) (H := locally b) f g Rmult F G). exact (filterlim_mult a b).
Qed.
Lemma flim_const (c : R) : flim (fun _ : R => c) c.
Proof. apply filterlim_const. Qed.
Lemma flim_cont (f : R -> R) : continuous f 0 -> flim f (f 0).
Proof. intros H. eapply filterlim_filter_le_1; [|exact H]. apply filter_le_within. Qed.
Lemma flim_ext (f g : R -> R) d l : 0 < d -> (forall x, 0 < x < d -> f x = g x) -> flim f l -> flim g l.
Proof.
  intros Hd H. apply filterlim_ext_loc. exists (mkposreal d Hd). intros x Hx Hp. apply H.
  unfold ball in Hx; simpl in Hx; unfold AbsRing_ball, abs, minus, plus, opp in Hx; simpl in Hx.
  rewrite Ropp_0, Rplus_0_r in Hx. apply Rabs_def2 in Hx. lra.
Qed.
Lemma flim_val (f : R -> R) a b : a = b -> flim f a -> flim f b.
Proof. intros ->; auto. Qed.

Lemma to_minf c tau : 0 < tau -> filterlim (fun m => c - tau / m) (at_right 0) (Rbar_locally m_infty).
Proof.
  intros Ht P [M HM]. assert (Hd : 0 < tau / (Rabs (c - M) + 1)).
  { apply Rdiv_lt_0_compat; [exact Ht|]. pose proof (Rabs_pos (c - M)). lra. }
  exists (mkposreal _ Hd). intros m Hm Hp. apply HM.
  unfold ball in Hm; simpl in Hm; unfold AbsRing_ball, abs, minus, plus, opp in Hm; simpl in Hm.
  rewrite Ropp_0, Rplus_0_r in Hm. apply Rabs_def2 in Hm. destruct Hm as [Hm _].
  pose proof (Rabs_pos (c - M)) as A. pose proof (Rle_abs (c - M)) as B.
  assert (K : m * (Rabs (c - M) + 1) < tau).
  { apply (Rmult_lt_compat_r (Rabs (c - M) + 1)) in Hm; [|lra]. unfold Rdiv in Hm. rewrite Rmult_assoc, Rinv_l in Hm by lra. lra. }
  assert (Rabs (c - M) + 1 < tau / m); [|lra].
  apply (Rmult_lt_reg_r m); [exact Hp|]. unfold Rdiv. rewrite Rmult_assoc, Rinv_l by lra. lra.
Qed.
Lemma flim_minf (f : R -> R) (l : R) c tau : 0 < tau -> is_lim f m_infty l -> flim (fun m => f (c - tau / m)) l.
Proof. intros Ht Hf. apply (filterlim_comp _ _ _ (fun m => c - tau / m) f _ (Rbar_locally m_infty)); [apply to_minf, Ht|exact Hf]. Qed.
Lemma to_pinf : filterlim (fun m => / m) (at_right 0) (Rbar_locally p_infty).
Proof. exact filterlim_Rinv_0_right. Qed.

Lemma exp_small tau : 0 < tau -> flim (fun m => exp (- tau / m)) 0.
Proof.
  intros Ht. apply (flim_ext (fun m => exp (0 - tau / m)) _ 1); [lra| |apply flim_minf; [exact Ht|apply is_lim_exp_m]].
  intros x Hx. f_equal. unfold Rdiv. ring.
Qed.

Section J.
  Variables (expi : R -> R) (expn : nat -> R -> R).
  Hypothesis Hexpi : is_expi expi.
  Hypothesis Hexpn : is_expn expn.
  Variables mu tau : R.
  Hypothesis Hmu : 0 < mu < 1.
  Hypothesis Htau : 0 < tau.

  Definition K0 (m : R) : R := exp (- tau / mu) * (tau / (mu * m)) * phi (tau / mu - tau / m).

  Lemma exp_split m : m <> 0 -> exp (- tau / m) = exp (- tau / mu) * exp (tau / mu - tau / m).
  Proof. intros Hm. rewrite <- exp_plus. f_equal. field. lra. Qed.
  Lemma K0_eq m : m <> 0 -> K0 m * (mu - m) = exp (- tau / mu) - exp (- tau / m).
  Proof.
    intros Hm. rewrite (exp_split m Hm), (phi_exp (tau / mu - tau / m)). unfold K0. field. split; lra.
  Qed.
  Lemma K0_cont m : 0 < m -> continuous K0 m.
  Proof.
    intros Hm. unfold K0. apply contM.
    - apply ex_derive_cont. auto_derive. nra.
    - apply (continuous_comp (fun m => tau / mu - tau / m) phi); [apply ex_derive_cont; auto_derive; lra|apply phi_cont].
  Qed.

  Definition hlp1R : R :=
    exp (- tau / mu) * ln (mu / (1 - mu)) - expi (- tau) + exp (- tau / mu) * expi (tau / mu - tau).

  Definition G0 (m : R) : R :=
    exp (- tau / mu) * (cE expi + ln tau - ln mu - ln m + Eint (tau / mu - tau / m)) - expi (- tau / m).

  Lemma G0_derive m : 0 < m -> is_derive G0 m (K0 m).
  Proof.
    intros Hm.
    assert (A : is_derive (fun m => Eint (tau / mu - tau / m)) m (tau / m ^ 2 * phi (tau / mu - tau / m))).
    { apply (is_derive_comp Eint (fun m => tau / mu - tau / m) m); [apply Eint_derive|].
      auto_derive; [lra|]. field. lra. }
    assert (B : is_derive (fun m => expi (- tau / m)) m (tau / m ^ 2 * (exp (- tau / m) / (- tau / m)))).
    { apply (is_derive_comp expi (fun m => - tau / m) m).
      - apply (expi_derive_neg expi Hexpi). unfold Rdiv. assert (0 < / m) by (apply Rinv_0_lt_compat, Hm). nra.
      - auto_derive; [lra|]. field. lra. }
    assert (D : is_derive (fun m => cE expi + ln tau - ln mu - ln m) m (- / m)).
    { auto_derive; [lra|]. field. lra. }
    pose proof (is_derive_plus _ _ _ _ _ D A) as S1.
    pose proof (is_derive_scal _ m (exp (- tau / mu)) _ S1) as S2.
    pose proof (is_derive_minus _ _ _ _ _ S2 B) as S3.
    unfold G0. unfold plus, minus, opp, plus in S3; simpl in S3.
    match type of S3 with is_derive _ _ ?v => replace (K0 m) with v end.
    - exact S3.
    - rewrite (exp_split m) by lra. rewrite (phi_exp (tau / mu - tau / m)). unfold K0. field. repeat split; lra.
  Qed.

  Lemma K0_lim : flim K0 (exp (- tau / mu) / mu).
  Proof.
    apply (flim_ext (fun m => (exp (- tau / mu) - exp (- tau / m)) * / (mu - m)) _ mu); [lra| |].
    - intros x Hx. rewrite <- K0_eq by lra. field. lra.
    - eapply flim_val; [|apply flim_mult; [apply flim_minus; [apply flim_const|apply exp_small, Htau]|apply (flim_cont (fun m => / (mu - m)))]].
      + rewrite !Rminus_0_r. reflexivity.
      + apply ex_derive_cont. auto_derive. lra.
  Qed.
  Lemma G0_lim : flim G0 (- exp (- tau / mu) * ln mu).
  Proof.
    apply (flim_ext (fun m => exp (- tau / mu) * (expi (tau / mu - tau / m) - ln (mu - m)) - expi (0 - tau / m)) _ mu); [lra| |].
    - intros m Hm. assert (Hy : tau / mu - tau / m < 0).
      { replace (tau / mu - tau / m) with (- (tau * (mu - m) / (mu * m))) by (field; lra).
        assert (0 < tau * (mu - m) / (mu * m)) by (apply Rdiv_lt_0_compat; nra). lra. }
      rewrite (expi_neg expi Hexpi (tau / mu - tau / m) Hy). unfold G0, ei0.
      rewrite Rabs_left by exact Hy.
      assert (L : ln (- (tau / mu - tau / m)) = ln tau + ln (mu - m) - (ln mu + ln m)).
      { replace (- (tau / mu - tau / m)) with ((tau * (mu - m)) * / (mu * m)) by (field; lra).
        rewrite ln_mult; [|nra|apply Rinv_0_lt_compat; nra]. rewrite ln_Rinv by nra.
        rewrite !ln_mult by lra. ring. }
      rewrite L. replace (0 - tau / m) with (- tau / m) by (field; lra). ring.
    - eapply flim_val; [|apply flim_minus; [apply flim_mult; [apply flim_const|apply flim_minus; [|apply (flim_cont (fun m => ln (mu - m)))]]|]].
      4:{ apply flim_minf; [exact Htau|apply (expi_m_infty expi Hexpi)]. }
      2:{ apply flim_minf; [exact Htau|apply (expi_m_infty expi Hexpi)]. }
      + change (@eq R (exp (- tau / mu) * (0 - ln (mu - 0)) - 0) (- exp (- tau / mu) * ln mu)). rewrite !Rminus_0_r. ring.
      + apply ex_derive_cont. auto_derive. lra.
  Qed.

  Lemma J0 : is_RInt K0 0 1 hlp1R.
  Proof.
    eapply is_RInt_replace; [|apply (int0 K0 G0 (exp (- tau / mu) / mu) (- exp (- tau / mu) * ln mu))].
    - unfold G0, hlp1R. rewrite ln_1. replace (tau / 1) with tau by field. replace (- tau / 1) with (- tau) by field.
      assert (Hy : 0 < tau / mu - tau).
      { replace (tau / mu - tau) with (tau * (1 - mu) / mu) by (field; lra). apply Rdiv_lt_0_compat; nra. }
      rewrite (expi_pos expi Hexpi _ Hy). unfold ei0. rewrite (Rabs_right (tau / mu - tau)) by lra.
      replace (ln (tau / mu - tau)) with (ln tau + ln (1 - mu) - ln mu).
      2:{ replace (tau / mu - tau) with (tau * (1 - mu) * / mu) by (field; lra).
          rewrite ln_mult; [|nra|apply Rinv_0_lt_compat; lra]. rewrite ln_Rinv by lra. rewrite ln_mult by lra. ring. }
      assert (L : ln (mu / (1 - mu)) = ln mu - ln (1 - mu)).
      { unfold Rdiv. rewrite ln_mult; [|lra|apply Rinv_0_lt_compat; lra]. rewrite ln_Rinv by lra. ring. }
      rewrite L. ring.
    - intros x Hx. apply K0_cont. lra.
    - intros x Hx. apply G0_derive. lra.
    - apply K0_lim.
    - apply G0_lim.
  Qed.

  (** E_{k+2} as integral over (0,1] *)
  Definition fE (k : nat) (t : R) : R := exp (- tau * t) / t ^ (k + 2).
  Lemma fE_cont k t : 0 < t -> continuous (fE k) t.
  Proof. intros Ht. apply ex_derive_cont. unfold fE. auto_derive. apply pow_nonzero. lra. Qed.
  Lemma fE_int k a b : 0 < a -> 0 < b -> ex_RInt (fE k) a b.
  Proof.
    intros Ha Hb. apply (ex_RInt_continuous (fE k)). intros z Hz. apply fE_cont. unfold Rmin in Hz. destruct (Rle_dec a b); lra.
  Qed.
  Lemma E_int k : is_RInt (fun m => m ^ k * exp (- tau / m)) 0 1 (expn (k + 2) tau).
  Proof.
    eapply is_RInt_replace; [|apply (int0 _ (fun m => - RInt (fE k) 1 (/ m)) 0 (- expn (k + 2)%nat tau))].
    - rewrite Rinv_1, RInt_point. change zero with 0. ring.
    - intros x Hx. apply ex_derive_cont. auto_derive. lra.
    - intros x Hx.
      assert (D : is_derive (fun m => RInt (fE k) 1 (/ m)) x (- / x ^ 2 * fE k (/ x))).
      { apply (is_derive_comp (fun b => RInt (fE k) 1 b) (fun m => / m) x).
        - apply (is_derive_RInt (fE k) (fun b => RInt (fE k) 1 b) 1 (/ x)).
          + assert (Hi : 0 < / x) by (apply Rinv_0_lt_compat; lra). exists (mkposreal _ Hi). intros z Hz.
            apply (RInt_correct (fE k)). apply fE_int; [lra|].
            unfold ball in Hz; simpl in Hz; unfold AbsRing_ball, abs, minus, plus, opp in Hz; simpl in Hz. apply Rabs_def2 in Hz. lra.
          + apply fE_cont. apply Rinv_0_lt_compat. lra.
        - auto_derive; [lra|]. field. lra. }
      pose proof (is_derive_opp _ _ _ D) as D'. unfold opp in D'; simpl in D'.
      match type of D' with is_derive _ _ ?v => replace (x ^ k * exp (- tau / x)) with v end; [exact D'|].
      unfold fE. rewrite pow_inv. replace (- tau * / x) with (- tau / x) by reflexivity.
      rewrite pow_add. assert (x ^ k <> 0) by (apply pow_nonzero; lra). field. repeat split; try assumption; lra.
    - eapply flim_val; [|apply flim_mult; [apply (flim_cont (fun m => m ^ k))|apply exp_small, Htau]]; [exact (Rmult_0_r _)|].
      apply ex_derive_cont. auto_derive. auto.
    - apply flim_opp. apply (filterlim_comp _ _ _ (fun m => / m) (fun b => RInt (fE k) 1 b) _ (Rbar_locally p_infty)); [apply to_pinf|].
      apply (Hexpn (k + 2)%nat tau); [lia|exact Htau].
  Qed.

  Definition inner_sum (n : nat) : R := fold_right Rplus 0 (map (innerfunc expn mu tau) (seq 1 n)).
  Lemma inner_sum_S n : inner_sum (S n) = inner_sum n + innerfunc expn mu tau (S n).
  Proof.
    unfold inner_sum. rewrite seq_S, map_app. simpl. generalize (map (innerfunc expn mu tau) (seq 1 n)). intros l.
    induction l; simpl; [ring|]. rewrite IHl. ring.
  Qed.

  Lemma pow_int n : is_RInt (fun m => m ^ n) 0 1 (/ INR (S n)).
  Proof. apply moment_0. Qed.

  Lemma J n : is_RInt (fun m => m ^ n * K0 m) 0 1 (mu ^ n * (hlp1R + inner_sum n)).
  Proof.
    induction n as [|n IH].
    - eapply is_RInt_extR; [lra| |eapply is_RInt_replace; [|apply J0]].
      + intros x _. simpl. ring.
      + unfold inner_sum; simpl. ring.
    - eapply is_RInt_extR; [lra| |eapply is_RInt_replace; [|apply is_RInt_plusR; [apply is_RInt_minusR;
        [apply is_RInt_scalR with (c := mu); exact IH|apply is_RInt_scalR with (c := exp (- tau / mu)); apply (pow_int n)]|apply (E_int n)]]].
      + intros x Hx. cbv beta. pose proof (K0_eq x ltac:(lra)) as K.
        replace (exp (- tau / x)) with (exp (- tau / mu) - K0 x * (mu - x)) by lra. simpl. ring.
      + rewrite inner_sum_S. unfold innerfunc. replace (S n + 1)%nat with (n + 2)%nat by lia.
        assert (0 < INR (S n)) by (apply lt_0_INR; lia). assert (mu ^ n <> 0) by (apply pow_nonzero; lra).
        simpl pow. field. repeat split; try assumption; lra.
  Qed.

  (** the integrand of F_int, written with the removable singularities *)
  Lemma F_terms (fn : list R) (s : nat) :
    is_RInt (fun m => m ^ s * K0 m * poly_at fn m) 0 1
      (fold_right Rplus 0 (map (fun q => snd q * (mu ^ fst q * (hlp1R + inner_sum (fst q)))) (combine (seq s (length fn)) fn))).
  Proof.
    revert s. induction fn as [|c fn IH]; intros s.
    - eapply is_RInt_extR; [lra| |eapply is_RInt_replace; [|apply (is_RInt_constR 0 1 0)]]; [intros; simpl; ring|simpl; ring].
    - eapply is_RInt_extR; [lra| |eapply is_RInt_replace; [|apply is_RInt_plusR; [apply is_RInt_scalR with (c := c); apply (J s)|apply (IH (S s))]]].
      + intros x _. simpl. ring.
      + simpl. ring.
  Qed.

  Lemma F_int_sum (fn : list R) (g : R -> R) : (forall m, 0 < m < 1 -> g m = poly_at fn m) ->
    is_F_int tau mu g
      (fold_right Rplus 0 (map (fun q => snd q * (mu ^ S (fst q) * (hlp1R + inner_sum (S (fst q))))) (combine (seq 0 (length fn)) fn))).
  Proof.
    intros Hg. unfold is_F_int.
    assert (T : fold_right Rplus 0 (map (fun q => snd q * (mu ^ S (fst q) * (hlp1R + inner_sum (S (fst q))))) (combine (seq 0 (length fn)) fn))
      = fold_right Rplus 0 (map (fun q => snd q * (mu ^ fst q * (hlp1R + inner_sum (fst q)))) (combine (seq 1 (length fn)) fn))).
    { rewrite <- seq_shift. generalize (seq 0 (length fn)). clear. intros l. revert l. induction fn as [|c fn IH]; intros [|a l]; try reflexivity.
      cbn [map combine fold_right fst snd]. rewrite IH. reflexivity. }
    rewrite T. pose proof (F_terms fn 1) as FT. match type of FT with is_RInt _ _ _ ?w => set (v := w) in * end. clearbody v. clear T.
    set (F := fun m => m ^ 1 * K0 m * poly_at fn m) in *.
    set (H := fun m => m / (mu - m) * (exp (- tau / mu) - exp (- tau / m)) * g m).
    assert (E : forall m, 0 < m < 1 -> m <> mu -> F m = H m).
    { intros m Hm Hn. unfold F, H. rewrite <- K0_eq by lra. rewrite Hg by exact Hm. field. lra. }
    assert (X1 : ex_RInt F 0 mu). { apply (ex_RInt_Chasles_1 F 0 mu 1); [lra|]. exists v. exact FT. }
    assert (X2 : ex_RInt F mu 1). { apply (ex_RInt_Chasles_2 F 0 mu 1); [lra|]. exists v. exact FT. }
    destruct X1 as [v1 X1], X2 as [v2 X2].
    pose proof (is_RInt_Chasles F 0 mu 1 v1 v2 X1 X2) as X. pose proof (is_RInt_unique F 0 1 v FT) as U1.
    pose proof (is_RInt_unique F 0 1 _ X) as U2. assert (Ev : v = plus v1 v2) by congruence. rewrite Ev.
    apply (is_RInt_Chasles H 0 mu 1).
    - eapply is_RInt_extR; [lra| |exact X1]. intros x Hx. apply E; lra.
    - eapply is_RInt_extR; [lra| |exact X2]. intros x Hx. apply E; lra.
  Qed.
End J.
