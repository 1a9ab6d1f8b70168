(** From the fn-coefficients and the exponential integrals to the value of the interaction term. *)
From Coq Require Import Reals List Lra Lia Arith Bool Psatz.
From Coquelicot Require Import Coquelicot.
From Verif Require Import Base Base_Proofs Sca_Model Sca_Spec Sca_Proofs Sca2_Proofs Int_Model Int_Spec Int_Proofs Ei_Proofs Ei2_Proofs.
Import ListNotations.
Local Open Scope R_scope.

Lemma horner_shift fn x s :
  fold_right Rplus 0 (map (fun q => snd q * x ^ fst q) (combine (seq s (length fn)) fn)) = x ^ s * poly_at fn x.
Proof.
  revert s. induction fn as [|c fn IH]; intros s; [simpl; ring|].
  cbn [length seq combine map fold_right fst snd poly_at]. rewrite IH. simpl. ring.
Qed.
Lemma horner_poly fn x : horner fn x = poly_at fn x.
Proof. unfold horner. rewrite horner_shift. simpl. ring. Qed.

Lemma fold_nadd l : forall a, fold_left nadd (map Fin l) (Fin a) = Fin (fold_left Rplus l a).
Proof. induction l; intros; simpl; [reflexivity|apply IHl]. Qed.
Lemma fold_left_right l : forall a, fold_left Rplus l a = a + fold_right Rplus 0 l.
Proof. induction l; intros; simpl; [ring|]. rewrite IHl. ring. Qed.

Lemma hlp1_fin expi mu tau : 0 < mu < 1 -> 0 < tau -> hlp1 expi mu tau = Fin (hlp1R expi mu tau).
Proof.
  intros Hmu Ht. assert (0 < tau / mu - tau).
  { replace (tau / mu - tau) with (tau * (1 - mu) / mu) by (field; lra). apply Rdiv_lt_0_compat; nra. }
  assert (0 < mu / (1 - mu)) by (apply Rdiv_lt_0_compat; lra).
  unfold hlp1, nexpi, ndiv. destruct (Req_EM_T (1 - mu) 0); [lra|]. destruct (Req_EM_T (- tau) 0); [lra|].
  destruct (Req_EM_T (tau / mu - tau) 0); [lra|]. simpl. destruct (Rlt_dec 0 (mu / (1 - mu))); [|lra].
  simpl. f_equal.
Qed.

Lemma multip_fin expi expn mu tau nmax : 0 < mu < 1 -> 0 < tau ->
  map (fun q => nscale (fst q) (snd q)) (combine (mu_x nmax mu) (S2_mu expi expn nmax mu tau)) =
  map (fun n => Fin (mu ^ S n * (hlp1R expi mu tau + inner_sum expn mu tau (S n)))) (seq 0 nmax).
Proof.
  intros Hmu Ht. unfold mu_x, S2_mu. rewrite hlp1_fin by assumption. generalize (seq 0 nmax). intros l.
  induction l as [|n l IH]; [reflexivity|]. cbn [map combine]. rewrite IH. f_equal.
  cbn [fst snd nadd nscale]. f_equal. rewrite Nat.add_1_r, fold_left_right. unfold inner_sum. ring.
Qed.

Lemma combine_nscale fn (h : nat -> R) s :
  map (fun q => nscale (fst q) (snd q)) (combine fn (map (fun n => Fin (h n)) (seq s (length fn)))) =
  map Fin (map (fun q => snd q * h (fst q)) (combine (seq s (length fn)) fn)).
Proof.
  revert s. induction fn as [|c fn IH]; intros s; [reflexivity|]. cbn [length seq map combine fst snd nscale]. rewrite IH. reflexivity.
Qed.

Lemma calc_Fint_value expi expn V S g tau t1 p1 t2 p2 :
  is_expi expi -> is_expn expn -> bounded_obj V -> bounded_obj S -> 0 < tau -> 0 < cos t1 < 1 ->
  let '(a, b, c, d) := seen g t1 p1 t2 p2 in
  exists F, calc_Fint expi expn V S g tau t1 p1 t2 p2 = Ok (Fin F) /\
    is_F_int tau (cos t1)
      (fun m => azimuth_product (V_value V a b) (fun ths phs => S_value S ths phs c d) (acos m)) F.
Proof.
  intros He Hn HV HS Ht Hmu. pose proof (fun ths => fn_sum V S g t1 p1 t2 p2 ths HV HS) as FS.
  destruct (seen g t1 p1 t2 p2) as [[[a b] c] d].
  destruct (FS 0) as [fn [E [L [_ Z]]]].
  exists (fold_right Rplus 0 (map (fun q => snd q * (cos t1 ^ Datatypes.S (fst q) * (hlp1R expi (cos t1) tau + inner_sum expn (cos t1) tau (Datatypes.S (fst q))))) (combine (seq 0 (length fn)) fn))).
  split.
  - unfold calc_Fint. rewrite E. cbn [bind]. rewrite multip_fin by assumption.
    assert (HN : (1 <= N_fn V S)%nat) by (destruct HV, HS; unfold N_fn; lia).
    replace (ncoefs V + ncoefs S - 1)%nat with (N_fn V S) by (unfold N_fn; lia).
    set (h := fun n => cos t1 ^ Datatypes.S n * (hlp1R expi (cos t1) tau + inner_sum expn (cos t1) tau (Datatypes.S n))).
    change (map (fun q => snd q * (cos t1 ^ Datatypes.S (fst q) * (hlp1R expi (cos t1) tau + inner_sum expn (cos t1) tau (Datatypes.S (fst q))))) (combine (seq 0 (length fn)) fn))
      with (map (fun q => snd q * h (fst q)) (combine (seq 0 (length fn)) fn)).
    change (map (fun n => Fin (cos t1 ^ Datatypes.S n * (hlp1R expi (cos t1) tau + inner_sum expn (cos t1) tau (Datatypes.S n)))) (seq 0 (N_fn V S)))
      with (map (fun n => Fin (h n)) (seq 0 (N_fn V S))).
    clearbody h. unfold bcast. rewrite map_length, seq_length.
    destruct (Nat.eq_dec (N_fn V S) 1) as [N1|N1].
    + specialize (Z N1). rewrite N1 in *. rewrite L. cbn [Nat.max Nat.eqb].
      destruct fn as [|f0 [|f1 [|? ?]]]; try discriminate L. simpl in Z. subst f1. cbn [seq map length combine fold_right fst snd bind fold_left nscale nadd].
      f_equal. f_equal. ring.
    + assert (L' : length fn = N_fn V S) by lia. rewrite <- L', Nat.eqb_refl. cbn [bind].
      rewrite combine_nscale, fold_nadd, fold_left_right. f_equal. f_equal. ring.
  - apply F_int_sum; try assumption. intros m Hm. unfold azimuth_product. destruct (FS (acos m)) as [fn' [E' [_ [I _]]]].
    assert (fn' = fn) by congruence. subst fn'. rewrite cos_acos in I by lra. rewrite horner_poly in I.
    apply is_RInt_unique. exact I.
Qed.

Lemma interaction_value expi expn V S g I0 omega tau NormBRDF bsf t_0 p_0 t_ex p_ex :
  is_expi expi -> is_expn expn -> bounded_obj V -> bounded_obj S -> 0 < tau -> 0 < cos t_0 < 1 -> 0 < cos t_ex < 1 ->
  let '(a, b, c, d) := seen g t_0 p_0 t_ex p_ex in
  let '(a', b', c', d') := seen g t_ex p_ex t_0 p_0 in
  exists F1 F2,
    is_F_int tau (cos t_0) (fun m => azimuth_product (V_value V a b) (fun ths phs => S_value S ths phs c d) (acos m)) F1 /\
    is_F_int tau (cos t_ex) (fun m => azimuth_product (V_value V a' b') (fun ths phs => S_value S ths phs c' d') (acos m)) F2 /\
    interaction expi expn V S g I0 omega tau NormBRDF bsf t_0 p_0 t_ex p_ex =
      Ok (Fin (NormBRDF * (1 - bsf) * (I0 * cos t_0 * omega * (exp (- tau / cos t_ex) * F1 + exp (- tau / cos t_0) * F2)))).
Proof.
  intros He Hn HV HS Ht H0 H1.
  pose proof (calc_Fint_value expi expn V S g tau t_0 p_0 t_ex p_ex He Hn HV HS Ht H0) as A.
  pose proof (calc_Fint_value expi expn V S g tau t_ex p_ex t_0 p_0 He Hn HV HS Ht H1) as B.
  destruct (seen g t_0 p_0 t_ex p_ex) as [[[a b] c] d]. destruct (seen g t_ex p_ex t_0 p_0) as [[[a' b'] c'] d'].
  destruct A as [F1 [A1 A2]], B as [F2 [B1 B2]]. exists F1, F2. split; [exact A2|]. split; [exact B2|].
  unfold interaction. rewrite A1. cbn [bind]. rewrite B1. cbn [bind nscale nadd]. f_equal. f_equal. ring.
Qed.

Lemma expr_ev p th ph : expr_at p th ph = ev p th ph.
Proof. unfold expr_at, ev. f_equal. apply map_ext. intros m. unfold mono_at, mev. ring. Qed.

(** ** linear combinations *)
Lemma comb_S_value cs ts ps tx px : S_value (comb_obj cs default_a_S) ts ps tx px = comb_legexpansion_S cs ts ps tx px.
Proof. unfold S_value, comb_obj, comb_legexpansion_S, comb_leg. simpl. rewrite map_map. reflexivity. Qed.
Lemma comb_V_value cs t0 p0 ts ps : V_value (comb_obj cs default_a_V) t0 p0 ts ps = comb_legexpansion_V cs t0 p0 ts ps.
Proof. unfold V_value, comb_obj, comb_legexpansion_V, comb_leg. simpl. rewrite map_map. reflexivity. Qed.
Lemma max_ncoefs_in c cs : In c cs -> (ch_ncoefs c <= max_ncoefs cs)%nat.
Proof. induction cs; intros H; [contradiction|]. simpl in *. destruct H as [->|H]; [lia|]. specialize (IHcs H). lia. Qed.
Lemma max_ncoefs_incl g cs : (forall c, In c g -> In c cs) -> (max_ncoefs g <= max_ncoefs cs)%nat.
Proof.
  induction g as [|c g IH]; intros H; simpl; [lia|]. pose proof (max_ncoefs_in c cs (H c (or_introl eq_refl))).
  specialize (IH (fun d Hd => H d (or_intror Hd))). lia.
Qed.
Lemma comb_bounded cs d : Exists (fun c => (1 <= ch_ncoefs c)%nat) cs -> bounded_obj (comb_obj cs d).
Proof.
  intros H. split.
  - simpl. apply Exists_exists in H. destruct H as [c [Hc H]]. pose proof (max_ncoefs_in c cs Hc). lia.
  - simpl. apply Forall_map. apply Forall_forall. intros idx _. simpl. apply max_ncoefs_incl. intros c Hc.
    unfold take_choices in Hc. apply in_flat_map in Hc. destruct Hc as [i [_ Hc]].
    destruct (nth_error cs i) eqn:E; [|contradiction]. destruct Hc as [->|[]]. eapply nth_error_In, E.
Qed.
Lemma plain_bounded n coefs a : (1 <= n)%nat -> bounded_obj (plain_obj n coefs a).
Proof. intros H. split; [exact H|]. repeat constructor. Qed.

(** the azimuth integral of the product always exists *)
Lemma product_int V S a b c d ths : bounded_obj V -> bounded_obj S ->
  is_RInt (fun phs => V_value V a b ths phs * S_value S ths phs c d) 0 (2 * PI)
    (azimuth_product (V_value V a b) (fun ts ps => S_value S ts ps c d) ths).
Proof.
  intros HV HS. destruct (expansion_ok V S a b c d ths 0 HV HS) as [I _]. unfold azimuth_product.
  rewrite (is_RInt_unique _ _ _ _ I). exact I.
Qed.

Lemma F_int_ext tau mu g h l : (forall m, 0 < m < 1 -> g m = h m) -> is_F_int tau mu g l -> is_F_int tau mu h l.
Proof. intros H I. unfold is_F_int in *. eapply is_RInt_extR; [lra| |exact I]. intros x Hx. cbv beta. rewrite H by exact Hx. reflexivity. Qed.
Lemma F_int_unique tau mu g l l' : is_F_int tau mu g l -> is_F_int tau mu g l' -> l = l'.
Proof. unfold is_F_int. intros A B. rewrite <- (is_RInt_unique _ _ _ _ A). exact (is_RInt_unique _ _ _ _ B). Qed.
Lemma F_int_plus tau mu g h l l' : is_F_int tau mu g l -> is_F_int tau mu h l' -> is_F_int tau mu (fun m => g m + h m) (l + l').
Proof.
  unfold is_F_int. intros A B. eapply is_RInt_extR; [lra| |apply is_RInt_plusR; [exact A|exact B]]. intros x _. cbv beta. ring.
Qed.
Lemma F_int_scal tau mu c g l : is_F_int tau mu g l -> is_F_int tau mu (fun m => c * g m) (c * l).
Proof. unfold is_F_int. intros A. eapply is_RInt_extR; [lra| |apply is_RInt_scalR with (c := c); exact A]. intros x _. cbv beta. ring. Qed.
Lemma F_int_zero tau mu : is_F_int tau mu (fun _ => 0) 0.
Proof.
  unfold is_F_int. eapply is_RInt_extR; [lra| |eapply is_RInt_replace; [|apply (is_RInt_constR 0 1 0)]]; [intros; cbv beta; ring|ring].
Qed.

(** the kernel is nonnegative *)
Lemma kernel_nonneg tau mu m : 0 <= tau -> 0 < mu -> 0 < m -> 0 <= m / (mu - m) * (exp (- tau / mu) - exp (- tau / m)).
Proof.
  intros Ht Hmu Hm. destruct (Rtotal_order m mu) as [L|[E|L]].
  - assert (- tau / m <= - tau / mu).
    { unfold Rdiv. assert (/ mu <= / m) by (apply Rinv_le_contravar; lra). nra. }
    assert (exp (- tau / m) <= exp (- tau / mu)) by (destruct H as [H|H]; [left; apply exp_increasing, H|rewrite H; right; reflexivity]).
    assert (0 < m / (mu - m)) by (apply Rdiv_lt_0_compat; lra). nra.
  - subst. replace (exp (- tau / mu) - exp (- tau / mu)) with 0 by ring. lra.
  - assert (- tau / mu <= - tau / m).
    { unfold Rdiv. assert (/ m <= / mu) by (apply Rinv_le_contravar; lra). nra. }
    assert (exp (- tau / mu) <= exp (- tau / m)) by (destruct H as [H|H]; [left; apply exp_increasing, H|rewrite H; right; reflexivity]).
    assert (m / (mu - m) < 0).
    { replace (m / (mu - m)) with (- (m / (m - mu))) by (field; lra). assert (0 < m / (m - mu)) by (apply Rdiv_lt_0_compat; lra). lra. }
    nra.
Qed.
Lemma F_int_nonneg tau mu g l : 0 <= tau -> 0 < mu -> (forall m, 0 < m < 1 -> 0 <= g m) -> is_F_int tau mu g l -> 0 <= l.
Proof.
  intros Ht Hmu Hg I. unfold is_F_int in I. pose proof (is_RInt_unique _ _ _ _ I) as <-.
  apply RInt_ge_0; [lra|eexists; exact I|]. intros m Hm. apply Rmult_le_pos; [apply kernel_nonneg; lra|apply Hg, Hm].
Qed.

(** ** azimuth: reflections and shifts *)
Section Periodic.
  Variable f : R -> R.
  Hypothesis Hc : forall x, continuous f x.
  Hypothesis Hp : forall x, f (x + 2 * PI) = f x.
  Lemma per_int a b : ex_RInt f a b.
  Proof. apply (ex_RInt_continuous f). intros; apply Hc. Qed.
  Lemma per_shift_int a : RInt f a (a + 2 * PI) = RInt f 0 (2 * PI).
  Proof.
    assert (E : RInt f (2 * PI) (a + 2 * PI) = RInt f 0 a).
    { transitivity (RInt f (1 * 0 + 2 * PI) (1 * a + 2 * PI)); [f_equal; ring|].
      rewrite <- (RInt_comp_lin f 1 (2 * PI) 0 a) by apply per_int.
      apply RInt_ext. intros x _. unfold scal; simpl; unfold mult; simpl. rewrite !Rmult_1_l. apply Hp. }
    rewrite <- (RInt_Chasles f a 0 (a + 2 * PI)) by apply per_int. rewrite <- (RInt_Chasles f 0 (2 * PI) (a + 2 * PI)) by apply per_int.
    rewrite E. rewrite <- (opp_RInt_swap f) by apply per_int. unfold plus, opp; simpl. ring.
  Qed.
  Lemma per_shift c : RInt (fun x => f (x + c)) 0 (2 * PI) = RInt f 0 (2 * PI).
  Proof.
    rewrite <- (per_shift_int c).
    transitivity (RInt f (1 * 0 + c) (1 * (2 * PI) + c)).
    - rewrite <- (RInt_comp_lin f 1 c 0 (2 * PI)) by apply per_int.
      apply RInt_ext. intros x _. unfold scal; simpl; unfold mult; simpl. rewrite !Rmult_1_l. reflexivity.
    - f_equal; ring.
  Qed.
  Lemma per_reflect c : RInt (fun x => f (c - x)) 0 (2 * PI) = RInt f 0 (2 * PI).
  Proof.
    rewrite <- (per_shift_int (c - 2 * PI)). replace (c - 2 * PI + 2 * PI) with c by ring.
    transitivity (opp (RInt f (-1 * 0 + c) (-1 * (2 * PI) + c))).
    - rewrite <- (RInt_comp_lin f (-1) c 0 (2 * PI)) by apply per_int.
      rewrite <- (RInt_opp (fun y => scal (-1) (f (-1 * y + c)))).
      + apply RInt_ext. intros x _. unfold opp, scal; simpl; unfold mult; simpl. replace (-1 * x + c) with (c - x) by ring. ring.
      + apply (ex_RInt_comp_lin f (-1) c 0 (2 * PI)). apply per_int.
    - replace (-1 * 0 + c) with c by ring. replace (-1 * (2 * PI) + c) with (c - 2 * PI) by ring.
      apply (opp_RInt_swap f), per_int.
  Qed.
End Periodic.
