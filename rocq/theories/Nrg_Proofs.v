(** Hemispherical integrals of continuous functions of the direction *)
From Coq Require Import Reals List Lra Psatz.
From Coquelicot Require Import Coquelicot.
From Verif Require Import RTE_Proofs RTE2_Proofs Hem_Proofs RT_Model Nrg_Spec.
Local Open Scope R_scope.

(** ** hemispherical integrals *)
Lemma hemi_le f g a b : is_hemi f a -> is_hemi g b -> (forall th ph, 0 < cos th < 1 -> f th ph <= g th ph) -> a <= b.
Proof.
  intros [F1 F2] [G1 G2] H. pose proof PI_RGT_0. eapply is_RInt_le; [|exact F2|exact G2|]; [lra|]. intros mu Hm. cbv beta.
  apply RInt_le; [lra|apply F1; exact Hm|apply G1; exact Hm|]. intros ph _. apply H. rewrite cos_acos; lra.
Qed.
Lemma hemi_lin f g a b x y : is_hemi f a -> is_hemi g b -> is_hemi (fun th ph => x * f th ph + y * g th ph) (x * a + y * b).
Proof.
  intros [F1 F2] [G1 G2]. split.
  - intros mu Hm. apply (ex_RInt_plus (V := R_NormedModule)); apply (ex_RInt_scal (V := R_NormedModule)); auto.
  - eapply is_RInt_ext_open; [lra| |apply (is_RInt_plus (V := R_NormedModule)); apply is_RInt_scalR; [exact F2|exact G2]].
    intros mu Hm. cbv beta. rewrite <- !RInt_scalR by auto. symmetry. apply (RInt_plus (V := R_CompleteNormedModule)); apply (ex_RInt_scal (V := R_NormedModule)); auto.
Qed.
Lemma hemi_ext f g a : (forall th ph, 0 < cos th < 1 -> f th ph = g th ph) -> is_hemi f a -> is_hemi g a.
Proof.
  intros H [F1 F2]. split.
  - intros mu Hm. eapply ex_RInt_ext; [|apply F1; exact Hm]. intros ph _. apply H. rewrite cos_acos; lra.
  - eapply is_RInt_ext_open; [lra| |exact F2]. intros mu Hm. cbv beta. apply RInt_ext. intros ph _. apply H. rewrite cos_acos; lra.
Qed.
Lemma hemi_unique f a b : is_hemi f a -> is_hemi f b -> a = b.
Proof. intros [_ A] [_ B]. eapply is_RInt_uniqueR; eauto. Qed.

Lemma exp_le x y : x <= y -> exp x <= exp y.
Proof. intros [H| ->]; [left; apply exp_increasing; exact H|right; reflexivity]. Qed.

(** ** the photons that the layer scatters have been removed from the beam *)
Lemma removed tau a b : 0 <= tau -> 0 < a -> 0 < b ->
  0 <= / (a + b) * b * (1 - exp (- (tau / a) - tau / b)) <= 1 - exp (- (tau / a)).
Proof.
  intros Ht Ha Hb.
  set (D := fun t => 1 - exp (- (t / a)) - / (a + b) * b * (1 - exp (- (t / a) - t / b))).
  assert (Dd : forall t, is_derive D t (/ a * (exp (- (t / a)) - exp (- (t / a) - t / b)))).
  { intros t. unfold D. auto_derive; [exact I|]. unfold Rdiv, Rminus. field. repeat split; lra. }
  assert (L : forall t, 0 <= t -> exp (- (t / a) - t / b) <= exp (- (t / a)) <= 1).
  { intros t T. assert (0 <= t / a) by (apply Rdiv_le_0_compat; lra). assert (0 <= t / b) by (apply Rdiv_le_0_compat; lra).
    split; [apply exp_le; lra|]. rewrite <- exp_0. apply exp_le; lra. }
  assert (D0 : D 0 = 0). { unfold D. unfold Rdiv. rewrite !Rmult_0_l, Ropp_0, Rminus_0_r, exp_0. ring. }
  split.
  - destruct (L tau Ht). apply Rmult_le_pos; [|lra]. apply Rmult_le_pos; [left; apply Rinv_0_lt_compat; lra|lra].
  - assert (0 <= D tau); [|unfold D in *; lra]. destruct Ht as [Ht| <-]; [|lra].
    destruct (MVT_cor2 D (fun t => / a * (exp (- (t / a)) - exp (- (t / a) - t / b))) 0 tau Ht) as (c & E & Hc).
    + intros c _. apply is_derive_Reals, Dd.
    + rewrite D0, Rminus_0_r, Rminus_0_r in E. rewrite E. apply Rmult_le_pos; [|lra].
      apply Rmult_le_pos; [left; apply Rinv_0_lt_compat; lra|]. destruct (L c); lra.
Qed.


(** ** functions that depend continuously on the direction *)
Definition dir (g : R -> R -> R) (m ph : R) : R := g (acos (clamp 0 1 m)) ph.
Lemma cd_const c : continuous_dir (fun _ _ => c).
Proof. intros m ph. apply continuity_2d_pt_const. Qed.
Lemma cd_plus f g : continuous_dir f -> continuous_dir g -> continuous_dir (fun th ph => f th ph + g th ph).
Proof. intros F G m ph. apply (continuity_2d_pt_plus (dir f) (dir g)); [apply F|apply G]. Qed.
Lemma cd_mult f g : continuous_dir f -> continuous_dir g -> continuous_dir (fun th ph => f th ph * g th ph).
Proof. intros F G m ph. apply (continuity_2d_pt_mult (dir f) (dir g)); [apply F|apply G]. Qed.
Lemma cd_ext f g : (forall th ph, f th ph = g th ph) -> continuous_dir f -> continuous_dir g.
Proof. intros E F m ph. eapply continuity_2d_pt_ext; [|apply F]. intros u v. apply E. Qed.
Lemma clamp_cont x : continuous (clamp 0 1) x.
Proof.
  apply filterlim_locally. intros e. exists e. intros y Hy.
  unfold ball in *; simpl in *; unfold AbsRing_ball, abs, minus, plus, opp in *; simpl in *.
  eapply Rle_lt_trans; [apply (clamp_lip 0 1 y x); lra|exact Hy].
Qed.
Lemma cont2_fst (k : R -> R) x y : continuous k x -> continuity_2d_pt (fun u _ => k u) x y.
Proof. intros H. apply (continuity_1d_2d_pt_comp k (fun u _ => u)); [apply continuity_pt_filterlim; exact H|apply continuity_2d_pt_id1]. Qed.
Lemma cd_cos (k : R -> R) : (forall x, 0 <= x <= 1 -> continuous k x) -> continuous_dir (fun th _ => k (cos th)).
Proof.
  intros K m ph. apply (continuity_2d_pt_ext (fun m _ => k (clamp 0 1 m))).
  - intros u v. rewrite cos_acos; [reflexivity|]. change (-1 <= clamp 0 1 u <= 1). pose proof (clamp_in 0 1 u). lra.
  - apply (cont2_fst (fun m => k (clamp 0 1 m))). apply (continuous_comp (clamp 0 1) k); [apply clamp_cont|]. apply K, clamp_in. lra.
Qed.
Lemma cd_sin : continuous_dir (fun th _ => sin th).
Proof.
  intros m ph. apply (continuity_2d_pt_ext (fun m _ => sqrt (1 - Rsqr (clamp 0 1 m)))).
  - intros u v. rewrite sin_acos; [reflexivity|]. change (-1 <= clamp 0 1 u <= 1). pose proof (clamp_in 0 1 u). lra.
  - apply (cont2_fst (fun m => sqrt (1 - Rsqr (clamp 0 1 m)))). apply (continuous_comp (fun m => 1 - Rsqr (clamp 0 1 m)) sqrt); [|apply continuous_sqrt].
    apply (continuous_minus (fun _ => 1) (fun m => Rsqr (clamp 0 1 m))); [apply continuous_const|].
    apply (continuous_mult (clamp 0 1) (clamp 0 1)); apply clamp_cont.
Qed.
Lemma cd_az (k : R -> R) : (forall x, continuous k x) -> continuous_dir (fun _ ph => k ph).
Proof. intros K m ph. apply (continuity_1d_2d_pt_comp k (fun _ v => v)); [apply continuity_pt_filterlim, K|apply continuity_2d_pt_id2]. Qed.

(** ** the integral as an operator *)
Definition H (f : R -> R -> R) : R := RInt (fun mu => RInt (f (acos mu)) 0 (2 * PI)) 0 1.
Lemma dir_in g mu ph : 0 < mu < 1 -> dir g mu ph = g (acos mu) ph.
Proof. intros Hm. unfold dir. rewrite clamp_id; [reflexivity|lra]. Qed.
Lemma cd_az_cont f m : continuous_dir f -> continuous (fun m => RInt (dir f m) 0 (2 * PI)) m.
Proof. intros C. apply (inner_cont (dir f) C). pose proof PI_RGT_0. lra. Qed.
Lemma cd_slice f mu : continuous_dir f -> 0 < mu < 1 -> ex_RInt (f (acos mu)) 0 (2 * PI).
Proof.
  intros C Hm. apply (ex_RInt_ext (dir f mu)); [intros; apply dir_in; exact Hm|]. apply (slice_ex (dir f) C).
Qed.
Lemma hemi_H f : continuous_dir f -> is_hemi f (H f).
Proof.
  intros C. split; [intros; apply cd_slice; assumption|].
  apply (RInt_correct (V := R_CompleteNormedModule)).
  assert (X : ex_RInt (fun mu => RInt (dir f mu) 0 (2 * PI)) 0 1) by (apply (ex_RInt_continuous (V := R_CompleteNormedModule)); intros; apply cd_az_cont; exact C).
  destruct X as [l X]. exists l. eapply is_RInt_ext_open; [lra| |exact X]. intros mu Hm. cbv beta. apply RInt_ext. intros ph _. apply dir_in; exact Hm.
Qed.
Lemma H_is f v : is_hemi f v -> H f = v.
Proof. intros [_ A]. unfold H. apply is_RInt_unique. exact A. Qed.
Lemma H_le f g : continuous_dir f -> continuous_dir g -> (forall th ph, 0 < cos th < 1 -> f th ph <= g th ph) -> H f <= H g.
Proof. intros F G L. exact (hemi_le f g _ _ (hemi_H f F) (hemi_H g G) L). Qed.
Lemma H_ext f g : (forall th ph, 0 < cos th < 1 -> f th ph = g th ph) -> H f = H g.
Proof.
  intros E. unfold H. apply RInt_ext. intros mu Hm. rewrite Rmin_left, Rmax_right in Hm by lra.
  apply RInt_ext. intros ph _. apply E. rewrite cos_acos; lra.
Qed.
Lemma H_lin f g x y : continuous_dir f -> continuous_dir g -> H (fun th ph => x * f th ph + y * g th ph) = x * H f + y * H g.
Proof. intros F G. apply H_is, hemi_lin; apply hemi_H; assumption. Qed.
Lemma H_scal f x : continuous_dir f -> H (fun th ph => x * f th ph) = x * H f.
Proof.
  intros F. transitivity (x * H f + 0 * H f); [|ring]. rewrite <- H_lin by exact F. apply H_ext. intros. ring.
Qed.
Lemma H_plus f g : continuous_dir f -> continuous_dir g -> H (fun th ph => f th ph + g th ph) = H f + H g.
Proof.
  intros F G. transitivity (1 * H f + 1 * H g); [|ring]. rewrite <- H_lin by assumption. apply H_ext. intros. ring.
Qed.
Lemma H_zero : H (fun _ _ => 0) = 0.
Proof. transitivity (0 * H (fun _ _ => 0)); [|ring]. rewrite <- H_scal by apply cd_const. apply H_ext. intros. ring. Qed.
Lemma H_pos f : continuous_dir f -> (forall th ph, 0 < cos th < 1 -> 0 <= f th ph) -> 0 <= H f.
Proof. intros F P. rewrite <- H_zero. apply H_le; [apply cd_const|exact F|exact P]. Qed.

(** ** order of integration, for finite sums of products *)
Definition good (l : list ((R -> R -> R) * (R -> R -> R))) : Prop := List.Forall (fun ab => continuous_dir (fst ab) /\ continuous_dir (snd ab)) l.
Lemma sum_cd_l l t' p' : good l -> continuous_dir (fun t p => sum_of_products l t p t' p').
Proof.
  intros G. induction G as [|[a b] l [A B] _ IH]; [exact (cd_const 0)|]. simpl in *. apply (cd_plus (fun t p => a t p * b t' p')); [|exact IH].
  apply (cd_mult a (fun _ _ => b t' p')); [exact A|apply cd_const].
Qed.
Lemma sum_cd_r l t p : good l -> continuous_dir (fun t' p' => sum_of_products l t p t' p').
Proof.
  intros G. induction G as [|[a b] l [A B] _ IH]; [exact (cd_const 0)|]. simpl in *. apply (cd_plus (fun t' p' => a t p * b t' p')); [|exact IH].
  apply (cd_mult (fun _ _ => a t p) b); [apply cd_const|exact B].
Qed.
Lemma H_cons_r (v a b : R -> R -> R) l t p : continuous_dir v -> continuous_dir b -> good l ->
  H (fun t' p' => v t' p' * (a t p * b t' p' + sum_of_products l t p t' p')) =
  a t p * H (fun t' p' => v t' p' * b t' p') + H (fun t' p' => v t' p' * sum_of_products l t p t' p').
Proof.
  intros Cv Cb G. rewrite <- H_scal by (apply cd_mult; assumption).
  rewrite <- H_plus; [|apply (cd_mult (fun _ _ => a t p)); [apply cd_const|apply cd_mult; assumption]|apply (cd_mult v); [exact Cv|apply sum_cd_r; exact G]].
  apply H_ext. intros. ring.
Qed.
Lemma H_cons_l (w a b : R -> R -> R) l t' p' : continuous_dir w -> continuous_dir a -> good l ->
  H (fun t p => w t p * (a t p * b t' p' + sum_of_products l t p t' p')) =
  b t' p' * H (fun t p => w t p * a t p) + H (fun t p => w t p * sum_of_products l t p t' p').
Proof.
  intros Cv Cb G. rewrite <- H_scal by (apply cd_mult; assumption).
  rewrite <- H_plus; [|apply (cd_mult (fun _ _ => b t' p')); [apply cd_const|apply cd_mult; assumption]|apply (cd_mult w); [exact Cv|apply sum_cd_l; exact G]].
  apply H_ext. intros. ring.
Qed.
Lemma H_cd_r v l : continuous_dir v -> good l -> continuous_dir (fun t p => H (fun t' p' => v t' p' * sum_of_products l t p t' p')).
Proof.
  intros Cv G. induction G as [|[a b] l [A B] G IH].
  - apply (cd_ext (fun _ _ => 0)); [|apply cd_const]. intros. rewrite <- H_zero. apply H_ext. intros. simpl. ring.
  - simpl in A, B. eapply cd_ext; [intros t p; symmetry; apply (H_cons_r v a b l t p Cv B G)|].
    apply (cd_plus (fun t p => a t p * H (fun t' p' => v t' p' * b t' p'))); [|exact IH]. apply (cd_mult a (fun _ _ => H _)); [exact A|apply cd_const].
Qed.
Lemma H_cd_l w l : continuous_dir w -> good l -> continuous_dir (fun t' p' => H (fun t p => w t p * sum_of_products l t p t' p')).
Proof.
  intros Cv G. induction G as [|[a b] l [A B] G IH].
  - apply (cd_ext (fun _ _ => 0)); [|apply cd_const]. intros. rewrite <- H_zero. apply H_ext. intros. simpl. ring.
  - simpl in A, B. eapply cd_ext; [intros t p; symmetry; apply (H_cons_l w a b l t p Cv A G)|].
    apply (cd_plus (fun t p => b t p * H (fun t' p' => w t' p' * a t' p'))); [|exact IH]. apply (cd_mult b (fun _ _ => H _)); [exact B|apply cd_const].
Qed.
Lemma H_swap w v l : continuous_dir w -> continuous_dir v -> good l ->
  H (fun t p => w t p * H (fun t' p' => v t' p' * sum_of_products l t p t' p')) =
  H (fun t' p' => v t' p' * H (fun t p => w t p * sum_of_products l t p t' p')).
Proof.
  intros Cw Cv G. induction G as [|[a b] l [A B] G IH].
  - assert (Z : forall g : R -> R -> R, H (fun t p => g t p * 0) = 0).
    { intros g. etransitivity; [|apply H_zero]. apply H_ext. intros. ring. }
    assert (Y : forall (g h : R -> R -> R), H (fun t p => g t p * H (fun t' p' => h t' p' * 0)) = 0).
    { intros g h. etransitivity; [|apply (Z g)]. apply H_ext. intros. rewrite (Z h). ring. }
    transitivity 0; [apply Y|symmetry; apply Y].
  - simpl in A, B.
    set (cb := H (fun t' p' => v t' p' * b t' p')). set (ca := H (fun t p => w t p * a t p)).
    transitivity (cb * ca + H (fun t p => w t p * H (fun t' p' => v t' p' * sum_of_products l t p t' p'))).
    + unfold ca. rewrite <- H_scal by (apply cd_mult; assumption).
      rewrite <- H_plus; [|apply (cd_mult (fun _ _ => cb)); [apply cd_const|apply cd_mult; assumption]|apply (cd_mult w); [exact Cw|apply H_cd_r; assumption]].
      apply H_ext. intros th ph _. pose proof (H_cons_r v a b l th ph Cv B G) as E.
      change (H (fun t' p' => v t' p' * sum_of_products ((a, b) :: l) th ph t' p') = a th ph * cb + H (fun t' p' => v t' p' * sum_of_products l th ph t' p')) in E.
      rewrite E. ring.
    + rewrite IH. unfold cb. rewrite Rmult_comm, <- H_scal by (apply cd_mult; assumption).
      rewrite <- H_plus; [|apply (cd_mult (fun _ _ => ca)); [apply cd_const|apply cd_mult; assumption]|apply (cd_mult v); [exact Cv|apply H_cd_l; assumption]].
      apply H_ext. intros th ph _. pose proof (H_cons_l w a b l th ph Cw A G) as E.
      change (H (fun t p => w t p * sum_of_products ((a, b) :: l) t p th ph) = b th ph * ca + H (fun t p => w t p * sum_of_products l t p th ph)) in E.
      rewrite E. ring.
Qed.
