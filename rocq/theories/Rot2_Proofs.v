(** Weights of the scattering angle, smooth functions. *)
From Coq Require Import Reals List Lra Lia Psatz.
From Coquelicot Require Import Coquelicot.
From Verif Require Import Base Sca_Model Sca_Spec Leg_Proofs Sca_Proofs RTE_Proofs RTE2_Proofs Rot_Spec Rot_Proofs.
Local Open Scope R_scope.

(** ** linear operations *)
Lemma sphere_lin f g a b x y : is_sphere f a -> is_sphere g b -> is_sphere (fun th ph => x * f th ph + y * g th ph) (x * a + y * b).
Proof.
  intros [F1 F2] [G1 G2]. split.
  - intros mu Hm. apply (ex_RInt_plus (V := R_NormedModule)); apply (ex_RInt_scal (V := R_NormedModule)); auto.
  - eapply is_RInt_ext; [|apply (is_RInt_plus (V := R_NormedModule)); apply (is_RInt_scal (V := R_NormedModule)); [exact F2|exact G2]].
    intros mu Hm. rewrite Rmin_left, Rmax_right in Hm by lra. symmetry. apply is_RInt_unique.
    apply (is_RInt_plus (V := R_NormedModule)); apply (is_RInt_scal (V := R_NormedModule)); apply (RInt_correct (V := R_CompleteNormedModule)); auto.
Qed.
Lemma sphere_ext f g a : (forall th ph, f th ph = g th ph) -> is_sphere f a -> is_sphere g a.
Proof.
  intros H [F1 F2]. split.
  - intros mu Hm. eapply ex_RInt_ext; [|apply F1; exact Hm]. intros ph _. apply H.
  - eapply is_RInt_ext; [|exact F2]. intros mu Hm. apply RInt_ext. intros. apply H.
Qed.
Lemma sphere_unique f a b : is_sphere f a -> is_sphere f b -> a = b.
Proof. intros [_ A] [_ B]. eapply is_RInt_uniqueR; eauto. Qed.
Lemma sphere_zero : is_sphere (fun _ _ => 0) 0.
Proof.
  split; [intros; apply ex_RInt_const|]. apply (is_RInt_ext (fun _ => 0)).
  - intros. rewrite RInt_const. unfold scal; simpl; unfold mult; simpl. ring.
  - assert (Y : is_RInt (fun _ : R => 0) (-1) 1 ((1 - -1) * 0)) by exact (is_RInt_const (V := R_NormedModule) (-1) 1 0).
    rewrite Rmult_0_r in Y. exact Y.
Qed.

(** ** smooth functions have a Lipschitz derivative *)
Lemma twice_lip g : twice g -> exists g1 M, 0 <= M /\ (forall x, -1 <= x <= 1 -> is_derive g x (g1 x)) /\
  forall x y, -1 <= x <= 1 -> -1 <= y <= 1 -> Rabs (g1 x - g1 y) <= M * Rabs (x - y).
Proof.
  intros (g1 & g2 & H).
  destruct (continuity_ab_maj (fun x => Rabs (g2 x)) (-1) 1 ltac:(lra)) as (z & Hz & _).
  { intros c Hc. apply continuity_pt_filterlim. apply (continuous_comp g2 Rabs); [apply H; exact Hc|apply continuous_Rabs]. }
  exists g1, (Rabs (g2 z)). split; [apply Rabs_pos|]. split; [intros; apply H; assumption|]. intros x y Hx Hy.
  destruct (MVT_gen g1 y x g2) as (c & Hc & E).
  - intros u Hu. apply H. unfold Rmin, Rmax in Hu. destruct (Rle_dec y x); lra.
  - intros u Hu. apply continuity_pt_filterlim. apply (ex_derive_continuous g1). exists (g2 u). apply H. unfold Rmin, Rmax in Hu. destruct (Rle_dec y x); lra.
  - rewrite E, Rabs_mult. apply Rmult_le_compat_r; [apply Rabs_pos|]. apply Hz. unfold Rmin, Rmax in Hc. destruct (Rle_dec y x); lra.
Qed.
Lemma twice_cont g x : twice g -> -1 <= x <= 1 -> continuous g x.
Proof. intros (g1 & g2 & H) Hx. apply (ex_derive_continuous g). exists (g1 x). apply H. exact Hx. Qed.
Lemma twice_mult f g : twice f -> twice g -> twice (fun x => f x * g x).
Proof.
  intros (f1 & f2 & F) (g1 & g2 & G). exists (fun x => f1 x * g x + f x * g1 x), (fun x => (f2 x * g x + f1 x * g1 x) + (f1 x * g1 x + f x * g2 x)).
  intros x Hx. destruct (F x Hx) as (F1 & F2 & F3). destruct (G x Hx) as (G1 & G2 & G3).
  assert (Cf : continuous f x) by (apply (ex_derive_continuous f); eexists; exact F1).
  assert (Cg : continuous g x) by (apply (ex_derive_continuous g); eexists; exact G1).
  assert (Cf1 : continuous f1 x) by (apply (ex_derive_continuous f1); eexists; exact F2).
  assert (Cg1 : continuous g1 x) by (apply (ex_derive_continuous g1); eexists; exact G2).
  split; [|split].
  - apply (is_derive_mult f g); auto. intros; apply Rmult_comm.
  - apply (is_derive_plus (K := R_AbsRing) (V := R_NormedModule) (fun x => f1 x * g x) (fun x => f x * g1 x)).
    + apply (is_derive_mult f1 g); auto. intros; apply Rmult_comm.
    + apply (is_derive_mult f g1); auto. intros; apply Rmult_comm.
  - apply (continuous_plus (K := R_AbsRing) (V := R_NormedModule) (fun x => f2 x * g x + f1 x * g1 x) (fun x => f1 x * g1 x + f x * g2 x)); apply (continuous_plus (K := R_AbsRing) (V := R_NormedModule));
      apply (continuous_mult (K := R_AbsRing)); assumption.
Qed.
Lemma twice_ext f g : (forall x, f x = g x) -> twice f -> twice g.
Proof. intros E (f1 & f2 & F). exists f1, f2. intros x Hx. destruct (F x Hx) as (A & B & C). split; [|split]; auto. apply (is_derive_ext f); [exact E|exact A]. Qed.
Lemma twice_ext_in f g : (forall x, -1 <= x <= 1 -> locally x (fun y => f y = g y)) -> twice f -> twice g.
Proof. intros E (f1 & f2 & F). exists f1, f2. intros x Hx. destruct (F x Hx) as (A & B & C). split; [|split]; auto. apply (is_derive_ext_loc f); [apply E; exact Hx|exact A]. Qed.
Lemma twice_square a b : twice (fun x => a + b * x ^ 2).
Proof.
  exists (fun x => 2 * b * x), (fun _ => 2 * b). intros x _. split; [|split]; [auto_derive; [exact I|ring]|auto_derive; [exact I|ring]|apply continuous_const].
Qed.
Lemma twice_scale g k : Rabs k <= 1 -> twice g -> twice (fun x => g (k * x)).
Proof.
  intros Hk (g1 & g2 & H). exists (fun x => k * g1 (k * x)), (fun x => k * (k * g2 (k * x))). intros x Hx.
  assert (Hkx : -1 <= k * x <= 1).
  { assert (Rabs (k * x) <= 1). { rewrite Rabs_mult. assert (Rabs x <= 1) by (apply Rabs_le; lra). pose proof (Rabs_pos k). pose proof (Rabs_pos x). nra. }
    apply Rabs_le_between. exact H0. }
  assert (Dk : is_derive (fun x => k * x) x k) by (auto_derive; [exact I|ring]).
  destruct (H _ Hkx) as (A & B & D). split; [|split].
  - apply (is_derive_comp g (fun x => k * x)); [exact A|exact Dk].
  - apply is_derive_scal. apply (is_derive_comp g1 (fun x => k * x)); [exact B|exact Dk].
  - apply (continuous_mult (fun _ => k) (fun x => k * g2 (k * x))); [apply continuous_const|].
    apply (continuous_mult (fun _ => k) (fun x => g2 (k * x))); [apply continuous_const|].
    apply (continuous_comp (fun x => k * x) g2); [|exact D]. apply (ex_derive_continuous (fun x => k * x)). eexists; exact Dk.
Qed.
Lemma twice_hg c t : -1 < t < 1 -> twice (fun x => c / pow15 (1 + t ^ 2 - 2 * t * x)).
Proof.
  intros Ht. set (D := fun x => 1 + t ^ 2 - 2 * t * x).
  assert (Dp : forall x, -1 <= x <= 1 -> 0 < D x) by (intros x Hx; unfold D; apply (dpos x t Hx Ht)).
  exists (fun x => 3 * t * c / (D x ^ 2 * sqrt (D x))), (fun x => 15 * t ^ 2 * c / (D x ^ 3 * sqrt (D x))).
  assert (T : forall x n, 0 < D x -> 0 < D x ^ n * sqrt (D x)) by (intros; apply Rmult_lt_0_compat; [apply pow_lt; assumption|apply sqrt_lt_R0; assumption]).
  intros x Hx. specialize (Dp x Hx). pose proof (sqrt_lt_R0 _ Dp) as Sp. assert (SS : sqrt (D x) * sqrt (D x) = D x) by (apply sqrt_sqrt; lra).
  split; [|split].
  - unfold pow15. fold (D x). auto_derive; [|].
    + repeat split; fold (D x); unfold D in *; try nra. apply Rgt_not_eq, Rmult_lt_0_compat; [|apply sqrt_lt_R0]; nra.
    + replace (1 + t * (t * 1) + - (2 * t * x)) with (D x) by (unfold D; ring). set (s := sqrt (D x)) in *.
      rewrite <- SS. field. lra.
  - unfold D at 1 2. auto_derive; [|].
    + repeat split; unfold D in *; try nra. apply Rgt_not_eq. specialize (T x 2%nat). unfold D in T. simpl in T. apply T; nra.
    + replace (1 + t * (t * 1) + - (2 * t * x)) with (D x) by (unfold D; ring). set (s := sqrt (D x)) in *.
      rewrite <- SS. field. lra.
  - apply (ex_derive_continuous (fun x => 15 * t ^ 2 * c / (D x ^ 3 * sqrt (D x)))). unfold D. auto_derive. repeat split; unfold D in *; try nra.
    apply Rgt_not_eq. specialize (T x 3%nat). unfold D in T. simpl in T. apply T; nra.
Qed.
Lemma twice_rayleigh : twice rayleigh_func.
Proof. apply (twice_ext (fun x => 3 / (16 * PI) + 3 / (16 * PI) * x ^ 2)); [intros; unfold rayleigh_func; ring|apply twice_square]. Qed.
Lemma twice_hgV t : -1 < t < 1 -> twice (hgV_func t).
Proof.
  intros Ht. apply (twice_ext (fun x => (1 - t ^ 2) / (4 * PI) / pow15 (1 + t ^ 2 - 2 * t * x))); [|apply twice_hg; exact Ht].
  intros x. unfold hgV_func, Rdiv. rewrite !Rinv_mult. ring.
Qed.
Lemma twice_hgray t : -1 < t < 1 -> twice (hgray_func t).
Proof.
  intros Ht. apply (twice_ext (fun x => (1 + 1 * x ^ 2) * ((3 / (8 * PI) * (1 / (2 + t ^ 2)) * (1 - t ^ 2)) / pow15 (1 + t ^ 2 - 2 * t * x)))).
  - intros x. unfold hgray_func, Rdiv. ring.
  - apply twice_mult; [apply twice_square|apply twice_hg; exact Ht].
Qed.

(** ** weights *)
Lemma polar x y : exists k p, 0 <= k /\ x = k * cos p /\ y = k * sin p.
Proof.
  set (k := sqrt (x ^ 2 + y ^ 2)). assert (K2 : k ^ 2 = x ^ 2 + y ^ 2) by (unfold k; rewrite <- Rsqr_pow2, Rsqr_sqrt; [reflexivity|nra]).
  pose proof (sqrt_pos (x ^ 2 + y ^ 2)) as Kp. fold k in Kp. destruct (Req_dec k 0) as [Z|Z].
  - exists 0, 0. rewrite Z in K2. split; [lra|]. split; nra.
  - assert (B : -1 <= x / k <= 1).
    { assert (x <= k /\ - k <= x) by (split; nra). split; [apply Rmult_le_reg_r with k|apply Rmult_le_reg_r with k]; try lra; unfold Rdiv; rewrite Rmult_assoc, Rinv_l; lra. }
    assert (S2 : (k * sin (acos (x / k))) ^ 2 = y ^ 2).
    { pose proof (sin2_cos2 (acos (x / k))) as T. rewrite cos_acos in T by exact B. unfold Rsqr in T.
      replace ((k * sin (acos (x / k))) ^ 2) with (k ^ 2 * (1 - x / k * (x / k))) by (rewrite <- T; ring). replace (k ^ 2 * (1 - x / k * (x / k))) with (k ^ 2 - x ^ 2) by (field; exact Z). lra. }
    assert (Hs : k * sin (acos (x / k)) = y \/ k * sin (acos (x / k)) = - y).
    { assert ((k * sin (acos (x / k)) - y) * (k * sin (acos (x / k)) + y) = 0) by (ring_simplify; ring_simplify in S2; lra).
      apply Rmult_integral in H. destruct H; [left|right]; lra. }
    destruct Hs as [Hs|Hs]; [exists k, (acos (x / k))|exists k, (- acos (x / k))]; (split; [lra|]).
    + rewrite cos_acos by exact B. split; [field; exact Z|lra].
    + rewrite cos_neg, sin_neg, cos_acos by exact B. split; [field; exact Z|lra].
Qed.
(** the weighted direction of incidence: its length and its direction *)
Lemma weighted a t p : exists t' q, forall th ph, scat_angle t th p ph a = stretch a t p * (cos t' * cos th + sin t' * sin th * cos (ph - q)).
Proof.
  destruct (polar (a1 a * (sin t * cos p)) (a2 a * (sin t * sin p))) as (k & q & Hk & X1 & X2).
  destruct (polar (a0 a * cos t) k) as (L & t' & HL & X3 & X4).
  exists t', q. intros th ph.
  assert (EL : stretch a t p = L).
  { unfold stretch. rewrite X1, X2, X3. apply sqrt_lem_1.
    - pose proof (pow2_ge_0 (L * cos t')). pose proof (pow2_ge_0 (k * cos q)). pose proof (pow2_ge_0 (k * sin q)). lra.
    - exact HL.
    - pose proof (sin2_cos2 q) as Q. pose proof (sin2_cos2 t') as T. unfold Rsqr in *.
      replace ((L * cos t') ^ 2 + (k * cos q) ^ 2 + (k * sin q) ^ 2) with ((L * cos t') ^ 2 + k ^ 2 * (sin q * sin q + cos q * cos q)) by ring.
      rewrite Q, X4. replace ((L * cos t') ^ 2 + (L * sin t') ^ 2 * 1) with (L * L * (sin t' * sin t' + cos t' * cos t')) by ring. rewrite T. ring. }
  rewrite EL. unfold scat_angle. rewrite cos_minus.
  transitivity ((a0 a * cos t) * cos th + sin th * ((a1 a * (sin t * cos p)) * cos ph + (a2 a * (sin t * sin p)) * sin ph)); [ring|].
  rewrite X1, X2, X3. rewrite X4. ring.
Qed.
Lemma stretch_le a t p : unit_weights a -> 0 <= stretch a t p <= 1.
Proof.
  intros (A0 & A1 & A2). split; [apply sqrt_pos|]. unfold stretch. rewrite <- sqrt_1. apply sqrt_le_1_alt.
  assert (Q : forall w x, Rabs w <= 1 -> (w * x) ^ 2 <= x ^ 2).
  { intros w x Hw. replace ((w * x) ^ 2) with (w ^ 2 * x ^ 2) by ring. rewrite <- (pow2_abs w). pose proof (Rabs_pos w). pose proof (pow2_ge_0 x). assert (Rabs w ^ 2 <= 1) by nra. set (k := Rabs w ^ 2) in *. nra. }
  pose proof (Q _ (cos t) A0). pose proof (Q _ (sin t * cos p) A1). pose proof (Q _ (sin t * sin p) A2).
  pose proof (sin2_cos2 t) as T. pose proof (sin2_cos2 p) as P. unfold Rsqr in *.
  assert ((sin t * cos p) ^ 2 + (sin t * sin p) ^ 2 = sin t * sin t * (sin p * sin p + cos p * cos p)) by ring. rewrite P in H2. replace (cos t ^ 2) with (cos t * cos t) in H by ring. lra.
Qed.
Lemma stretch_one a t p : signs a -> stretch a t p = 1.
Proof.
  intros (A0 & A1 & A2). unfold stretch. rewrite <- sqrt_1. f_equal.
  replace ((a0 a * cos t) ^ 2 + (a1 a * (sin t * cos p)) ^ 2 + (a2 a * (sin t * sin p)) ^ 2)
    with (a0 a ^ 2 * cos t ^ 2 + (a1 a ^ 2 * (sin t * cos p) ^ 2 + a2 a ^ 2 * (sin t * sin p) ^ 2)) by ring.
  rewrite A0, A1, A2. pose proof (sin2_cos2 t) as T. pose proof (sin2_cos2 p) as P. unfold Rsqr in *.
  replace (1 * cos t ^ 2 + (1 * (sin t * cos p) ^ 2 + 1 * (sin t * sin p) ^ 2)) with (cos t * cos t + sin t * sin t * (sin p * sin p + cos p * cos p)) by ring.
  rewrite P. lra.
Qed.
Lemma sphere_any g a t p : twice g -> unit_weights a ->
  is_sphere (fun th ph => g (scat_angle t th p ph a)) (2 * PI * RInt (fun x => g (stretch a t p * x)) (-1) 1).
Proof.
  intros Hg Ha. destruct (weighted a t p) as (t' & q & E). set (k := stretch a t p) in *.
  assert (Hk : Rabs k <= 1) by (apply Rabs_le; pose proof (stretch_le a t p Ha); fold k in H; lra).
  destruct (twice_lip _ (twice_scale g k Hk Hg)) as (g1 & M & HM & A & B).
  eapply sphere_ext; [|exact (sphere_rotation (fun x => g (k * x)) g1 M q A B HM t')]. intros. cbv beta. rewrite E. reflexivity.
Qed.
