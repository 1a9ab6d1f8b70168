(** Integrals over the sphere of functions of the scattering angle do not depend on the direction of incidence. *)
From Coq Require Import Reals List Lra Lia Psatz.
From Coquelicot Require Import Coquelicot.
From Verif Require Import Sca_Model Hem_Proofs RTE_Proofs RTE2_Proofs Nrg_Proofs Rot_Spec.
Local Open Scope R_scope.

(** ** elementary bounds *)
Lemma cos_step h : Rabs (cos h - 1) <= Rabs h /\ Rabs (cos h - 1) <= h ^ 2 /\ Rabs (sin h - h) <= h ^ 2.
Proof.
  assert (S : forall x, Rabs (sin x) <= 1) by (intros x; apply Rabs_le; pose proof (SIN_bound x); lra).
  assert (S1 : forall x, Rabs (sin x) <= Rabs x).
  { intros x. destruct (MVT_gen sin 0 x cos) as (c & Hc & E).
    - intros. apply is_derive_sin.
    - intros. apply continuity_pt_filterlim. apply (ex_derive_continuous sin). exists (cos x0). apply is_derive_sin.
    - rewrite sin_0 in E. replace (sin x) with (cos c * (x - 0)) by lra. rewrite Rabs_mult, Rminus_0_r.
      assert (Rabs (cos c) <= 1) by (apply Rabs_le; pose proof (COS_bound c); lra). pose proof (Rabs_pos x). nra. }
  assert (C1 : forall x, exists c, Rabs c <= Rabs x /\ cos x - 1 = - sin c * x).
  { intros x. destruct (MVT_gen cos 0 x (fun y => - sin y)) as (c & Hc & E).
    - intros. apply is_derive_cos.
    - intros. apply continuity_pt_filterlim. apply (ex_derive_continuous cos). exists (- sin x0). apply is_derive_cos.
    - exists c. split; [|rewrite cos_0 in E; lra]. unfold Rabs, Rmin, Rmax in *. repeat destruct (Rle_dec _ _); repeat destruct (Rcase_abs _); lra. }
  assert (C0 : forall x, Rabs (cos x - 1) <= Rabs x).
  { intros x. destruct (C1 x) as (c & Hc & E). rewrite E, Rabs_mult, Rabs_Ropp. pose proof (S c). pose proof (Rabs_pos x). nra. }
  split; [apply C0|]. split.
  - destruct (C1 h) as (c & Hc & E). rewrite E, Rabs_mult, Rabs_Ropp. pose proof (S1 c). pose proof (Rabs_pos h). pose proof (Rabs_pos c).
    rewrite <- (pow2_abs h). nra.
  - destruct (MVT_gen (fun x => sin x - x) 0 h (fun x => cos x - 1)) as (c & Hc & E).
    + intros. auto_derive; [exact I|ring].
    + intros. apply continuity_pt_filterlim. apply (ex_derive_continuous (fun x => sin x - x)). auto_derive. exact I.
    + rewrite sin_0 in E. replace (sin h - h) with ((cos c - 1) * (h - 0)) by lra. rewrite Rabs_mult, Rminus_0_r. pose proof (C0 c).
      assert (Rabs c <= Rabs h) by (unfold Rabs, Rmin, Rmax in *; repeat destruct (Rle_dec _ _); repeat destruct (Rcase_abs _); lra).
      pose proof (Rabs_pos h). rewrite <- (pow2_abs h). nra.
Qed.

(** a function that changes by at most a multiple of the square of the step is constant *)
Lemma flat (S : R -> R) C : (forall t h, Rabs h <= 1 -> Rabs (S (t + h) - S t) <= C * h ^ 2) -> forall t, S t = S 0.
Proof.
  intros Q. assert (D : forall t, is_derive S t 0).
  { intros t. apply is_derive_Reals. intros e He.
    assert (P : 0 < Rmin 1 (e / (Rabs C + 1))). { apply Rmin_pos; [lra|]. apply Rdiv_lt_0_compat; [exact He|]. pose proof (Rabs_pos C). lra. }
    exists (mkposreal _ P). intros h Hh Hd. simpl in Hd. pose proof (Rmin_l 1 (e / (Rabs C + 1))). pose proof (Rmin_r 1 (e / (Rabs C + 1))).
    rewrite Rminus_0_r. unfold Rdiv. rewrite Rabs_mult, Rabs_inv.
    assert (Ph : 0 < Rabs h) by (apply Rabs_pos_lt; exact Hh).
    apply Rmult_lt_reg_r with (Rabs h); [exact Ph|]. rewrite Rmult_assoc, Rinv_l, Rmult_1_r by lra.
    eapply Rle_lt_trans; [apply Q; lra|]. rewrite <- (pow2_abs h). pose proof (Rle_abs C). pose proof (Rabs_pos C).
    assert (Rabs h * (Rabs C + 1) < e). { replace e with (e / (Rabs C + 1) * (Rabs C + 1)) by (field; lra). apply Rmult_lt_compat_r; lra. }
    nra. }
  intros t. destruct (MVT_gen S 0 t (fun _ => 0)) as (c & _ & E).
  - intros. apply D.
  - intros. apply continuity_pt_filterlim. apply (ex_derive_continuous S). exists 0. apply D.
  - lra.
Qed.

Section Rotation.
Variables (g g1 : R -> R) (M q : R).
Hypothesis Hg : forall x, -1 <= x <= 1 -> is_derive g x (g1 x).
Hypothesis HL : forall x y, -1 <= x <= 1 -> -1 <= y <= 1 -> Rabs (g1 x - g1 y) <= M * Rabs (x - y).
Hypothesis HM : 0 <= M.

Let cl := clamp (-1) 1.
Let G x := g (cl x).
Let G1 x := g1 (cl x).
Let r m := sqrt (1 - (cl m) ^ 2).
Let X t m ph := cos t * cl m + sin t * (r m * cos (ph - q)).

Lemma cl_in x : -1 <= cl x <= 1. Proof. apply clamp_in. lra. Qed.
Lemma cl_id x : -1 <= x <= 1 -> cl x = x. Proof. apply clamp_id. Qed.
Lemma cl_cont x : continuous cl x.
Proof.
  apply filterlim_locally. intros e. exists e. intros y Hy.
  unfold ball in *; simpl in *; unfold AbsRing_ball, abs, minus, plus, opp in *; simpl in *.
  eapply Rle_lt_trans; [apply (clamp_lip (-1) 1 y x); lra|exact Hy].
Qed.
Lemma G_cont x : continuous G x.
Proof. apply (continuous_comp cl g); [apply cl_cont|]. apply (ex_derive_continuous g). exists (g1 (cl x)). apply Hg, cl_in. Qed.
Lemma G1_cont x : continuous G1 x.
Proof.
  apply filterlim_locally. intros e.
  assert (P : 0 < e / (M + 1)) by (apply Rdiv_lt_0_compat; [apply cond_pos|lra]). exists (mkposreal _ P). intros y Hy.
  unfold ball in *; simpl in *; unfold AbsRing_ball, abs, minus, plus, opp in *; simpl in *.
  change (Rabs (g1 (cl y) - g1 (cl x)) < e). eapply Rle_lt_trans; [apply HL; apply cl_in|].
  assert (Rabs (cl y - cl x) <= Rabs (y - x)) by (apply clamp_lip; lra). pose proof (Rabs_pos (cl y - cl x)). unfold Rminus in *.
  assert (Rabs (y + - x) * (M + 1) < e). { replace (pos e) with (e / (M + 1) * (M + 1)) by (field; lra). apply Rmult_lt_compat_r; lra. }
  pose proof (cond_pos e). nra.
Qed.
Lemma r_sq m : 0 <= r m /\ r m ^ 2 = 1 - cl m ^ 2.
Proof.
  unfold r. split; [apply sqrt_pos|]. rewrite <- Rsqr_pow2, Rsqr_sqrt; [reflexivity|]. pose proof (cl_in m). nra.
Qed.
Lemma X_in t m ph : -1 <= X t m ph <= 1.
Proof.
  assert (X t m ph ^ 2 <= 1).
  { unfold X. destruct (r_sq m) as [_ R2]. pose proof (sin2_cos2 t) as T. pose proof (sin2_cos2 (ph - q)) as P. unfold Rsqr in *.
    set (c := cos t) in *. set (s := sin t) in *. set (u := cl m) in *. set (w := r m) in *. set (k := cos (ph - q)) in *. set (k' := sin (ph - q)) in *.
    assert (w ^ 2 * k ^ 2 <= 1 - u ^ 2). { rewrite R2. pose proof (cl_in m). fold u in H. assert (0 <= 1 - u ^ 2) by nra. nra. }
    assert ((c * u + s * (w * k)) ^ 2 <= (c ^ 2 + s ^ 2) * (u ^ 2 + w ^ 2 * k ^ 2)). { pose proof (pow2_ge_0 (c * (w * k) - s * u)). nra. }
    assert (c ^ 2 + s ^ 2 = 1) by lra. rewrite H1 in H0. lra. }
  split; nra.
Qed.
Lemma G_X t m ph : G (X t m ph) = g (X t m ph). Proof. unfold G. rewrite cl_id; [reflexivity|apply X_in]. Qed.
Lemma G1_X t m ph : G1 (X t m ph) = g1 (X t m ph). Proof. unfold G1. rewrite cl_id; [reflexivity|apply X_in]. Qed.

Lemma X_shift t m ph : X (t + PI / 2) m ph = - sin t * cl m + cos t * (r m * cos (ph - q)).
Proof. unfold X. rewrite cos_plus, sin_plus, cos_PI2, sin_PI2. ring. Qed.
Lemma X_add t h m ph : X (t + h) m ph = X t m ph * cos h + X (t + PI / 2) m ph * sin h.
Proof. rewrite X_shift. unfold X. rewrite cos_plus, sin_plus. ring. Qed.
Lemma X_step t h m ph : Rabs h <= 1 ->
  Rabs (X (t + h) m ph - X t m ph) <= 2 * Rabs h /\ Rabs (X (t + h) m ph - X t m ph - h * X (t + PI / 2) m ph) <= 2 * h ^ 2.
Proof.
  intros Hh. rewrite (X_add t h). destruct (cos_step h) as (A & B & C).
  set (x := X t m ph). set (y := X (t + PI / 2) m ph).
  assert (Hx : Rabs x <= 1) by (apply Rabs_le, X_in). assert (Hy : Rabs y <= 1) by (apply Rabs_le, X_in).
  assert (K : forall a b c, Rabs a <= 1 -> Rabs b <= c -> Rabs (a * b) <= c).
  { intros a b c Ha Hb. rewrite Rabs_mult. pose proof (Rabs_pos a). pose proof (Rabs_pos b). nra. }
  split.
  - replace (x * cos h + y * sin h - x) with (x * (cos h - 1) + y * sin h) by ring. eapply Rle_trans; [apply Rabs_triang|].
    pose proof (K x _ _ Hx A). assert (Rabs (sin h) <= Rabs h).
    { destruct (MVT_gen sin 0 h cos) as (c & Hc & E).
      - intros. apply is_derive_sin.
      - intros. apply continuity_pt_filterlim. apply (ex_derive_continuous sin). exists (cos x0). apply is_derive_sin.
      - rewrite sin_0 in E. replace (sin h) with (cos c * (h - 0)) by lra. rewrite Rabs_mult, Rminus_0_r.
        assert (Rabs (cos c) <= 1) by (apply Rabs_le; pose proof (COS_bound c); lra). pose proof (Rabs_pos h). nra. }
    pose proof (K y _ _ Hy H0). lra.
  - replace (x * cos h + y * sin h - x - h * y) with (x * (cos h - 1) + y * (sin h - h)) by ring. eapply Rle_trans; [apply Rabs_triang|].
    pose proof (K x _ _ Hx B). pose proof (K y _ _ Hy C). lra.
Qed.

Lemma taylor x y : -1 <= x <= 1 -> -1 <= y <= 1 -> Rabs (g y - g x - g1 x * (y - x)) <= M * (y - x) ^ 2.
Proof.
  intros Hx Hy. destruct (MVT_gen g x y g1) as (c & Hc & E).
  - intros z Hz. apply Hg. unfold Rmin, Rmax in Hz. destruct (Rle_dec x y); lra.
  - intros z Hz. apply continuity_pt_filterlim. apply (ex_derive_continuous g). exists (g1 z). apply Hg. unfold Rmin, Rmax in Hz. destruct (Rle_dec x y); lra.
  - rewrite E. replace (g1 c * (y - x) - g1 x * (y - x)) with ((g1 c - g1 x) * (y - x)) by ring. rewrite Rabs_mult.
    assert (Ic : -1 <= c <= 1) by (unfold Rmin, Rmax in Hc; destruct (Rle_dec x y); lra). pose proof (HL c x Ic Hx).
    assert (Rabs (c - x) <= Rabs (y - x)) by (unfold Rmin, Rmax, Rabs in *; repeat destruct (Rle_dec _ _); repeat destruct (Rcase_abs _); lra).
    rewrite <- (pow2_abs (y - x)). pose proof (Rabs_pos (y - x)). pose proof (Rabs_pos (c - x)).
    assert (M * Rabs (c - x) <= M * Rabs (y - x)) by nra. nra.
Qed.

Let B0 := Rabs (g1 0) + M.
Lemma g1_bound x : -1 <= x <= 1 -> Rabs (g1 x) <= B0.
Proof.
  intros Hx. unfold B0. pose proof (HL x 0 Hx ltac:(lra)). rewrite Rminus_0_r in H. assert (Rabs x <= 1) by (apply Rabs_le; exact Hx).
  pose proof (Rabs_triang_inv (g1 x) (g1 0)). nra.
Qed.
Let C := 4 * M + 2 * B0.
Lemma point_step t h m ph : Rabs h <= 1 ->
  Rabs (G (X (t + h) m ph) - G (X t m ph) - h * (G1 (X t m ph) * X (t + PI / 2) m ph)) <= C * h ^ 2.
Proof.
  intros Hh. rewrite !G_X, G1_X. destruct (X_step t h m ph Hh) as [A B].
  set (x := X t m ph) in *. set (y := X (t + h) m ph) in *. set (z := X (t + PI / 2) m ph) in *.
  replace (g y - g x - h * (g1 x * z)) with ((g y - g x - g1 x * (y - x)) + g1 x * (y - x - h * z)) by ring.
  eapply Rle_trans; [apply Rabs_triang|]. pose proof (taylor x y (X_in _ _ _) (X_in _ _ _)). rewrite Rabs_mult.
  pose proof (g1_bound x (X_in _ _ _)). pose proof (Rabs_pos (g1 x)). pose proof (Rabs_pos (y - x - h * z)).
  assert ((y - x) ^ 2 <= 4 * h ^ 2). { rewrite <- (pow2_abs (y - x)), <- (pow2_abs h). pose proof (Rabs_pos (y - x)). nra. }
  assert (Rabs (g1 x) * Rabs (y - x - h * z) <= B0 * (2 * h ^ 2)) by (apply Rmult_le_compat; assumption).
  unfold C. nra.
Qed.

(** ** continuity and existence *)
Lemma c2_fst (k : R -> R) x y : (forall u, continuous k u) -> continuity_2d_pt (fun u _ => k u) x y.
Proof. intros K. apply cont2_fst, K. Qed.
Lemma c2_snd (k : R -> R) x y : (forall u, continuous k u) -> continuity_2d_pt (fun _ v => k v) x y.
Proof. intros K. apply (continuity_1d_2d_pt_comp k (fun _ v => v)); [apply continuity_pt_filterlim, K|apply continuity_2d_pt_id2]. Qed.
Lemma r_cont m : continuous r m.
Proof.
  unfold r. apply (continuous_comp cl (fun y => sqrt (1 - y ^ 2))); [apply cl_cont|].
  apply (continuous_comp (fun y => 1 - y ^ 2) sqrt); [|apply continuous_sqrt].
  apply (ex_derive_continuous (fun y => 1 - y ^ 2)). auto_derive. exact I.
Qed.
Lemma X_cont t m ph : continuity_2d_pt (X t) m ph.
Proof.
  unfold X. apply (continuity_2d_pt_plus (fun m _ => cos t * cl m) (fun m ph => sin t * (r m * cos (ph - q)))).
  - apply (c2_fst (fun m => cos t * cl m)). intros u. apply (continuous_mult (fun _ => cos t) cl); [apply continuous_const|apply cl_cont].
  - apply (continuity_2d_pt_mult (fun _ _ => sin t)); [apply continuity_2d_pt_const|].
    apply (continuity_2d_pt_mult (fun m _ => r m) (fun _ ph => cos (ph - q))); [apply c2_fst, r_cont|].
    apply (c2_snd (fun ph => cos (ph - q))). intros u. apply (ex_derive_continuous (fun ph => cos (ph - q))). auto_derive. exact I.
Qed.
Lemma GX_cont t m ph : continuity_2d_pt (fun m ph => G (X t m ph)) m ph.
Proof. apply (continuity_1d_2d_pt_comp G (X t)); [apply continuity_pt_filterlim, G_cont|apply X_cont]. Qed.
Lemma G1X_cont t m ph : continuity_2d_pt (fun m ph => G1 (X t m ph)) m ph.
Proof. apply (continuity_1d_2d_pt_comp G1 (X t)); [apply continuity_pt_filterlim, G1_cont|apply X_cont]. Qed.
Lemma BX_cont t m ph : continuity_2d_pt (fun m ph => G1 (X t m ph) * X (t + PI / 2) m ph) m ph.
Proof. apply (continuity_2d_pt_mult (fun m ph => G1 (X t m ph)) (X (t + PI / 2))); [apply G1X_cont|apply X_cont]. Qed.

Let A t m := RInt (fun ph => G (X t m ph)) 0 (2 * PI).
Let B t m := RInt (fun ph => G1 (X t m ph) * X (t + PI / 2) m ph) 0 (2 * PI).
Let S t := RInt (A t) (-1) 1.
Lemma two_pi : 0 < 2 * PI. Proof. pose proof PI_RGT_0. lra. Qed.
Lemma A_cont t m : continuous (A t) m.
Proof. apply (Hem_Proofs.inner_cont (fun m ph => G (X t m ph)) (GX_cont t)). apply two_pi. Qed.
Lemma B_cont t m : continuous (B t) m.
Proof. apply (Hem_Proofs.inner_cont (fun m ph => G1 (X t m ph) * X (t + PI / 2) m ph) (BX_cont t)). apply two_pi. Qed.
Lemma cont_ex (f : R -> R) a b : (forall x, continuous f x) -> ex_RInt f a b.
Proof. intros K. apply (ex_RInt_continuous (V := R_CompleteNormedModule)). intros. apply K. Qed.

Lemma int_step (f1 f2 f3 : R -> R) a b h c : a <= b -> ex_RInt f1 a b -> ex_RInt f2 a b -> ex_RInt f3 a b ->
  (forall x, Rabs (f1 x - f2 x - h * f3 x) <= c) -> Rabs (RInt f1 a b - RInt f2 a b - h * RInt f3 a b) <= (b - a) * c.
Proof.
  intros Hab E1 E2 E3 Hc.
  assert (I : is_RInt (fun x => f1 x - f2 x - h * f3 x) a b (RInt f1 a b - RInt f2 a b - h * RInt f3 a b)).
  { apply (is_RInt_minus (V := R_NormedModule) (fun x => f1 x - f2 x) (fun x => h * f3 x)).
    - apply (is_RInt_minus (V := R_NormedModule) f1 f2); apply (RInt_correct (V := R_CompleteNormedModule)); assumption.
    - apply (is_RInt_scal (V := R_NormedModule) f3); apply (RInt_correct (V := R_CompleteNormedModule)); assumption. }
  rewrite <- (is_RInt_unique _ _ _ _ I). apply abs_RInt_le_const; [exact Hab|eexists; exact I|]. intros. apply Hc.
Qed.

(** ** the derivative with respect to the angle integrates to zero *)
Let D t m := r m * RInt (fun ph => cos (ph - q) * G (X t m ph)) 0 (2 * PI).
Lemma cG_cont t m ph : continuity_2d_pt (fun m ph => cos (ph - q) * G (X t m ph)) m ph.
Proof.
  apply (continuity_2d_pt_mult (fun _ ph => cos (ph - q)) (fun m ph => G (X t m ph))); [|apply GX_cont].
  apply (c2_snd (fun ph => cos (ph - q))). intros u. apply (ex_derive_continuous (fun ph => cos (ph - q))). auto_derive. exact I.
Qed.
Lemma D_cont t m : continuous (D t) m.
Proof.
  apply (continuous_mult r (fun m => RInt (fun ph => cos (ph - q) * G (X t m ph)) 0 (2 * PI))); [apply r_cont|].
  apply (Hem_Proofs.inner_cont (fun m ph => cos (ph - q) * G (X t m ph)) (cG_cont t)). apply two_pi.
Qed.
Lemma D_end t : D t 1 = 0 /\ D t (-1) = 0.
Proof.
  unfold D, r. rewrite !cl_id by lra. replace (1 - 1 ^ 2) with 0 by ring. replace (1 - (-1) ^ 2) with 0 by ring. rewrite sqrt_0. split; ring.
Qed.
(** without the limits on the cosine, inside the interval *)
Let x t m ph := cos t * m + sin t * (sqrt (1 - m ^ 2) * cos (ph - q)).
Lemma X_x t m ph : -1 <= m <= 1 -> X t m ph = x t m ph.
Proof. intros H. unfold X, x, r. rewrite cl_id by exact H. reflexivity. Qed.
Lemma near m : -1 < m < 1 -> locally m (fun y => -1 < y < 1).
Proof.
  intros H. assert (P : 0 < Rmin (m + 1) (1 - m)) by (apply Rmin_pos; lra). exists (mkposreal _ P). intros y Hy.
  unfold ball in Hy; simpl in Hy; unfold AbsRing_ball, abs, minus, plus, opp in Hy; simpl in Hy.
  pose proof (Rmin_l (m + 1) (1 - m)). pose proof (Rmin_r (m + 1) (1 - m)). unfold Rabs in Hy. destruct (Rcase_abs _) in Hy; lra.
Qed.
Lemma Gx_derive_m t m ph : -1 < m < 1 ->
  is_derive (fun m => G (X t m ph)) m (G1 (X t m ph) * (cos t - sin t * (m / r m) * cos (ph - q))).
Proof.
  intros Hm. apply (is_derive_ext_loc (fun m => g (x t m ph))).
  - eapply filter_imp; [|apply (near m Hm)]. intros y Hy. cbv beta. rewrite G_X, X_x by lra. reflexivity.
  - rewrite G1_X, X_x by lra. rewrite Rmult_comm. apply (is_derive_comp g (fun m => x t m ph)).
    + apply Hg. rewrite <- X_x by lra. apply X_in.
    + unfold x, r. rewrite cl_id by lra. assert (P : 0 < 1 - m ^ 2) by nra. auto_derive; [nra|]. replace (1 + - (m * (m * 1))) with (1 - m ^ 2) by ring.
      pose proof (sqrt_lt_R0 _ P). unfold Rminus. field. change (sqrt (1 - m ^ 2) <> 0). lra.
Qed.
Lemma Gx_derive_ph t m ph :
  is_derive (fun ph => sin (ph - q) * G (X t m ph)) ph (cos (ph - q) * G (X t m ph) - sin (ph - q) ^ 2 * sin t * r m * G1 (X t m ph)).
Proof.
  assert (E : is_derive (fun ph => G (X t m ph)) ph (- (sin t * (r m * sin (ph - q))) * G1 (X t m ph))).
  { apply (is_derive_ext (fun ph => g (X t m ph))); [intros; symmetry; apply G_X|]. rewrite G1_X.
    apply (is_derive_comp g (fun ph => X t m ph)); [apply Hg, X_in|]. unfold X. auto_derive; [exact I|]. unfold Rminus. ring. }
  replace (cos (ph - q) * G (X t m ph) - sin (ph - q) ^ 2 * sin t * r m * G1 (X t m ph))
    with (plus (mult (cos (ph - q)) (G (X t m ph))) (mult (sin (ph - q)) (- (sin t * (r m * sin (ph - q))) * G1 (X t m ph)))).
  2:{ unfold plus, mult; simpl. ring. }
  apply (is_derive_mult (fun ph => sin (ph - q)) (fun ph => G (X t m ph))); [|exact E|intros; apply Rmult_comm].
  auto_derive; [exact I|]. unfold Rminus. ring.
Qed.
Lemma period t m : is_RInt (fun ph => cos (ph - q) * G (X t m ph) - sin (ph - q) ^ 2 * sin t * r m * G1 (X t m ph)) 0 (2 * PI) 0.
Proof.
  replace 0 with (minus (sin (2 * PI - q) * G (X t m (2 * PI))) (sin (0 - q) * G (X t m 0))) at 2.
  - apply (is_RInt_derive (fun ph => sin (ph - q) * G (X t m ph))); [intros; apply Gx_derive_ph|].
    intros ph _. apply (continuous_minus (V := R_NormedModule)).
    + apply (Hem_Proofs.slice_cont (fun m ph => cos (ph - q) * G (X t m ph)) (cG_cont t)).
    + apply (continuous_mult (fun ph => sin (ph - q) ^ 2 * sin t * r m) (fun ph => G1 (X t m ph))).
      * apply (ex_derive_continuous (fun ph => sin (ph - q) ^ 2 * sin t * r m)). auto_derive. exact I.
      * apply (Hem_Proofs.slice_cont (fun m ph => G1 (X t m ph)) (G1X_cont t)).
  - unfold X. replace (2 * PI - q) with (- q + 2 * PI) by ring. rewrite sin_plus, cos_plus, sin_2PI, cos_2PI. replace (0 - q) with (- q) by ring.
    unfold minus, plus, opp; simpl. replace (sin (- q) * 1 + cos (- q) * 0) with (sin (- q)) by ring. replace (cos (- q) * 1 - sin (- q) * 0) with (cos (- q)) by ring. ring.
Qed.
Let K t m ph := G1 (X t m ph) * (cos t - sin t * (m / r m) * cos (ph - q)).
Lemma r_pos m : -1 < m < 1 -> 0 < r m.
Proof. intros H. unfold r. apply sqrt_lt_R0. rewrite cl_id by lra. nra. Qed.
Lemma K_cont t m ph : -1 < m < 1 -> continuity_2d_pt (fun m ph => cos (ph - q) * K t m ph) m ph.
Proof.
  intros Hm. assert (Cc : continuity_2d_pt (fun _ ph : R => cos (ph - q)) m ph).
  { apply (c2_snd (fun ph => cos (ph - q))). intros u. apply (ex_derive_continuous (fun ph => cos (ph - q))). auto_derive. exact I. }
  apply (continuity_2d_pt_mult (fun _ ph => cos (ph - q)) (K t)); [exact Cc|].
  apply (continuity_2d_pt_mult (fun m ph => G1 (X t m ph)) (fun m ph => cos t - sin t * (m / r m) * cos (ph - q))); [apply G1X_cont|].
  apply (continuity_2d_pt_minus (fun _ _ => cos t) (fun m ph => sin t * (m / r m) * cos (ph - q))); [apply continuity_2d_pt_const|].
  apply (continuity_2d_pt_mult (fun m _ => sin t * (m / r m)) (fun _ ph => cos (ph - q))); [|exact Cc].
  apply (cont2_fst (fun m => sin t * (m / r m))). apply (continuous_mult (fun _ => sin t) (fun m => m / r m)); [apply continuous_const|].
  apply (continuous_mult (fun m => m) (fun m => / r m)); [apply continuous_id|]. apply (continuous_comp r Rinv); [apply r_cont|].
  apply continuous_Rinv. pose proof (r_pos m Hm). lra.
Qed.
Lemma cG_derive t m ph : -1 < m < 1 -> is_derive (fun m => cos (ph - q) * G (X t m ph)) m (cos (ph - q) * K t m ph).
Proof. intros Hm. apply is_derive_scal. apply Gx_derive_m. exact Hm. Qed.
Lemma I_derive t m : -1 < m < 1 ->
  is_derive (fun m => RInt (fun ph => cos (ph - q) * G (X t m ph)) 0 (2 * PI)) m (RInt (fun ph => cos (ph - q) * K t m ph) 0 (2 * PI)).
Proof.
  intros Hm.
  replace (RInt (fun ph => cos (ph - q) * K t m ph) 0 (2 * PI)) with (RInt (fun ph => Derive (fun u => cos (ph - q) * G (X t u ph)) m) 0 (2 * PI)).
  2:{ apply RInt_ext. intros ph _. apply is_derive_unique. apply cG_derive. exact Hm. }
  apply (is_derive_RInt_param (fun u ph => cos (ph - q) * G (X t u ph))).
  - eapply filter_imp; [|apply (near m Hm)]. intros y Hy ph _. eexists. apply cG_derive. exact Hy.
  - intros ph _. apply (continuity_2d_pt_ext_loc (fun m ph => cos (ph - q) * K t m ph)); [|apply K_cont; exact Hm].
    destruct (near m Hm) as [d Hd]. exists d. intros u v Hu Hv. symmetry. apply is_derive_unique. apply cG_derive. apply Hd. exact Hu.
  - apply filter_forall. intros y. apply (Hem_Proofs.slice_ex (fun m ph => cos (ph - q) * G (X t m ph)) (cG_cont t)).
Qed.
Lemma D_derive t m : -1 < m < 1 -> is_derive (D t) m (B t m).
Proof.
  intros Hm. pose proof (r_pos m Hm) as Pr. destruct (r_sq m) as [_ R2]. rewrite cl_id in R2 by lra.
  assert (Er : is_derive r m (- (m / r m))).
  { apply (is_derive_ext_loc (fun m => sqrt (1 - m ^ 2))).
    - eapply filter_imp; [|apply (near m Hm)]. intros y Hy. unfold r. rewrite cl_id by lra. reflexivity.
    - unfold r in *. rewrite cl_id in * by lra. auto_derive; [try split; try exact I; nra|]. replace (1 + - (m * (m * 1))) with (1 - m ^ 2) by ring. field. lra. }
  set (I0 := RInt (fun ph => cos (ph - q) * G (X t m ph)) 0 (2 * PI)). set (I1 := RInt (fun ph => cos (ph - q) * K t m ph) 0 (2 * PI)).
  assert (Ex0 : is_RInt (fun ph => cos (ph - q) * G (X t m ph)) 0 (2 * PI) I0).
  { apply (RInt_correct (V := R_CompleteNormedModule)). apply (Hem_Proofs.slice_ex (fun m ph => cos (ph - q) * G (X t m ph)) (cG_cont t)). }
  assert (Ex1 : is_RInt (fun ph => cos (ph - q) * K t m ph) 0 (2 * PI) I1).
  { apply (RInt_correct (V := R_CompleteNormedModule)). apply cont_ex. intros ph. unfold K.
    apply (continuous_mult (fun ph => cos (ph - q)) (fun ph => G1 (X t m ph) * (cos t - sin t * (m / r m) * cos (ph - q)))).
    - apply (ex_derive_continuous (fun ph => cos (ph - q))). auto_derive. exact I.
    - apply (continuous_mult (fun ph => G1 (X t m ph)) (fun ph => cos t - sin t * (m / r m) * cos (ph - q))).
      + apply (Hem_Proofs.slice_cont (fun m ph => G1 (X t m ph)) (G1X_cont t)).
      + apply (ex_derive_continuous (fun ph => cos t - sin t * (m / r m) * cos (ph - q))). auto_derive. exact I. }
  assert (EB : B t m = - (m / r m) * I0 + r m * I1).
  { unfold B. apply is_RInt_unique.
    replace (- (m / r m) * I0 + r m * I1) with (plus (plus (scal (- (m / r m)) I0) (scal (r m) I1)) (scal (m / r m) 0)) by (unfold plus, scal; simpl; unfold mult; simpl; ring).
    eapply is_RInt_ext; [|apply (is_RInt_plus (V := R_NormedModule)); [apply (is_RInt_plus (V := R_NormedModule))|];
      [apply (is_RInt_scal (V := R_NormedModule)); exact Ex0|apply (is_RInt_scal (V := R_NormedModule)); exact Ex1|
       apply (is_RInt_scal (V := R_NormedModule)); exact (period t m)]].
    intros ph _. rewrite X_shift, cl_id by lra. unfold plus, scal; simpl; unfold mult; simpl. unfold K.
    pose proof (sin2_cos2 (ph - q)) as P. unfold Rsqr in P. set (k := cos (ph - q)) in *. set (k' := sin (ph - q)) in *.
    set (a := G (X t m ph)). set (b := G1 (X t m ph)). replace (k' * (k' * 1)) with (1 - k * k) by lra. field. lra. }
  rewrite EB. replace (- (m / r m) * I0 + r m * I1) with (plus (mult (- (m / r m)) I0) (mult (r m) I1)) by (unfold plus, mult; simpl; ring).
  apply (is_derive_mult r (fun m => RInt (fun ph => cos (ph - q) * G (X t m ph)) 0 (2 * PI))); [exact Er|apply I_derive; exact Hm|intros; apply Rmult_comm].
Qed.
Lemma B_zero t : RInt (B t) (-1) 1 = 0.
Proof.
  set (W := fun m => RInt (B t) (-1) m - D t m).
  assert (E : W (-1) = W 1).
  { apply const_on; [lra| |].
    - intros m _. eapply filterlim_filter_le_1; [apply filter_le_within|]. apply (continuous_minus (V := R_NormedModule)).
      + apply (ex_derive_continuous (fun m => RInt (B t) (-1) m)). exists (B t m). apply (is_derive_RInt (B t) _ (-1)).
        * apply filter_forall. intros y. apply (RInt_correct (V := R_CompleteNormedModule)). apply cont_ex, B_cont.
        * apply B_cont.
      + apply D_cont.
    - intros m Hm. replace 0 with (minus (B t m) (B t m)) by (unfold minus, plus, opp; simpl; ring).
      apply (is_derive_minus (V := R_NormedModule)); [|apply D_derive; exact Hm].
      apply (is_derive_RInt (B t) _ (-1)); [|apply B_cont]. apply filter_forall. intros y. apply (RInt_correct (V := R_CompleteNormedModule)). apply cont_ex, B_cont. }
  unfold W in E. destruct (D_end t) as [D1 D2]. rewrite D1, D2, RInt_point in E. change zero with 0 in E. lra.
Qed.

Lemma S_const t : S t = S 0.
Proof.
  pose proof two_pi as P2. apply (flat S (2 * (2 * PI * C))). intros t0 h Hh.
  assert (A1 : forall m, Rabs (A (t0 + h) m - A t0 m - h * B t0 m) <= 2 * PI * (C * h ^ 2)).
  { intros m. replace (2 * PI * (C * h ^ 2)) with ((2 * PI - 0) * (C * h ^ 2)) by ring. unfold A, B. apply int_step.
    - lra.
    - apply (Hem_Proofs.slice_ex (fun m ph => G (X (t0 + h) m ph)) (GX_cont (t0 + h))).
    - apply (Hem_Proofs.slice_ex (fun m ph => G (X t0 m ph)) (GX_cont t0)).
    - apply (Hem_Proofs.slice_ex (fun m ph => G1 (X t0 m ph) * X (t0 + PI / 2) m ph) (BX_cont t0)).
    - intros ph. apply point_step. exact Hh. }
  pose proof (int_step (A (t0 + h)) (A t0) (B t0) (-1) 1 h _ ltac:(lra) (cont_ex _ _ _ (A_cont (t0 + h))) (cont_ex _ _ _ (A_cont t0)) (cont_ex _ _ _ (B_cont t0)) A1) as Y.
  rewrite B_zero in Y. fold (S (t0 + h)) (S t0) in Y. replace (S (t0 + h) - S t0 - h * 0) with (S (t0 + h) - S t0) in Y by ring.
  eapply Rle_trans; [exact Y|]. right. ring.
Qed.
Lemma S_zero : S 0 = 2 * PI * RInt g (-1) 1.
Proof.
  assert (E : forall a, a = 2 * PI -> RInt (fun m => a * g m) (-1) 1 = a * RInt g (-1) 1).
  { intros a _. apply is_RInt_unique. apply (is_RInt_scal (V := R_NormedModule) g). apply (RInt_correct (V := R_CompleteNormedModule)).
    apply (ex_RInt_continuous (V := R_CompleteNormedModule)). intros z Hz. rewrite Rmin_left, Rmax_right in Hz by lra.
    apply (ex_derive_continuous g). exists (g1 z). apply Hg. exact Hz. }
  rewrite <- (E _ eq_refl). unfold S. apply RInt_ext. intros m Hm. rewrite Rmin_left, Rmax_right in Hm by lra. unfold A.
  transitivity (RInt (fun _ => g m) 0 (2 * PI)).
  - apply RInt_ext. intros ph _. rewrite G_X, X_x by lra. unfold x. rewrite cos_0, sin_0. f_equal. ring.
  - rewrite RInt_const. unfold scal; simpl; unfold mult; simpl. ring.
Qed.
(** the integral over the sphere of a function of the angle to the direction (t, q) *)
Lemma sphere_rotation t :
  is_sphere (fun th ph => g (cos t * cos th + sin t * sin th * cos (ph - q))) (2 * PI * RInt g (-1) 1).
Proof.
  assert (P : forall mu ph, -1 < mu < 1 -> G (X t mu ph) = g (cos t * cos (acos mu) + sin t * sin (acos mu) * cos (ph - q))).
  { intros mu ph Hm. rewrite G_X, X_x by lra. unfold x. rewrite cos_acos, sin_acos by lra. rewrite Rsqr_pow2. f_equal. ring. }
  split.
  - intros mu Hm. apply (ex_RInt_ext (fun ph => G (X t mu ph))); [intros; apply P; exact Hm|].
    apply (Hem_Proofs.slice_ex (fun m ph => G (X t m ph)) (GX_cont t)).
  - rewrite <- S_zero, <- (S_const t). apply (is_RInt_ext (A t)).
    + intros mu Hm. rewrite Rmin_left, Rmax_right in Hm by lra. unfold A. apply RInt_ext. intros. apply P. exact Hm.
    + apply (RInt_correct (V := R_CompleteNormedModule)). apply cont_ex, A_cont.
Qed.
End Rotation.
