(** Proofs about whole-object statements: sphere integrals, exact expansions, histories. *)
From Coq Require Import Reals List Lra Lia Arith Psatz ZArith Permutation Bool.
From Coquelicot Require Import Coquelicot.
From Verif Require Import Base Sca_Model Sca_Spec Leg_Proofs Sca_Proofs Sca2_Proofs.
Import ListNotations.
Local Open Scope R_scope.

Lemma leg_sum_stop c k NP x : (forall n, (k <= n)%nat -> c n = 0) -> (k <= NP)%nat -> leg_sum c NP x = leg_sum c k x.
Proof.
  intros Hc H. induction H; [reflexivity|]. rewrite leg_sum_S, Hc by lia. lra.
Qed.

Lemma scat_dot t0 tex p0 pex a : scat_angle t0 tex p0 pex a = wdot a (dir t0 p0) (dir tex pex).
Proof. unfold scat_angle, wdot, dir. ring. Qed.

Lemma dir_norm t p : let '(u, v, w) := dir t p in u ^ 2 + v ^ 2 + w ^ 2 = 1.
Proof.
  unfold dir. replace (cos t ^ 2 + (sin t * cos p) ^ 2 + (sin t * sin p) ^ 2) with (Rsqr (cos t) + Rsqr (sin t) * (Rsqr (sin p) + Rsqr (cos p))) by (unfold Rsqr; ring).
  rewrite sin2_cos2, Rmult_1_r. rewrite Rplus_comm. apply sin2_cos2.
Qed.

Lemma abs_prod_le a u v : Rabs a <= 1 -> Rabs (a * (u * v)) <= (u ^ 2 + v ^ 2) / 2.
Proof.
  intros Ha. rewrite Rabs_mult. pose proof (Rabs_pos (u * v)).
  assert (Rabs (u * v) <= (u ^ 2 + v ^ 2) / 2).
  { pose proof (pow2_ge_0 (u + v)). pose proof (pow2_ge_0 (u - v)). apply Rabs_le. split; lra. }
  apply Rle_trans with (1 * Rabs (u * v)); [apply Rmult_le_compat_r; lra|lra].
Qed.
Lemma scat_bound t0 tex p0 pex a : unit_weights a -> -1 <= scat_angle t0 tex p0 pex a <= 1.
Proof.
  intros [H0 [H1 H2]]. rewrite scat_dot. unfold wdot.
  pose proof (dir_norm t0 p0) as N1. pose proof (dir_norm tex pex) as N2.
  destruct (dir t0 p0) as [[u0 u1] u2], (dir tex pex) as [[v0 v1] v2].
  pose proof (abs_prod_le _ u0 v0 H0) as B0. pose proof (abs_prod_le _ u1 v1 H1) as B1. pose proof (abs_prod_le _ u2 v2 H2) as B2.
  apply Rabs_le_between in B0. apply Rabs_le_between in B1. apply Rabs_le_between in B2. lra.
Qed.

Lemma scat_refl_s t0 ts p0 ps a : scat_angle (PI - t0) ts p0 ps a = scat_angle t0 (PI - ts) p0 ps a.
Proof. unfold scat_angle. rewrite !Rtrigo_facts.cos_pi_minus, !Rtrigo_facts.sin_pi_minus. ring. Qed.

(** nadir sphere integrals *)
Lemma scat_nadir th p0 phi a : scat_angle 0 th p0 phi a = a0 a * cos th.
Proof. unfold scat_angle. rewrite cos_0, sin_0. ring. Qed.

Lemma sub_cos (f : R -> R) t_max : 0 <= t_max <= PI -> (forall x, -1 <= x <= 1 -> continuous f x) ->
  is_RInt (fun th => f (cos th) * sin th) 0 t_max (RInt f (cos t_max) 1).
Proof.
  intros Ht Hf.
  assert (C : is_RInt (fun y => scal (- sin y) (f (cos y))) 0 t_max (RInt f (cos 0) (cos t_max))).
  { apply (is_RInt_comp f cos (fun y => - sin y)).
    - intros x _. apply Hf. apply COS_bound.
    - intros x _. split. apply is_derive_Reals, derivable_pt_lim_cos.
      apply (continuous_opp sin), continuity_pt_filterlim, continuity_sin. }
  rewrite cos_0 in C. rewrite <- opp_RInt_swap in C.
  - apply is_RInt_opp in C. rewrite opp_opp in C.
    eapply is_RInt_ext; [|exact C]. intros x _. unfold opp, scal; simpl; unfold mult; simpl. ring.
  - apply (ex_RInt_continuous f). intros z Hz. apply Hf.
    pose proof (COS_bound t_max). unfold Rmin, Rmax in Hz. destruct (Rle_dec (cos t_max) 1); lra.
Qed.
Lemma const_phi (c : R) : RInt (fun _ => c) 0 (2 * PI) = 2 * PI * c.
Proof. rewrite RInt_const. unfold scal; simpl; unfold mult; simpl. ring. Qed.

Lemma is_RInt_reflect (f : R -> R) (l : R) : is_RInt f (-1) 1 l -> is_RInt (fun x => f (- x)) (-1) 1 l.
Proof.
  intros H. pose proof (is_RInt_swap f 1 (-1) l H) as S.
  assert (S' : is_RInt f (-1 * -1 + 0) (-1 * 1 + 0) (- l)).
  { replace (-1 * -1 + 0) with 1 by ring. replace (-1 * 1 + 0) with (-1) by ring. exact S. }
  pose proof (is_RInt_comp_lin f (-1) 0 (-1) 1 (- l) S') as C.
  pose proof (is_RInt_scalR _ _ _ (-1) _ C) as D.
  eapply is_RInt_replace; [|eapply is_RInt_extR; [lra| |exact D]]; [ring|].
  intros x _. unfold scal; simpl; unfold mult; simpl. replace (-1 * x + 0) with (- x) by ring. ring.
Qed.

Lemma sphere_nadir (f : R -> R) a p0 : a0 a = -1 -> (forall x, -1 <= x <= 1 -> continuous f x) ->
  is_RInt f (-1) 1 (/ (2 * PI)) ->
  sphere (fun th phi => f (scat_angle 0 th p0 phi a)) PI = 1.
Proof.
  intros Ha Hc Hn. unfold sphere.
  assert (E : forall phi, RInt (fun th => f (scat_angle 0 th p0 phi a) * sin th) 0 PI = / (2 * PI)).
  { intros phi. apply is_RInt_unique.
    apply is_RInt_extR with (f := fun th => (fun x => f (- x)) (cos th) * sin th); [apply Rlt_le, PI_pos| |].
    - intros th _. rewrite scat_nadir, Ha. cbv beta. f_equal. f_equal. ring.
    - assert (Q : RInt (fun x => f (- x)) (cos PI) 1 = / (2 * PI)).
      { rewrite cos_PI. apply is_RInt_unique. 
        apply is_RInt_reflect. exact Hn. }
      rewrite <- Q. apply sub_cos; [pose proof PI_pos; lra|]. intros x Hx. apply (continuous_comp Ropp f).
      apply (continuous_opp (fun y : R => y)), continuous_id. apply Hc; lra. }
  rewrite (RInt_ext _ (fun _ => / (2 * PI))) by (intros; apply E).
  rewrite const_phi. pose proof PI_pos. field. lra.
Qed.

Lemma hgV_cont t x : -1 < t < 1 -> -1 <= x <= 1 -> continuous (hgV_func t) x.
Proof.
  intros Ht Hx. pose proof PI_pos. apply ex_derive_cont. unfold hgV_func, pow15. auto_derive.
  pose proof (dpos x t Hx Ht) as D. pose proof (sqrt_lt_R0 _ D).
  replace (1 + t * (t * 1) + - (2 * t * x)) with (1 + t ^ 2 - 2 * t * x) by ring.
  split; [lra|]. split; [|exact I].
  apply Rgt_not_eq. apply Rmult_lt_0_compat; [lra|]. apply Rmult_lt_0_compat; lra.
Qed.
Lemma hgray_cont t x : -1 < t < 1 -> -1 <= x <= 1 -> continuous (hgray_func t) x.
Proof.
  intros Ht Hx. unfold hgray_func, Rdiv.
  apply (contM (fun _ => 3 * / (8 * PI))); [apply contC|].
  apply (contM (fun x => 1 * / (2 + t ^ 2) * (1 + x ^ 2) * (1 - t ^ 2))).
  - apply ex_derive_cont. auto_derive. exact I.
  - apply cont_hg, dpos; assumption.
Qed.
Lemma rayleigh_cont x : continuous rayleigh_func x.
Proof. apply ex_derive_cont. unfold rayleigh_func. auto_derive. exact I. Qed.

(** hemispherical reflectance of HG_nadirnorm *)
Lemma nadir_sphere t a p0 : a0 a <> 0 -> Rabs (a0 a) <= 1 -> t <> 0 -> -1 < t < 1 ->
  sphere (fun th phi => hgnadir_func t a (scat_angle 0 th p0 phi a) * cos th) (PI / 2) = 1.
Proof.
  intros Ha Ha1 Ht0 Ht. pose proof PI_pos as Pp.
  apply Rabs_le_between in Ha1.
  assert (HD : 0 < 1 + t ^ 2 - 2 * a0 a * t).
  { replace (2 * a0 a * t) with (2 * t * a0 a) by ring. apply dpos; lra. }
  destruct (nadir_hem_int t a Ha Ht0 Ht HD) as [HI HP].
  set (H := nadir_hemreflect t a) in *.
  assert (E : forall phi, RInt (fun th => hgnadir_func t a (scat_angle 0 th p0 phi a) * cos th * sin th) 0 (PI / 2) = / (2 * PI)).
  { intros phi. apply is_RInt_unique.
    apply is_RInt_extR with (f := fun th => (fun mu => 1 / H * (hgS_func t (a0 a * mu) * mu)) (cos th) * sin th); [lra| |].
    - intros th _. rewrite scat_nadir. cbv beta. unfold hgnadir_func, hgS_func. fold H. unfold Rdiv. ring.
    - replace (/ (2 * PI)) with (RInt (fun mu => 1 / H * (hgS_func t (a0 a * mu) * mu)) (cos (PI / 2)) 1).
      2:{ rewrite cos_PI2. apply is_RInt_unique. eapply is_RInt_replace; [|apply is_RInt_scalR, HI]. field. split; lra. }
      apply sub_cos; [lra|]. intros x Hx. apply contM; [apply contC|]. apply contM; [|apply contI].
      apply (continuous_comp (fun mu => a0 a * mu) (hgS_func t)).
      + apply contM; [apply contC|apply contI].
      + unfold hgS_func, Rdiv.
        assert (Hx' : -1 <= a0 a * x <= 1).
        { apply Rabs_le_between. rewrite Rabs_mult. rewrite <- (Rmult_1_r 1). apply Rmult_le_compat; try apply Rabs_pos; apply Rabs_le; lra. }
        apply (continuous_ext (fun y => (1 * (1 - t ^ 2)) * / PI * / pow15 (1 + t ^ 2 - 2 * t * y))).
        { intros y. cbv beta. rewrite Rinv_mult. match goal with |- @eq _ ?x ?y => change (@eq R x y) end. ring. }
        apply contM; [apply contC|]. apply cont_hg, dpos; assumption. }
  unfold sphere. rewrite (RInt_ext _ (fun _ => / (2 * PI))) by (intros; apply E).
  rewrite const_phi. field. lra.
Qed.

(** linear combinations against the specification *)
Lemma wsum_sumR v cs : wsum v cs = sumR (map (fun c => ch_frac c * v c) cs).
Proof. induction cs; simpl; [reflexivity|rewrite IHcs; reflexivity]. Qed.
Lemma max_ncoefs_le cs c : In c cs -> (ch_ncoefs c <= max_ncoefs cs)%nat.
Proof. induction cs; simpl; [tauto|]. intros [->|H]; [lia|]. specialize (IHcs H). lia. Qed.
Lemma max_ncoefs_in cs : cs <> [] -> exists c, In c cs /\ ch_ncoefs c = max_ncoefs cs.
Proof.
  induction cs as [|c cs IH]; [congruence|]. intros _. destruct cs as [|c' cs].
  - exists c. simpl. split; [auto|lia].
  - destruct IH as [d [Hd Ed]]; [discriminate|]. cbn [max_ncoefs fold_right] in *.
    change (fold_right (fun c m => Nat.max (ch_ncoefs c) m) 0%nat cs) with (max_ncoefs cs) in *.
    destruct (Nat.le_ge_cases (ch_ncoefs c) (Nat.max (ch_ncoefs c') (max_ncoefs cs))).
    + exists d. split; [right; exact Hd|]. lia.
    + exists c. split; [left; reflexivity|]. lia.
Qed.
Lemma largest_unique cs c m : In c cs -> largest_ncoefs cs (ch_a c) m -> max_ncoefs (same_a cs (ch_a c)) = m.
Proof.
  intros Hc [[d [Hd [Ed Em]]] Hmax].
  assert (Hs : forall e, In e (same_a cs (ch_a c)) <-> In e cs /\ ch_a e = ch_a c).
  { intros e. unfold same_a. rewrite filter_In, avec_eqb_iff. tauto. }
  assert (Hne : same_a cs (ch_a c) <> []).
  { intros E. assert (In c []) by (rewrite <- E; apply Hs; auto). contradiction. }
  destruct (max_ncoefs_in _ Hne) as [e [He Ee]]. apply Hs in He. destruct He as [He Hae].
  specialize (Hmax e He Hae).
  assert (In d (same_a cs (ch_a c))) by (apply Hs; auto). apply max_ncoefs_le in H. lia.
Qed.

(** histories *)
Lemma hg_attrs (step : hgobj -> hgop -> hgobj * option R) : step = hgS_step \/ step = hgV_step ->
  forall ops o, h_t (hg_run step o ops) = last_t (h_t o) ops /\ h_a (hg_run step o ops) = last_a (h_a o) ops.
Proof.
  intros Hs. induction ops as [|op ops IH]; intros o; [split; reflexivity|].
  unfold hg_run in *. cbn [fold_left last_t last_a].
  destruct (IH (fst (step o op))) as [A B]. rewrite A, B.
  destruct Hs as [-> | ->], op; simpl; try (split; reflexivity); destruct (captured o); split; reflexivity.
Qed.
