(** Facts about Legendre polynomials: bound, generating function, series. *)
From Coq Require Import Reals List Lra Lia Arith Psatz.
From Coquelicot Require Import Coquelicot.
From Verif Require Import Base Sca_Model.
Import ListNotations.
Local Open Scope R_scope.

Lemma leg_0 x : leg 0 x = 1. Proof. reflexivity. Qed.
Lemma leg_1 x : leg 1 x = x. Proof. reflexivity. Qed.
Lemma leg2_snd n x : snd (leg2 n x) = leg (S n) x.
Proof. unfold leg. simpl. destruct (leg2 n x); reflexivity. Qed.
Lemma leg_rec n x :
  INR (S (S n)) * leg (S (S n)) x = (2 * INR (S n) + 1) * x * leg (S n) x - INR (S n) * leg n x.
Proof.
  assert (H : leg (S (S n)) x = ((2 * INR (S n) + 1) * x * leg (S n) x - INR (S n) * leg n x) / INR (S (S n))).
  { unfold leg. cbn [leg2]. destruct (leg2 n x) as [p q]. reflexivity. }
  rewrite H. field. apply not_0_INR. lia.
Qed.

(** energy bound *)
Lemma leg_energy n x : -1 <= x <= 1 ->
  (x * leg (S n) x - leg n x) ^ 2 + (1 - x ^ 2) * leg (S n) x ^ 2 <= 1 - x ^ 2.
Proof.
  intros Hx. induction n.
  - rewrite leg_0, leg_1. nra.
  - set (p := leg (S n) x) in *. set (q := leg n x) in *.
    pose proof (leg_rec n x) as H. fold p q in H. set (r := leg (S (S n)) x) in *.
    rewrite !S_INR in H. pose proof (pos_INR n) as Hn. set (k := INR n) in *.
    (* r = x p + a (x p - q), a = (k+1)/(k+2) *)
    set (a := (k + 1) / (k + 2)).
    assert (Ha : 0 <= a <= 1).
    { unfold a. split. apply Rmult_le_pos; [lra|]. apply Rlt_le, Rinv_0_lt_compat; lra.
      apply (Rmult_le_reg_r (k + 2)); [lra|]. unfold Rdiv. rewrite Rmult_assoc, Rinv_l; lra. }
    assert (Hr : r = x * p + a * (x * p - q)).
    { unfold a. apply (Rmult_eq_reg_l (k + 1 + 1)); [|lra]. rewrite H. field. lra. }
    set (u := x * p - q) in *.
    rewrite Hr.
    (* x r - p = -(1-x^2) p + x a u ; sum = (1-x^2)p^2 + a^2 u^2 *)
    replace ((x * (x * p + a * u) - p) ^ 2 + (1 - x ^ 2) * (x * p + a * u) ^ 2)
      with ((1 - x ^ 2) * p ^ 2 + a ^ 2 * u ^ 2) by ring.
    assert (a ^ 2 <= 1) by nra. assert (0 <= u ^ 2) by nra. nra.
Qed.

Lemma leg_at_1 n : leg n 1 = 1.
Proof.
  assert (H : leg n 1 = 1 /\ leg (S n) 1 = 1); [|tauto].
  induction n.
  - split; reflexivity.
  - destruct IHn as [A B]. split; [exact B|].
    pose proof (leg_rec n 1) as H. rewrite A, B in H. apply (Rmult_eq_reg_l (INR (S (S n)))).
    rewrite H. rewrite !S_INR. lra. apply not_0_INR; lia.
Qed.
Lemma leg_opp n x : leg n (- x) = (-1) ^ n * leg n x.
Proof.
  assert (H : leg n (- x) = (-1) ^ n * leg n x /\ leg (S n) (- x) = (-1) ^ (S n) * leg (S n) x); [|tauto].
  induction n.
  - rewrite !leg_0, !leg_1. simpl. lra.
  - destruct IHn as [A B]. split; [exact B|].
    pose proof (leg_rec n (- x)) as H. pose proof (leg_rec n x) as H'. rewrite A, B in H.
    apply (Rmult_eq_reg_l (INR (S (S n)))); [|apply not_0_INR; lia].
    rewrite H. replace (INR (S (S n)) * ((-1) ^ S (S n) * leg (S (S n)) x))
      with ((-1) ^ S (S n) * (INR (S (S n)) * leg (S (S n)) x)) by ring.
    rewrite H'. simpl. ring.
Qed.

Lemma leg_bound n x : -1 <= x <= 1 -> Rabs (leg n x) <= 1.
Proof.
  intros Hx. destruct n; [rewrite leg_0, Rabs_R1; lra|].
  destruct (Req_dec (x ^ 2) 1) as [E|E].
  - assert (x = 1 \/ x = -1) as [->| ->] by (assert ((x - 1) * (x + 1) = 0) as Z by (ring_simplify; lra);
      apply Rmult_integral in Z; lra).
    + rewrite leg_at_1, Rabs_R1; lra.
    + replace (leg (S n) (-1)) with (leg (S n) (- (1))) by (f_equal; lra).
      rewrite leg_opp, leg_at_1, Rmult_1_r, pow_1_abs. lra.
  - pose proof (leg_energy n x Hx). set (p := leg (S n) x) in *.
    set (w := x * p - leg n x) in *.
    assert (0 < 1 - x ^ 2) by nra. assert (p ^ 2 <= 1).
    { apply (Rmult_le_reg_l (1 - x ^ 2)); [lra|]. nra. }
    apply Rabs_le. split; nra.
Qed.

(** ** power series *)

Lemma PS_poly_radius (c : nat -> R) : (forall n, Rabs (c n) <= INR (S n) * INR (S (S n))) ->
  forall t, Rabs t < 1 -> Rbar_lt (Rabs t) (CV_radius c).
Proof.
  intros Hc t Ht.
  assert (R1 : CV_radius (fun _ : nat => 1) = 1).
  { replace (Finite 1) with (Finite (/ 1)) by (f_equal; field). apply CV_radius_finite_DAlembert. intros _; lra. lra.
    apply is_lim_seq_ext with (fun _ => 1). intros n. replace (1 / 1) with 1 by field. symmetry; apply Rabs_R1.
    apply is_lim_seq_const. }
  pose proof (CV_radius_derive (fun _ : nat => 1)) as R2.
  pose proof (CV_radius_derive (PS_derive (fun _ : nat => 1))) as R3.
  rewrite R2, R1 in R3.
  apply Rbar_lt_le_trans with (Finite 1); [exact Ht|].
  rewrite <- R3.
  destruct (CV_radius_bounded c) as [U1 _].
  destruct (CV_radius_bounded (PS_derive (PS_derive (fun _ : nat => 1)))) as [_ L2].
  apply L2. intros r [M HM]. apply U1. exists M. intros n.
  eapply Rle_trans; [|apply (HM n)]. rewrite !Rabs_mult.
  apply Rmult_le_compat_r; [apply Rabs_pos|].
  rewrite (Rabs_pos_eq (PS_derive _ n)).
  - unfold PS_derive. rewrite Rmult_1_r. apply Hc.
  - unfold PS_derive. rewrite Rmult_1_r. apply Rmult_le_pos; apply pos_INR.
Qed.

Definition gleg (x : R) (n : nat) : R := leg n x.

Lemma gleg_radius x t : -1 <= x <= 1 -> Rabs t < 1 -> Rbar_lt (Rabs t) (CV_radius (gleg x)).
Proof.
  intros Hx Ht. apply PS_poly_radius; [|exact Ht]. intros n. apply Rle_trans with 1. apply leg_bound, Hx.
  rewrite !S_INR. pose proof (pos_INR n). nra.
Qed.

Lemma dpos x t : -1 <= x <= 1 -> -1 < t < 1 -> 0 < 1 + t ^ 2 - 2 * t * x.
Proof. intros. destruct (Rle_dec 0 t); nra. Qed.

(** ODE satisfied by the generating function *)
Lemma gleg_ode x t : -1 <= x <= 1 -> -1 < t < 1 ->
  (1 + t ^ 2 - 2 * t * x) * PSeries (PS_derive (gleg x)) t = (x - t) * PSeries (gleg x) t.
Proof.
  intros Hx Ht0. assert (Ht : Rabs t < 1) by (apply Rabs_def1; lra).
  pose proof (gleg_radius x t Hx Ht) as Hr.
  set (a := gleg x) in *.
  assert (Ea : ex_pseries a t) by (apply CV_radius_inside; exact Hr).
  assert (Ed : ex_pseries (PS_derive a) t) by (apply CV_radius_inside; rewrite CV_radius_derive; exact Hr).
  (* left = PSeries of PS_derive a - 2x PS_incr_1 (..) + PS_incr_1 (PS_incr_1 ..) *)
  assert (L : (1 + t ^ 2 - 2 * t * x) * PSeries (PS_derive a) t
    = PSeries (PS_plus (PS_derive a) (PS_plus (PS_incr_1 (PS_incr_1 (PS_derive a))) (PS_scal (- 2 * x) (PS_incr_1 (PS_derive a))))) t).
  { assert (E1 : ex_pseries (PS_incr_1 (PS_derive a)) t) by (apply ex_pseries_incr_1, Ed).
    assert (E2 : ex_pseries (PS_incr_1 (PS_incr_1 (PS_derive a))) t) by (apply ex_pseries_incr_1, E1).
    assert (E3 : ex_pseries (PS_scal (- 2 * x) (PS_incr_1 (PS_derive a))) t)
      by (apply ex_pseries_scal; [apply Rmult_comm| exact E1]).
    rewrite PSeries_plus; [| exact Ed | apply ex_pseries_plus; assumption].
    rewrite PSeries_plus; [| exact E2 | exact E3].
    rewrite PSeries_scal, !PSeries_incr_1. ring. }
  assert (Rr : (x - t) * PSeries a t = PSeries (PS_plus (PS_scal x a) (PS_scal (-1) (PS_incr_1 a))) t).
  { rewrite PSeries_plus.
    - rewrite !PSeries_scal, PSeries_incr_1. ring.
    - apply ex_pseries_scal; [apply Rmult_comm| exact Ea].
    - apply ex_pseries_scal; [apply Rmult_comm| apply ex_pseries_incr_1, Ea]. }
  rewrite L, Rr. apply PSeries_ext. intros n.
  unfold PS_plus, PS_scal, PS_derive. unfold plus, scal; simpl; unfold mult; simpl.
  unfold a, gleg.
  destruct n as [|[|n]]; unfold PS_incr_1, zero; simpl.
  - rewrite ?leg_0, ?leg_1. unfold zero; simpl. lra.
  - pose proof (leg_rec 0 x) as H. simpl INR in H. rewrite leg_0, leg_1 in *. unfold zero; simpl in *. lra.
  - pose proof (leg_rec (S n) x) as H. rewrite !S_INR in H.
    change (match n with 0%nat => 1 | S _ => INR n + 1 end) with (INR (S n)).
    rewrite ?S_INR. lra.
Qed.

Lemma gleg_gen x t : -1 <= x <= 1 -> -1 < t < 1 ->
  PSeries (gleg x) t * sqrt (1 + t ^ 2 - 2 * t * x) = 1.
Proof.
  intros Hx Ht.
  set (H := fun s => PSeries (gleg x) s * sqrt (1 + s ^ 2 - 2 * s * x)).
  assert (HD : forall s, -1 < s < 1 -> is_derive H s 0).
  { intros s Hs. assert (Hr : Rbar_lt (Rabs s) (CV_radius (gleg x))).
    { apply gleg_radius; [exact Hx | apply Rabs_def1; lra]. }
    pose proof (is_derive_PSeries (gleg x) s Hr) as D.
    pose proof (dpos x s Hx Hs) as Dp.
    assert (D2 : is_derive (fun s => sqrt (1 + s ^ 2 - 2 * s * x)) s ((s - x) / sqrt (1 + s ^ 2 - 2 * s * x))).
    { auto_derive. replace (1 + s * (s * 1) + - (2 * s * x)) with (1 + s ^ 2 - 2 * s * x) by ring. lra.
      replace (1 + s * (s * 1) + - (2 * s * x)) with (1 + s ^ 2 - 2 * s * x) by ring.
      field. apply Rgt_not_eq, sqrt_lt_R0, Dp. }
    pose proof (is_derive_mult _ _ _ _ _ D D2 (fun n m => Rmult_comm n m)) as M.
    replace 0 with (PSeries (PS_derive (gleg x)) s * sqrt (1 + s ^ 2 - 2 * s * x)
      + PSeries (gleg x) s * ((s - x) / sqrt (1 + s ^ 2 - 2 * s * x))); [exact M|].
    pose proof (gleg_ode x s Hx Hs) as O.
    assert (Sq : sqrt (1 + s ^ 2 - 2 * s * x) <> 0) by (apply Rgt_not_eq, sqrt_lt_R0, Dp).
    apply (Rmult_eq_reg_r (sqrt (1 + s ^ 2 - 2 * s * x))); [|exact Sq].
    rewrite Rmult_0_l, Rmult_plus_distr_r.
    rewrite Rmult_assoc, sqrt_sqrt by lra.
    replace (PSeries (PS_derive (gleg x)) s * (1 + s ^ 2 - 2 * s * x)) with ((x - s) * PSeries (gleg x) s) by (rewrite <- O; ring).
    unfold Rdiv. replace (PSeries (gleg x) s * ((s - x) * / sqrt (1 + s ^ 2 - 2 * s * x)) * sqrt (1 + s ^ 2 - 2 * s * x))
      with (PSeries (gleg x) s * (s - x)) by (field; exact Sq). ring. }
  assert (H0 : H 0 = 1).
  { unfold H. rewrite PSeries_0. unfold gleg. rewrite leg_0. replace (1 + 0 ^ 2 - 2 * 0 * x) with 1 by ring. rewrite sqrt_1; ring. }
  change (H t = 1). rewrite <- H0.
  destruct (Req_dec t 0) as [->|Nt]; [reflexivity|].
  assert (forall a b, -1 < a -> a < b -> b < 1 -> H b = H a) as K.
  { intros a b Ha Hab Hb.
    destruct (MVT_gen H a b (fun _ => 0)) as [c [_ Hc]].
    - intros y Hy. rewrite Rmin_left, Rmax_right in Hy by lra. apply HD; lra.
    - intros y Hy. rewrite Rmin_left, Rmax_right in Hy by lra.
      apply continuity_pt_filterlim, (ex_derive_continuous H y). eexists. apply HD; lra.
    - lra. }
  destruct (Rlt_dec t 0). symmetry; apply K; lra. apply K; lra.
Qed.

Lemma pow15_pos b : 0 < b -> 0 < pow15 b.
Proof. intros; unfold pow15. apply Rmult_lt_0_compat; [assumption|apply sqrt_lt_R0; assumption]. Qed.

(** the Henyey-Greenstein series *)
Lemma hg_series x t : -1 <= x <= 1 -> -1 < t < 1 ->
  is_series (fun n => (2 * INR n + 1) * t ^ n * leg n x) ((1 - t ^ 2) / pow15 (1 + t ^ 2 - 2 * t * x)).
Proof.
  intros Hx Ht. assert (Ht' : Rabs t < 1) by (apply Rabs_def1; lra).
  pose proof (gleg_radius x t Hx Ht') as Hr.
  assert (Ea : ex_pseries (gleg x) t) by (apply CV_radius_inside; exact Hr).
  assert (Ed : ex_pseries (PS_derive (gleg x)) t) by (apply CV_radius_inside; rewrite CV_radius_derive; exact Hr).
  pose proof (PSeries_correct _ _ (ex_pseries_incr_1 _ _ Ed)) as S1.
  pose proof (PSeries_correct _ _ Ea) as S2.
  apply is_pseries_R in S1. apply is_pseries_R in S2.
  rewrite PSeries_incr_1 in S1.
  pose proof (is_series_plus _ _ _ _ (is_series_scal_l 2 _ _ S1) S2) as S3.
  pose proof (gleg_gen x t Hx Ht) as G. pose proof (gleg_ode x t Hx Ht) as O.
  pose proof (dpos x t Hx Ht) as Dp. set (D := 1 + t ^ 2 - 2 * t * x) in *.
  assert (Sq : 0 < sqrt D) by (apply sqrt_lt_R0, Dp).
  assert (V : (1 - t ^ 2) / pow15 D = plus (2 * (t * PSeries (PS_derive (gleg x)) t)) (PSeries (gleg x) t)).
  { assert (Gv : PSeries (gleg x) t = / sqrt D).
    { apply (Rmult_eq_reg_r (sqrt D)); [|lra]. rewrite Rinv_l by lra. exact G. }
    assert (Dv : PSeries (PS_derive (gleg x)) t = (x - t) * / sqrt D / D).
    { apply (Rmult_eq_reg_l D); [|lra]. rewrite O, Gv. field. lra. }
    rewrite Gv, Dv. unfold plus, pow15; simpl. unfold D at 1. unfold D in *. field. split; lra. }
  rewrite V. eapply is_series_ext; [|exact S3].
  intros n. unfold plus, scal, mult; simpl. unfold mult; simpl. unfold gleg.
  destruct n; unfold PS_incr_1, PS_derive; simpl.
  - unfold zero; simpl. ring.
  - change (match n with 0%nat => 1 | S _ => INR n + 1 end) with (INR (S n)). ring.
Qed.

(** leg_sum as partial sums *)
Lemma leg_sum_S c n x : leg_sum c (S n) x = leg_sum c n x + c n * leg n x.
Proof.
  unfold leg_sum. rewrite seq_S, map_app. simpl.
  generalize (map (fun k => c k * leg k x) (seq 0 n)). induction l; simpl; [ring|rewrite IHl; ring].
Qed.
Lemma leg_sum_sum_n c n x : leg_sum c (S n) x = sum_n (fun k => c k * leg k x) n.
Proof.
  induction n. rewrite sum_O. unfold leg_sum; simpl; ring.
  rewrite leg_sum_S, IHn, sum_Sn. reflexivity.
Qed.
Lemma leg_sum_lim c x l : is_series (fun n => c n * leg n x) l ->
  is_lim_seq (fun N => leg_sum c N x) l.
Proof.
  intros H. apply is_lim_seq_incr_1.
  apply is_lim_seq_ext with (sum_n (fun k => c k * leg k x)).
  intros n; symmetry; apply leg_sum_sum_n. exact H.
Qed.
