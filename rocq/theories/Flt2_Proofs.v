(** Proofs for Flt_Model.v: signs, monotonicity, numbers next to 1 *)
From Coq Require Import Reals List ZArith Lra Lia Psatz.
From Flocq Require Import Core Relative.
From Verif Require Import Flt_Model Flt_Spec Flt_Proofs.
Import ListNotations.
Local Open Scope R_scope.

#[local] Existing Instance Hp53.
(** the double below 1 is 1 - 2^-53 *)
Lemma below_one g : is_double g -> g < 1 -> g <= 1 - bpow radix2 (-53).
Proof.
  intros Hg H. pose proof (pred_ge_gt radix2 (FLT_exp (-1074) 53) g 1 Hg double_1 H) as A.
  change 1 with (bpow radix2 0) in A at 1. rewrite pred_bpow in A. exact A.
Qed.
Lemma round_to_one y : 1 - bpow radix2 (-54) < y -> y <= 1 -> dbl y = 1.
Proof.
  intros H1 H2. pose proof (dbl_le y 1 H2) as L. rewrite dbl_1 in L. destruct L as [L|L]; [exfalso|exact L].
  pose proof (below_one _ (dbl_is y) L) as B.
  destruct (round_N_pt radix2 (FLT_exp (-1074) 53) (fun t => negb (Z.even t)) y) as [_ N].
  specialize (N 1 double_1). fold (dbl y) in N.
  assert (E : bpow radix2 (-53) = 2 * bpow radix2 (-54)). { change (-53)%Z with (1 + -54)%Z. rewrite bpow_plus. reflexivity. }
  rewrite (Rabs_pos_eq (1 - y)) in N by lra. rewrite Rabs_left1 in N by lra. lra.
Qed.

Section Signs.
Variables (expf cosf : R -> R).
Hypothesis Hr : exp_range expf.

Lemma div_pos x y : 0 <= x -> 0 < y -> 0 <= x / y.
Proof. intros H1 H2. apply Rmult_le_pos; [exact H1|left; now apply Rinv_0_lt_compat]. Qed.
Lemma arg_nonpos i : sane i -> upward cosf i -> farg dbl cosf i <= 0.
Proof.
  intros (_ & _ & Ht & _) [U0 U1]. unfold farg, fmu_0, fmu_ex. rewrite <- dbl_0. apply dbl_le.
  pose proof (dbl_pos _ (div_pos _ _ Ht U0)). pose proof (dbl_pos _ (div_pos _ _ Ht U1)). lra.
Qed.
Lemma I_bs_pos i : sane i -> upward cosf i -> 0 <= fI_bs dbl cosf i.
Proof.
  intros (HI & _ & _ & _ & _ & Hb & _) [U0 U1]. unfold fI_bs, fmu_0. apply dbl_pos, Rmult_le_pos; [|exact Hb]. apply dbl_pos. apply Rmult_le_pos; lra.
Qed.
Lemma Isurf_pos i : sane i -> upward cosf i -> 0 <= fIsurf dbl expf cosf i <= fI_bs dbl cosf i.
Proof.
  intros S U. pose proof (I_bs_pos i S U) as P. destruct (Hr _ (arg_nonpos i S U)) as [E0 E1]. unfold fIsurf. split.
  - apply dbl_pos. now apply Rmult_le_pos.
  - rewrite <- (dbl_id (fI_bs dbl cosf i)) at 2 by apply dbl_is. apply dbl_le. nra.
Qed.
Lemma surface_pos i : sane i -> upward cosf i -> 0 <= fsurface dbl expf cosf i.
Proof.
  intros S U. pose proof (I_bs_pos i S U). pose proof (Isurf_pos i S U). destruct S as (_ & _ & _ & HN & Hb & _). unfold fsurface.
  apply dbl_pos, Rmult_le_pos; [exact HN|]. apply dbl_pos, Rplus_le_le_0_compat; apply dbl_pos, Rmult_le_pos; try lra. apply dbl_pos. lra.
Qed.
Lemma factor_pos i : sane i -> upward cosf i -> 0 <= ffactor dbl cosf i.
Proof.
  intros (HI & Ho & _) [U0 U1]. unfold ffactor, fmu_0, fmu_ex in *. apply dbl_pos.
  destruct (Rle_lt_or_eq_dec 0 (dbl (cosf (i_t0 i) + cosf (i_tex i)))) as [L|L]; [apply dbl_pos; lra| |].
  - apply div_pos; [|exact L]. apply dbl_pos, Rmult_le_pos; [|lra]. apply dbl_pos. now apply Rmult_le_pos.
  - rewrite <- L. unfold Rdiv. rewrite Rinv_0. lra.
Qed.
Lemma absorbed_range i : sane i -> upward cosf i -> 0 <= fabsorbed dbl expf cosf i <= 1.
Proof.
  intros S U. destruct (Hr _ (arg_nonpos i S U)) as [E0 E1]. unfold fabsorbed. split; [apply dbl_pos; lra|]. rewrite <- dbl_1. rewrite dbl_1 at 1. apply dbl_le. lra.
Qed.
Lemma volume_pos i : sane i -> upward cosf i -> 0 <= fvolume dbl expf cosf i.
Proof.
  intros S U. pose proof (factor_pos i S U). pose proof (absorbed_range i S U). destruct S as (_ & _ & _ & _ & Hb & _ & Hp). unfold fvolume.
  apply dbl_pos, Rmult_le_pos; [apply dbl_pos; lra|]. apply dbl_pos, Rmult_le_pos; [|exact Hp]. apply dbl_pos, Rmult_le_pos; lra.
Qed.

Lemma arg_mono i t t' : upward cosf i -> t <= t' -> farg dbl cosf (with_tau i t') <= farg dbl cosf (with_tau i t).
Proof.
  intros [U0 U1] H. unfold farg, fmu_0, fmu_ex. cbn. apply dbl_le.
  assert (A : forall y, 0 < y -> dbl (t / y) <= dbl (t' / y)).
  { intros y Hy. apply dbl_le. apply Rmult_le_compat_r; [left; now apply Rinv_0_lt_compat|exact H]. }
  pose proof (A _ U0). pose proof (A _ U1). lra.
Qed.
End Signs.
