(** Proofs for Flt_Model.v *)
From Coq Require Import Reals List ZArith Lra Lia Psatz.
From Flocq Require Import Core Relative.
From Verif Require Import Flt_Model Flt_Spec.
Import ListNotations.
Local Open Scope R_scope.

Lemma Hp53 : Prec_gt_0 53. Proof. unfold Prec_gt_0. lia. Qed.
#[local] Existing Instance Hp53.
Lemma dbl_le x y : x <= y -> dbl x <= dbl y.
Proof. intros H. unfold dbl. apply round_le; [apply FLT_exp_valid; exact Hp53|apply valid_rnd_N|exact H]. Qed.
Lemma dbl_0 : dbl 0 = 0.
Proof. unfold dbl. apply round_0. apply valid_rnd_N. Qed.
Lemma dbl_id x : is_double x -> dbl x = x.
Proof. intros H. unfold dbl. apply round_generic; [apply valid_rnd_N|exact H]. Qed.
Lemma dbl_is x : is_double (dbl x).
Proof. unfold dbl, is_double. apply generic_format_round; [apply FLT_exp_valid; exact Hp53|apply valid_rnd_N]. Qed.
Lemma double_1 : is_double 1.
Proof. change 1 with (bpow radix2 0). apply generic_format_bpow'; [apply FLT_exp_valid; exact Hp53|]. unfold FLT_exp. lia. Qed.
Lemma dbl_1 : dbl 1 = 1. Proof. apply dbl_id, double_1. Qed.
Lemma dbl_pos x : 0 <= x -> 0 <= dbl x.
Proof. intros H. rewrite <- dbl_0. now apply dbl_le. Qed.
Lemma dbl_opp x : dbl (- x) = - dbl x.
Proof. apply round_NE_opp. Qed.

Lemma u_small : 0 < bpow radix2 (-53) < / 1000.
Proof.
  split; [apply bpow_gt_0|]. apply Rlt_le_trans with (bpow radix2 (-10)); [apply bpow_lt; lia|].
  change (bpow radix2 (-10)) with (/ IZR 1024). apply Rinv_le; lra.
Qed.
Lemma w_exp : exp (- w) = 1 - bpow radix2 (-53).
Proof. unfold w. rewrite Ropp_involutive. apply exp_ln. pose proof u_small. lra. Qed.
Lemma w_exp' : 1 + bpow radix2 (-53) <= exp w.
Proof.
  assert (E : exp w * exp (- w) = 1) by (rewrite <- exp_plus, Rplus_opp_r; apply exp_0).
  rewrite w_exp in E. pose proof u_small. pose proof (exp_pos w). nra.
Qed.
Lemma w_pos : 0 < w.
Proof.
  apply exp_lt_inv. rewrite exp_0. pose proof w_exp'. pose proof u_small. lra.
Qed.

Lemma near_rnd x : 0 <= x -> normal x -> near w (dbl x) x.
Proof.
  intros H0 [->|H].
  - unfold near. rewrite dbl_0. lra.
  - pose proof (relative_error_N_FLT radix2 (-1074) 53 ltac:(lia) (fun t => negb (Z.even t)) x) as E.
    change (-1074 + 53 - 1)%Z with (-1022)%Z in E. specialize (E H). change (- (53) + 1)%Z with (-52)%Z in E.
    fold (dbl x) in E. rewrite (Rabs_pos_eq x H0) in E.
    assert (U : / 2 * bpow radix2 (-52) = bpow radix2 (-53)).
    { change (-52)%Z with (-53 + 1)%Z. rewrite bpow_plus. change (bpow radix2 1) with 2. lra. }
    rewrite U in E. apply Rabs_le_inv in E. unfold near. rewrite w_exp. pose proof w_exp'. nra.
Qed.
Lemma near_refl e x : 0 <= e -> 0 <= x -> near e x x.
Proof.
  intros He Hx. unfold near. assert (1 <= exp e) by (rewrite <- exp_0; destruct He as [He|<-]; [left; now apply exp_increasing|lra]).
  assert (exp (- e) <= 1) by (rewrite <- exp_0; destruct He as [He|<-]; [left; apply exp_increasing; lra|rewrite Ropp_0; lra]). nra.
Qed.
Lemma near_pos e x y : near e x y -> 0 <= y -> 0 <= x.
Proof. intros [A _] H. pose proof (exp_pos (- e)). nra. Qed.
Lemma near_spos e x y : near e x y -> 0 < y -> 0 < x.
Proof. intros [A _] H. pose proof (exp_pos (- e)). assert (0 < y * exp (- e)) by now apply Rmult_lt_0_compat. lra. Qed.
Lemma near_trans e1 e2 x y z : near e1 x y -> near e2 y z -> near (e1 + e2) x z.
Proof.
  intros [A B] [C D]. unfold near. replace (- (e1 + e2)) with (- e2 + - e1) by ring. rewrite (Rplus_comm e1 e2), !exp_plus, <- !Rmult_assoc.
  split.
  - eapply Rle_trans; [|exact A]. apply Rmult_le_compat_r; [left; apply exp_pos|exact C].
  - eapply Rle_trans; [exact B|]. apply Rmult_le_compat_r; [left; apply exp_pos|exact D].
Qed.
Lemma near_round e x y : near e x y -> 0 <= y -> normal x -> near (e + w) (dbl x) y.
Proof. intros H Hy Hn. rewrite Rplus_comm. apply near_trans with x; [|exact H]. apply near_rnd; [exact (near_pos _ _ _ H Hy)|exact Hn]. Qed.
Lemma near_mult e1 e2 x1 x2 y1 y2 : near e1 x1 y1 -> near e2 x2 y2 -> 0 <= y1 -> 0 <= y2 -> near (e1 + e2) (x1 * x2) (y1 * y2).
Proof.
  intros H1 H2 P1 P2. pose proof (near_pos _ _ _ H1 P1). pose proof (near_pos _ _ _ H2 P2). destruct H1 as [A B], H2 as [C D].
  unfold near. rewrite Ropp_plus_distr, !exp_plus. pose proof (exp_pos (- e1)). pose proof (exp_pos (- e2)). pose proof (exp_pos e1). pose proof (exp_pos e2).
  split.
  - replace (y1 * y2 * (exp (- e1) * exp (- e2))) with ((y1 * exp (- e1)) * (y2 * exp (- e2))) by ring. apply Rmult_le_compat; nra.
  - replace (y1 * y2 * (exp e1 * exp e2)) with ((y1 * exp e1) * (y2 * exp e2)) by ring. apply Rmult_le_compat; nra.
Qed.
Lemma near_inv e x y : near e x y -> 0 < y -> near e (/ x) (/ y).
Proof.
  intros H P. pose proof (near_spos _ _ _ H P) as Q. destruct H as [A B]. unfold near.
  assert (E : exp e * exp (- e) = 1) by (rewrite <- exp_plus, Rplus_opp_r; apply exp_0). pose proof (exp_pos e). pose proof (exp_pos (- e)).
  split.
  - replace (exp (- e)) with (/ exp e) by (rewrite exp_Ropp; reflexivity). rewrite <- Rinv_mult. apply Rinv_le; assumption.
  - replace (exp e) with (/ exp (- e)) by (rewrite exp_Ropp, Rinv_inv; reflexivity). rewrite <- Rinv_mult. apply Rinv_le; [|exact A]. now apply Rmult_lt_0_compat.
Qed.
Lemma near_div e1 e2 x1 x2 y1 y2 : near e1 x1 y1 -> near e2 x2 y2 -> 0 <= y1 -> 0 < y2 -> near (e1 + e2) (x1 / x2) (y1 / y2).
Proof. intros H1 H2 P1 P2. unfold Rdiv. apply near_mult; auto. now apply near_inv. left. now apply Rinv_0_lt_compat. Qed.
Lemma near_plus e x1 x2 y1 y2 : near e x1 y1 -> near e x2 y2 -> near e (x1 + x2) (y1 + y2).
Proof. intros [A B] [C D]. unfold near. lra. Qed.
Lemma near_weak e e' x y : near e x y -> e <= e' -> 0 <= y -> near e' x y.
Proof.
  intros [A B] H P. unfold near.
  assert (exp e <= exp e') by (destruct H as [H|<-]; [left; now apply exp_increasing|lra]).
  assert (exp (- e') <= exp (- e)) by (destruct H as [H|<-]; [left; apply exp_increasing; lra|lra]). nra.
Qed.
Lemma exp_ge1 e : 0 <= e -> 1 <= exp e.
Proof. intros [H|<-]; [rewrite <- exp_0; left; now apply exp_increasing|rewrite exp_0; lra]. Qed.

(** an error of the exponent *)
Lemma near_exp e x y : 0 <= e -> 0 <= y -> near e x y -> near (y * (exp e - 1)) (exp (- x)) (exp (- y)).
Proof.
  intros He Hy [A B]. unfold near. rewrite <- !exp_plus.
  assert (E : exp e * exp (- e) = 1) by (rewrite <- exp_plus, Rplus_opp_r; apply exp_0). pose proof (exp_pos e). pose proof (exp_pos (- e)). pose proof (exp_ge1 e He).
  assert (L : forall a b, a <= b -> exp a <= exp b) by (intros a b [Hab| ->]; [left; now apply exp_increasing|lra]).
  assert (1 - exp (- e) <= exp e - 1) by nra.
  split; apply L; nra.
Qed.
(** an error of exp(-X) in 1 - exp(-X) *)
Lemma near_one_minus d X E : 0 < X -> 0 <= d -> (exp d - 1) / X < 1 -> near d E (exp (- X)) ->
  near (- ln (1 - (exp d - 1) / X)) (1 - E) (1 - exp (- X)).
Proof.
  intros HX Hd Hq [A B]. set (q := (exp d - 1) / X) in *. pose proof (exp_ge1 d Hd) as D1.
  assert (q0 : 0 <= q) by (unfold q; apply Rmult_le_pos; [lra|left; now apply Rinv_0_lt_compat]).
  unfold near. rewrite Ropp_involutive, exp_ln by lra. rewrite (exp_Ropp (ln (1 - q))), exp_ln by lra.
  assert (Ed : exp d * exp (- d) = 1) by (rewrite <- exp_plus, Rplus_opp_r; apply exp_0).
  assert (EX : exp X * exp (- X) = 1) by (rewrite <- exp_plus, Rplus_opp_r; apply exp_0).
  assert (X1 : 1 + X <= exp X) by (left; apply exp_ineq1; lra).
  pose proof (exp_pos (- X)) as P. pose proof (exp_pos (- d)) as Pd.
  assert (K : exp (- X) * X <= 1 - exp (- X)) by nra.
  assert (Kq : exp (- X) * (exp d - 1) <= (1 - exp (- X)) * q).
  { replace (exp d - 1) with (q * X) by (unfold q; field; lra). nra. }
  split; [lra|].
  assert (S : 1 - exp (- d) <= exp d - 1) by nra.
  assert (U : 1 - E <= (1 - exp (- X)) * (1 + q)) by nra.
  eapply Rle_trans; [exact U|]. apply Rmult_le_compat_l; [nra|].
  apply Rmult_le_reg_r with (1 - q); [lra|]. rewrite Rinv_l by lra. nra.
Qed.

Ltac pos := repeat apply Rmult_le_pos; try lra; try (left; apply exp_pos).

Section Acc.
Variables (expf cosf : R -> R) (i : inputs) (a c : R).
Hypothesis Hs : sane i.
Hypothesis Ha : 0 <= a.
Hypothesis Hc : 0 <= c.
Hypothesis He : accurate_exp a expf.
Hypothesis Hc0 : accurate_cos c cosf (i_t0 i).
Hypothesis Hc1 : accurate_cos c cosf (i_tex i).
Hypothesis P0 : 0 < cos (i_t0 i).
Hypothesis P1 : 0 < cos (i_tex i).
Hypothesis HL : path i * exp (c + 2 * w) <= 600.

Lemma path_pos : 0 <= path i.
Proof.
  unfold path. destruct Hs as (_ & _ & Ht & _). assert (0 < / cos (i_t0 i)) by now apply Rinv_0_lt_compat. assert (0 < / cos (i_tex i)) by now apply Rinv_0_lt_compat.
  unfold Rdiv. nra.
Qed.
(** the exponent *)
Lemma arg_near : normal (i_tau i / cosf (i_t0 i)) -> normal (i_tau i / cosf (i_tex i)) ->
  normal (- dbl (i_tau i / cosf (i_t0 i)) - dbl (i_tau i / cosf (i_tex i))) ->
  near (c + 2 * w) (- farg dbl cosf i) (path i) /\ farg dbl cosf i <= 0.
Proof.
  intros N1 N2 N3. pose proof w_pos as W. destruct Hs as (_ & _ & Ht & _).
  assert (D1 : 0 <= i_tau i / cos (i_t0 i)) by (apply Rmult_le_pos; [exact Ht|left; now apply Rinv_0_lt_compat]).
  assert (D2 : 0 <= i_tau i / cos (i_tex i)) by (apply Rmult_le_pos; [exact Ht|left; now apply Rinv_0_lt_compat]).
  assert (Q : forall t, accurate_cos c cosf t -> 0 < cos t -> normal (i_tau i / cosf t) -> near (c + w) (dbl (i_tau i / cosf t)) (i_tau i / cos t)).
  { intros t At Pt Nt. apply near_round; [|apply Rmult_le_pos; [exact Ht|left; now apply Rinv_0_lt_compat]|exact Nt].
    replace c with (0 + c) by ring. apply near_div; [apply near_refl; lra|exact At|exact Ht|exact Pt]. }
  pose proof (Q _ Hc0 P0 N1) as Q1. pose proof (Q _ Hc1 P1 N2) as Q2.
  assert (S : near (c + w) (dbl (i_tau i / cosf (i_t0 i)) + dbl (i_tau i / cosf (i_tex i))) (path i)) by (apply near_plus; assumption).
  assert (F : farg dbl cosf i = - dbl (dbl (i_tau i / cosf (i_t0 i)) + dbl (i_tau i / cosf (i_tex i)))).
  { unfold farg, fmu_0, fmu_ex. rewrite <- (dbl_opp (_ + _)). apply (f_equal dbl). ring. }
  rewrite F, Ropp_involutive. split.
  - replace (c + 2 * w) with (c + w + w) by ring. apply near_round; [exact S|exact path_pos|].
    destruct N3 as [N3|N3]; [left; lra|right]. rewrite <- Rabs_Ropp. replace (- (dbl (i_tau i / cosf (i_t0 i)) + dbl (i_tau i / cosf (i_tex i)))) with (- dbl (i_tau i / cosf (i_t0 i)) - dbl (i_tau i / cosf (i_tex i))) by ring. exact N3.
  - pose proof (near_pos _ _ _ S path_pos) as Z. apply dbl_pos in Z. lra.
Qed.
Definition ee : R := a + path i * (exp (c + 2 * w) - 1).
Lemma ee_pos : 0 <= ee.
Proof. unfold ee. pose proof path_pos. pose proof w_pos. pose proof (exp_ge1 (c + 2 * w) ltac:(lra)). nra. Qed.
Lemma exp_near : normal (i_tau i / cosf (i_t0 i)) -> normal (i_tau i / cosf (i_tex i)) ->
  normal (- dbl (i_tau i / cosf (i_t0 i)) - dbl (i_tau i / cosf (i_tex i))) ->
  near ee (expf (farg dbl cosf i)) (exp (- path i)).
Proof.
  intros N1 N2 N3. destruct (arg_near N1 N2 N3) as [A B]. unfold ee. apply near_trans with (exp (farg dbl cosf i)).
  - apply He. destruct A as [_ A]. lra.
  - replace (farg dbl cosf i) with (- - farg dbl cosf i) by ring. apply near_exp; [pose proof w_pos; lra|exact path_pos|exact A].
Qed.

Lemma surface_near b bx : 0 <= b -> 0 <= bx -> near b (i_brdf i) bx -> Forall normal (surface_steps expf cosf i) ->
  near (ee + b + c + 7 * w) (fsurface dbl expf cosf i) (exact_surface i bx).
Proof.
  intros Hb Hbx Nb N. unfold surface_steps in N. cbv zeta in N.
  repeat match goal with H : Forall normal (_ :: _) |- _ => inversion H; clear H; subst end. rename H1 into n1, H2 into n3, H3 into n2, H4 into n4.
  pose proof w_pos as W. pose proof ee_pos as E0. destruct Hs as (HI & Ho & Ht & HN & Hbs & _ & _).
  pose proof (exp_near n3 n4 H5) as XE. pose proof (exp_pos (- path i)) as EP.
  fold (fmu_0 cosf i) (fmu_ex cosf i) in *.
  assert (B : near (b + c + 2 * w) (fI_bs dbl cosf i) (i_I0 i * cos (i_t0 i) * bx)).
  { unfold fI_bs. replace (b + c + 2 * w) with (c + w + b + w) by ring. apply near_round; [|pos|exact n2].
    apply near_mult; [|exact Nb|pos|exact Hbx]. apply near_round; [|pos|exact n1].
    replace c with (0 + c) by ring. apply near_mult; [apply near_refl; lra|exact Hc0|exact HI|lra]. }
  set (G := i_I0 i * cos (i_t0 i) * bx) in *. assert (G0 : 0 <= G) by (unfold G; pos).
  assert (S : near (ee + (b + c + 2 * w) + w) (fIsurf dbl expf cosf i) (exp (- path i) * G)).
  { unfold fIsurf. apply near_round; [|pos|exact H6]. apply near_mult; [exact XE|exact B|lra|exact G0]. }
  assert (V : near (ee + b + c + 5 * w) (dbl (dbl (1 - i_bsf i) * fIsurf dbl expf cosf i)) ((1 - i_bsf i) * (exp (- path i) * G))).
  { replace (ee + b + c + 5 * w) with (w + (ee + (b + c + 2 * w) + w) + w) by ring. apply near_round; [|pos|exact H8].
    apply near_mult; [|exact S|lra|pos]. apply near_rnd; [lra|exact H7]. }
  assert (Z : near (ee + b + c + 5 * w) (dbl (i_bsf i * fI_bs dbl cosf i)) (i_bsf i * G)).
  { apply near_weak with (0 + (b + c + 2 * w) + w); [|lra|pos]. apply near_round; [|pos|exact H9]. apply near_mult; [apply near_refl; lra|exact B|lra|exact G0]. }
  unfold fsurface, exact_surface. fold G. replace (ee + b + c + 7 * w) with (0 + (ee + b + c + 5 * w + w) + w) by ring.
  assert (T0 : 0 <= (1 - i_bsf i) * (exp (- path i) * G) + i_bsf i * G) by (apply Rplus_le_le_0_compat; pos).
  apply near_round; [|now apply Rmult_le_pos|exact H11]. apply near_mult; [apply near_refl; lra| |exact HN|exact T0].
  apply near_round; [|exact T0|exact H10]. now apply near_plus.
Qed.

Lemma volume_near b px : 0 <= b -> 0 <= px -> near b (i_p i) px -> Forall normal (volume_steps expf cosf i) ->
  0 < path i -> (exp ee - 1) / path i < 1 ->
  near (- ln (1 - (exp ee - 1) / path i) + b + 2 * c + 9 * w) (fvolume dbl expf cosf i) (exact_volume i px).
Proof.
  intros Hb Hpx Nb N HX Hq. unfold volume_steps in N. cbv zeta in N.
  repeat match goal with H : Forall normal (_ :: _) |- _ => inversion H; clear H; subst end. rename H1 into n1, H2 into n3, H3 into n2, H4 into n4.
  pose proof w_pos as W. pose proof ee_pos as E0. destruct Hs as (HI & Ho & Ht & HN & Hbs & _ & _).
  pose proof (exp_near n1 n2 n3) as XE.
  pose proof (near_one_minus ee (path i) _ HX E0 Hq XE) as AB. set (h := - ln (1 - (exp ee - 1) / path i)) in *.
  fold (fmu_0 cosf i) (fmu_ex cosf i) in *.
  assert (E1 : exp (- path i) <= 1) by (rewrite <- exp_0; left; apply exp_increasing; lra).
  assert (F : near (2 * c + 4 * w) (ffactor dbl cosf i) (i_I0 i * i_omega i * cos (i_t0 i) / (cos (i_t0 i) + cos (i_tex i)))).
  { unfold ffactor. replace (2 * c + 4 * w) with ((w + c + w) + (c + w) + w) by ring.
    assert (Q : 0 <= i_I0 i * i_omega i * cos (i_t0 i)) by (pos).
    apply near_round; [|apply Rmult_le_pos; [exact Q|left; apply Rinv_0_lt_compat; lra]|exact H7].
    apply near_div; [| |exact Q|lra].
    - apply near_round; [|exact Q|exact H5]. apply near_mult; [|exact Hc0|pos|lra]. apply near_rnd; [pos|exact n4].
    - apply near_round; [|lra|exact H6]. now apply near_plus. }
  set (G := i_I0 i * i_omega i * cos (i_t0 i) / (cos (i_t0 i) + cos (i_tex i))) in *.
  assert (G0 : 0 <= G) by (unfold G; apply Rmult_le_pos; [pos|left; apply Rinv_0_lt_compat; lra]).
  assert (A : near (h + w) (fabsorbed dbl expf cosf i) (1 - exp (- path i))).
  { unfold fabsorbed. apply near_round; [exact AB|lra|exact H8]. }
  unfold fvolume, exact_volume. fold G.
  replace (h + b + 2 * c + 9 * w) with (w + ((2 * c + 4 * w) + (h + w) + w + b + w) + w) by ring.
  assert (Z1 : 0 <= G * (1 - exp (- path i))) by (apply Rmult_le_pos; [exact G0|lra]). assert (Z2 : 0 <= G * (1 - exp (- path i)) * px) by now apply Rmult_le_pos.
  apply near_round; [|apply Rmult_le_pos; [lra|exact Z2]|exact H12]. apply near_mult; [apply near_rnd; [lra|exact H11]| |lra|exact Z2].
  apply near_round; [|exact Z2|exact H10]. apply near_mult; [|exact Nb|exact Z1|exact Hpx].
  apply near_round; [|exact Z1|exact H9]. apply near_mult; [exact F|exact A|exact G0|lra].
Qed.
End Acc.
