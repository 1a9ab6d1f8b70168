(** Completeness of the Legendre polynomials: an absolutely summable Legendre series with the
    projection coefficients of a continuous function converges to it. *)
From Coq Require Import Reals List ZArith Arith Lra Lia Psatz.
From Coquelicot Require Import Coquelicot.
From Verif Require Import Base Sca_Model Sca_Spec Leg_Proofs Sca_Proofs Sca2_Proofs Sca3_Proofs Cvg_Spec Cvg_Proofs.
Import ListNotations.
Local Open Scope R_scope.

(** ** orthogonality *)
Lemma clv_step i n : (INR n + INR i + 3) * clv i (S (S n)) = (INR i - INR n) * clv i n.
Proof.
  unfold clv.
  replace (2 - Z.of_nat (S (S n)) + Z.of_nat i)%Z with (Z.of_nat i - Z.of_nat n)%Z by lia.
  replace (2 - Z.of_nat n + Z.of_nat i)%Z with (Z.of_nat i - Z.of_nat n + 2)%Z by lia.
  replace (3 + Z.of_nat (S (S n)) + Z.of_nat i)%Z with (3 + Z.of_nat n + Z.of_nat i + 2)%Z by lia.
  rewrite (rgam2_feq (Z.of_nat i - Z.of_nat n)), (rgam2_feq (3 + Z.of_nat n + Z.of_nat i)).
  rewrite minus_IZR, !plus_IZR, <- !INR_IZR_INZ.
  generalize (/ 2 ^ (1 + i) * sqrt PI * gam2 (2 + 2 * i)). intros w. field.
Qed.

Lemma clv_even k : clv 0 (2 * k + 2) = 0.
Proof.
  induction k.
  - pose proof (clv_step 0 0) as H. change (2 * 0 + 2)%nat with 2%nat. simpl INR in H.
    rewrite Rminus_0_r, Rmult_0_l in H. lra.
  - replace (2 * S k + 2)%nat with (S (S (2 * k + 2))) by lia.
    pose proof (clv_step 0 (2 * k + 2)) as H. rewrite IHk, Rmult_0_r in H. simpl (INR 0) in H.
    pose proof (pos_INR (2 * k + 2)). apply Rmult_integral in H. destruct H; lra.
Qed.

Lemma leg_int01 n : is_RInt (leg n) 0 1 (clv 0 n).
Proof. eapply is_RInt_extR; [lra| |apply (moment 0 n)]. intros x _. simpl. ring. Qed.

Lemma leg_int n : is_RInt (leg n) (-1) 1 (if Nat.eqb n 0 then 2 else 0).
Proof.
  assert (A : is_RInt (leg n) (-1) 0 ((-1) ^ n * clv 0 n)).
  { pose proof (leg_int01 n) as H. assert (H' : is_RInt (leg n) (- 0) (- -1) (clv 0 n)).
    { replace (- 0) with 0 by ring. replace (- -1) with 1 by ring. exact H. }
    apply is_RInt_comp_opp in H'. apply is_RInt_swap in H'. apply (is_RInt_scalR _ _ _ (- (-1) ^ n)) in H'.
    eapply is_RInt_replace; [|eapply is_RInt_extR; [lra| |exact H']].
    - unfold opp; simpl. ring.
    - intros x _. cbv beta. unfold opp; simpl. rewrite leg_opp.
      replace (- (-1) ^ n * - ((-1) ^ n * leg n x)) with (((-1) ^ n * (-1) ^ n) * leg n x) by ring.
      rewrite <- Rpow_mult_distr. replace (-1 * -1) with 1 by ring. rewrite pow1. ring. }
  pose proof (is_RInt_Chasles _ _ _ _ _ _ A (leg_int01 n)) as C.
  eapply is_RInt_replace; [|exact C]. unfold plus; simpl.
  destruct (Nat.eqb_spec n 0) as [->|Hn].
  - rewrite clv_0. simpl. field.
  - destruct (Nat.Even_or_Odd n) as [[k Hk]|[k Hk]].
    + destruct k; [lia|]. replace n with (2 * k + 2)%nat by lia. rewrite clv_even. ring.
    + rewrite Hk, pow_add, pow_1, pow_mult. replace ((-1) ^ 2) with 1 by ring. rewrite pow1. ring.
Qed.

Lemma xleg n x : x * leg (S n) x = (INR (S (S n)) * leg (S (S n)) x + INR (S n) * leg n x) / (2 * INR (S n) + 1).
Proof. rewrite leg_rec. pose proof (pos_INR (S n)). field. lra. Qed.

Definition lorth (n m : nat) : R := if Nat.eqb n m then 2 / (2 * INR n + 1) else 0.

Lemma leg_orth : forall m n, is_RInt (fun x => leg n x * leg m x) (-1) 1 (lorth n m).
Proof.
  assert (P0 : forall n, is_RInt (fun x => leg n x * leg 0 x) (-1) 1 (lorth n 0)).
  { intros n. eapply is_RInt_replace; [|eapply is_RInt_extR; [lra| |apply (leg_int n)]].
    - unfold lorth. destruct (Nat.eqb_spec n 0) as [->|]; simpl; [field|reflexivity].
    - intros x _. rewrite leg_0. ring. }
  assert (H : forall m, (forall n, is_RInt (fun x => leg n x * leg m x) (-1) 1 (lorth n m)) /\
                        (forall n, is_RInt (fun x => leg n x * leg (S m) x) (-1) 1 (lorth n (S m)))).
  2:{ intros m. exact (proj1 (H m)). }
  induction m as [|m [IH1 IH2]].
  - split; [exact P0|]. intros [|n].
    + eapply is_RInt_replace; [|eapply is_RInt_extR; [lra| |apply (leg_int 1)]]; [reflexivity|].
      intros x _. rewrite leg_0. ring.
    + pose proof (is_RInt_scalR _ _ _ (/ (2 * INR (S n) + 1)) _ (is_RInt_plusR _ _ _ _ _ _
         (is_RInt_scalR _ _ _ (INR (S (S n))) _ (leg_int (S (S n)))) (is_RInt_scalR _ _ _ (INR (S n)) _ (leg_int n)))) as Q.
      eapply is_RInt_replace; [|eapply is_RInt_extR; [lra| |exact Q]].
      * unfold lorth. destruct n; simpl; field; try lra. change (match n with 0%nat => 1 | S _ => INR n + 1 end) with (INR (S n)).
        pose proof (pos_INR (S n)). lra.
      * intros x _. cbv beta. rewrite leg_1. rewrite (Rmult_comm (leg (S n) x) x), xleg. unfold Rdiv. ring.
  - split; [exact IH2|]. intros n.
    assert (Hm : INR (S (S m)) <> 0) by (apply not_0_INR; lia).
    destruct n as [|n].
    + pose proof (is_RInt_scalR _ _ _ (/ INR (S (S m))) _ (is_RInt_minusR _ _ _ _ _ _
         (is_RInt_scalR _ _ _ (2 * INR (S m) + 1) _ (IH2 1%nat)) (is_RInt_scalR _ _ _ (INR (S m)) _ (IH1 0%nat)))) as Q.
      eapply is_RInt_replace; [|eapply is_RInt_extR; [lra| |exact Q]].
      * unfold lorth. destruct m; simpl; field; try lra.
        change (match m with 0%nat => 1 | S _ => INR m + 1 end) with (INR (S m)). pose proof (pos_INR (S m)). lra.
      * intros x _. cbv beta. rewrite leg_0, leg_1. apply (Rmult_eq_reg_l (INR (S (S m)))); [|exact Hm].
        rewrite !Rmult_1_l. rewrite leg_rec. field. exact Hm.
    + pose proof (pos_INR (S n)) as Pn.
      pose proof (is_RInt_scalR _ _ _ (/ (2 * INR (S n) + 1)) _ (is_RInt_plusR _ _ _ _ _ _
         (is_RInt_scalR _ _ _ (INR (S (S n))) _ (IH2 (S (S n)))) (is_RInt_scalR _ _ _ (INR (S n)) _ (IH2 n)))) as Q1.
      pose proof (is_RInt_scalR _ _ _ (/ INR (S (S m))) _ (is_RInt_minusR _ _ _ _ _ _
         (is_RInt_scalR _ _ _ (2 * INR (S m) + 1) _ Q1) (is_RInt_scalR _ _ _ (INR (S m)) _ (IH1 (S n))))) as Q.
      eapply is_RInt_replace; [|eapply is_RInt_extR; [lra| |exact Q]].
      * unfold lorth. rewrite !S_INR. pose proof (pos_INR n). pose proof (pos_INR m).
        destruct (Nat.eqb_spec (S (S n)) (S m)), (Nat.eqb_spec n (S m)), (Nat.eqb_spec (S n) m), (Nat.eqb_spec (S n) (S (S m))); try lia.
        -- assert (m = S n) as -> by lia. rewrite !S_INR in *. field. lra.
        -- subst n. rewrite !S_INR in *. field. lra.
        -- field. lra.
      * intros x _. cbv beta. apply (Rmult_eq_reg_l (INR (S (S m)))); [|exact Hm].
        replace (INR (S (S m)) * (leg (S n) x * leg (S (S m)) x)) with (leg (S n) x * (INR (S (S m)) * leg (S (S m)) x)) by ring.
        rewrite leg_rec.
        replace (leg (S n) x * ((2 * INR (S m) + 1) * x * leg (S m) x - INR (S m) * leg m x)) with
          ((2 * INR (S m) + 1) * (x * leg (S n) x) * leg (S m) x - INR (S m) * (leg (S n) x * leg m x)) by ring.
        rewrite (xleg n x). field. split; [lra|exact Hm].
Qed.

(** ** a function orthogonal to all peaks is nowhere positive *)
Lemma peak (phi : R -> R) M x0 c d : (forall x, -1 <= x <= 1 -> Rabs (phi x) <= M) -> -1 <= x0 <= 1 -> 0 < c -> 0 < d <= 1 ->
  (forall x, -1 <= x <= 1 -> Rabs (x - x0) < d -> c <= phi x) ->
  (forall k, is_RInt (fun x => phi x * (1 + d ^ 2 / 8 - (x - x0) ^ 2 / 4) ^ k) (-1) 1 0) -> False.
Proof.
  intros HM Hx0 Hc Hd Hp HI.
  assert (AB : exists a b, -1 <= a /\ b <= 1 /\ b - a = d / 2 /\ forall x, a < x < b -> Rabs (x - x0) <= d / 2).
  { destruct (Rle_dec x0 0).
    - exists x0, (x0 + d / 2). repeat split; try lra. intros x Hx. rewrite Rabs_right; lra.
    - exists (x0 - d / 2), x0. repeat split; try lra. intros x Hx. rewrite Rabs_left; lra. }
  destruct AB as [a [b [Ha [Hb [Hab Hin]]]]].
  set (q := fun x => 1 + d ^ 2 / 8 - (x - x0) ^ 2 / 4).
  set (y := d ^ 2 / 16). assert (Hy : 0 < y) by (unfold y; apply Rdiv_lt_0_compat; [apply pow_lt; lra|lra]).
  assert (Hq0 : forall x, -1 <= x <= 1 -> 0 <= q x).
  { intros x Hx. unfold q. assert ((x - x0) ^ 2 <= 4) by nra. assert (0 <= d ^ 2) by apply pow2_ge_0. lra. }
  assert (Hq1 : forall x, d <= Rabs (x - x0) -> q x <= 1).
  { intros x Hx. unfold q. assert (d ^ 2 <= (x - x0) ^ 2).
    { rewrite <- (pow2_abs (x - x0)). apply pow_incr. lra. } assert (0 <= d ^ 2) by apply pow2_ge_0. lra. }
  assert (Hq2 : forall x, Rabs (x - x0) <= d / 2 -> 1 + y <= q x).
  { intros x Hx. unfold q, y. assert ((x - x0) ^ 2 <= (d / 2) ^ 2).
    { rewrite <- (pow2_abs (x - x0)). apply pow_incr. split; [apply Rabs_pos|exact Hx]. } nra. }
  assert (HM0 : 0 <= M) by (eapply Rle_trans; [apply Rabs_pos|apply (HM x0 Hx0)]).
  assert (Low : forall k x, -1 <= x <= 1 -> - M <= phi x * q x ^ k).
  { intros k x Hx. pose proof (pow_le (q x) k (Hq0 x Hx)) as Pk.
    destruct (Rlt_dec (Rabs (x - x0)) d) as [L|L].
    - pose proof (Hp x Hx L). assert (0 <= phi x * q x ^ k) by (apply Rmult_le_pos; lra). lra.
    - assert (q x ^ k <= 1) by (rewrite <- (pow1 k); apply pow_incr; split; [apply Hq0, Hx|apply Hq1; lra]).
      pose proof (HM x Hx) as B. apply Rabs_le_between in B. destruct (Rle_dec 0 (phi x)).
      + assert (0 <= phi x * q x ^ k) by (apply Rmult_le_pos; lra). lra.
      + assert (phi x * 1 <= phi x * q x ^ k) by nra. lra. }
  assert (Key : forall k, d / 2 * (c * (1 + y) ^ k) <= 2 * M).
  { intros k. specialize (HI k). fold q in HI. change (is_RInt (fun x => phi x * q x ^ k) (-1) 1 0) in HI.
    assert (E : ex_RInt (fun x => phi x * q x ^ k) (-1) 1) by (eexists; exact HI).
    assert (E1 : ex_RInt (fun x => phi x * q x ^ k) (-1) b) by (apply (ex_RInt_Chasles_1 (V := R_CompleteNormedModule) _ (-1) b 1); [lra|exact E]).
    assert (E2 : ex_RInt (fun x => phi x * q x ^ k) b 1) by (apply (ex_RInt_Chasles_2 (V := R_CompleteNormedModule) _ (-1) b 1); [lra|exact E]).
    assert (E3 : ex_RInt (fun x => phi x * q x ^ k) (-1) a) by (apply (ex_RInt_Chasles_1 (V := R_CompleteNormedModule) _ (-1) a b); [lra|exact E1]).
    assert (E4 : ex_RInt (fun x => phi x * q x ^ k) a b) by (apply (ex_RInt_Chasles_2 (V := R_CompleteNormedModule) _ (-1) a b); [lra|exact E1]).
    destruct E2 as [l2 E2], E3 as [l3 E3], E4 as [l4 E4].
    pose proof (is_RInt_Chasles _ _ _ _ _ _ (is_RInt_Chasles _ _ _ _ _ _ E3 E4) E2) as T.
    assert (Z : l3 + l4 + l2 = 0).
    { pose proof (is_RInt_unique (V := R_CompleteNormedModule) _ _ _ _ T) as U1.
      pose proof (is_RInt_unique (V := R_CompleteNormedModule) _ _ _ _ HI) as U2.
      rewrite U1 in U2. exact U2. }
    assert (L3 : (a - -1) * (- M) <= l3) by (apply (is_RInt_le (fun _ => - M) (fun x => phi x * q x ^ k) (-1) a);
      [lra|apply is_RInt_constR|exact E3|intros x Hx; apply Low; lra]).
    assert (L2 : (1 - b) * (- M) <= l2) by (apply (is_RInt_le (fun _ => - M) (fun x => phi x * q x ^ k) b 1);
      [lra|apply is_RInt_constR|exact E2|intros x Hx; apply Low; lra]).
    assert (L4 : (b - a) * (c * (1 + y) ^ k) <= l4).
    { apply (is_RInt_le (fun _ => c * (1 + y) ^ k) (fun x => phi x * q x ^ k) a b); [lra|apply is_RInt_constR|exact E4|].
      intros x Hx. pose proof (Hin x Hx) as I1. apply Rmult_le_compat; [lra|apply pow_le; lra|apply Hp; lra|].
      apply pow_incr. split; [lra|apply Hq2, I1]. }
    rewrite Hab in L4. nra. }
  assert (D0 : 0 < d / 2 * c * y) by (apply Rmult_lt_0_compat; [apply Rmult_lt_0_compat; lra|lra]).
  destruct (nfloor_ex (2 * M / (d / 2 * c * y))) as [k0 [_ Hk]].
  { apply Rmult_le_pos; [lra|apply Rlt_le, Rinv_0_lt_compat, D0]. }
  rewrite <- S_INR in Hk. set (k := S k0) in *.
  specialize (Key k). pose proof (poly k y Hy) as Bern.
  assert (2 * M < INR k * (d / 2 * c * y)).
  { generalize dependent (d / 2 * c * y). intros z Hz Hk. apply (Rmult_lt_reg_r (/ z)); [apply Rinv_0_lt_compat, Hz|].
    rewrite (Rmult_assoc (INR k)), Rinv_r by lra. unfold Rdiv in Hk. lra. }
  assert (0 < d / 2 * c) by (apply Rmult_lt_0_compat; lra).
  assert (d / 2 * c * (1 + INR k * y) <= d / 2 * c * (1 + y) ^ k) by (apply Rmult_le_compat_l; lra). nra.
Qed.

(** ** tails of absolutely summable series *)
Definition abs_tail (c : nat -> R) (N : nat) : R := Series (fun k => Rabs (c (N + k)%nat)).

Lemma abs_ex c N : ex_series (fun n => Rabs (c n)) -> ex_series (fun k => Rabs (c (N + k)%nat)).
Proof. intros H. apply (ex_series_incr_n (fun n => Rabs (c n)) N) in H. exact H. Qed.

Lemma abs_tail_step c N : ex_series (fun n => Rabs (c n)) -> abs_tail c N = Rabs (c N) + abs_tail c (S N).
Proof.
  intros H. unfold abs_tail. rewrite Series_incr_1 by (apply abs_ex, H). rewrite Nat.add_0_r. f_equal.
  apply Series_ext. intros k. f_equal. f_equal. lia.
Qed.

Lemma abs_tail_nonneg c N : ex_series (fun n => Rabs (c n)) -> 0 <= abs_tail c N.
Proof.
  intros H. unfold abs_tail. rewrite <- (Rmult_0_l (Series (fun k => Rabs (c (N + k)%nat)))).
  rewrite <- Series_scal_l. apply Series_le; [|apply abs_ex, H]. intros n. rewrite Rmult_0_l. split; [lra|apply Rabs_pos].
Qed.

Lemma abs_tail_vanishing c : ex_series (fun n => Rabs (c n)) -> vanishing (abs_tail c).
Proof.
  intros H. split.
  - intros N. rewrite (abs_tail_step c N H). pose proof (Rabs_pos (c N)). lra.
  - assert (E : forall N, abs_tail c 0 = sum_n (fun n => Rabs (c n)) N + abs_tail c (S N)).
    { induction N; [rewrite sum_O; apply abs_tail_step, H|]. rewrite sum_Sn. rewrite (abs_tail_step c (S N) H) in IHN.
      rewrite IHN. unfold plus; simpl. ring. }
    apply is_lim_seq_incr_1. apply (is_lim_seq_ext (fun N => abs_tail c 0 - sum_n (fun n => Rabs (c n)) N)).
    { intros N. rewrite (E N). ring. }
    replace (Finite 0) with (Finite (abs_tail c 0 - abs_tail c 0)) by (f_equal; ring).
    apply is_lim_seq_minus'; [apply is_lim_seq_const|].
    apply (Series_correct (fun n => Rabs (c n))) in H. exact H.
Qed.

Lemma abs_tail_bound c N k x : ex_series (fun n => Rabs (c n)) -> -1 <= x <= 1 ->
  Rabs (leg_sum c (N + k) x - leg_sum c N x) <= abs_tail c N - abs_tail c (N + k).
Proof.
  intros H Hx. induction k.
  - rewrite Nat.add_0_r, !Rminus_eq_0, Rabs_R0. lra.
  - rewrite Nat.add_succ_r, leg_sum_S. rewrite (abs_tail_step c (N + k) H) in IHk.
    replace (leg_sum c (N + k) x + c (N + k)%nat * leg (N + k) x - leg_sum c N x)
      with ((leg_sum c (N + k) x - leg_sum c N x) + c (N + k)%nat * leg (N + k) x) by ring.
    eapply Rle_trans; [apply Rabs_triang|]. rewrite Rabs_mult.
    pose proof (leg_bound (N + k) x Hx) as L. pose proof (Rabs_pos (leg (N + k) x)). pose proof (Rabs_pos (c (N + k)%nat)).
    assert (Rabs (c (N + k)%nat) * Rabs (leg (N + k) x) <= Rabs (c (N + k)%nat) * 1) by (apply Rmult_le_compat_l; lra). lra.
Qed.

Lemma expands_abs c (h : R -> R) : ex_series (fun n => Rabs (c n)) ->
  (forall x, -1 <= x <= 1 -> is_lim_seq (fun N => leg_sum c N x) (h x)) -> expands c h (abs_tail c).
Proof.
  intros H Hl N x Hx. specialize (Hl x Hx). apply (is_lim_seq_incr_n _ N) in Hl.
  pose proof (is_lim_seq_minus' _ _ _ _ Hl (is_lim_seq_const (leg_sum c N x))) as L. cbv beta in L.
  apply is_lim_seq_abs in L. simpl in L. rewrite Rabs_minus_sym.
  apply (is_lim_seq_le (fun k => Rabs (leg_sum c (k + N) x - leg_sum c N x)) (fun _ => abs_tail c N)
           (Rabs (h x - leg_sum c N x)) (abs_tail c N)); [|exact L|apply is_lim_seq_const].
  intros k. rewrite Nat.add_comm. eapply Rle_trans; [apply abs_tail_bound; assumption|].
  pose proof (abs_tail_nonneg c (N + k) H). lra.
Qed.

(** ** uniform limits under the integral *)
Lemma RInt_uniform (f : nat -> R -> R) (g : R -> R) (h e : nat -> R) a b : a <= b ->
  (forall n, is_RInt (f n) a b (h n)) -> (forall n x, a <= x <= b -> Rabs (f n x - g x) <= e n) -> is_lim_seq e 0 ->
  exists l, is_RInt g a b l /\ is_lim_seq h l.
Proof.
  intros Hab Hf He Hl.
  set (clip := fun (q : R -> R) x => if Rle_dec a x then if Rle_dec x b then q x else 0 else 0).
  destruct (filterlim_RInt (fun n => clip (f n)) a b eventually _ (clip g) h) as [l [L1 L2]].
  - intros n. eapply is_RInt_extR; [exact Hab| |apply (Hf n)]. intros x Hx. unfold clip.
    destruct (Rle_dec a x); [|lra]. destruct (Rle_dec x b); [|lra]. reflexivity.
  - apply filterlim_locally. intros eps. apply is_lim_seq_spec in Hl. destruct (Hl eps) as [N HN].
    exists N. intros n Hn x. specialize (HN n Hn). rewrite Rminus_0_r in HN. cbv beta.
    change (Rabs (clip (f n) x - clip g x) < eps). eapply Rle_lt_trans; [|exact HN].
    unfold clip. destruct (Rle_dec a x) as [X0|_]; [destruct (Rle_dec x b) as [X1|_]|].
    + eapply Rle_trans; [apply He; lra|apply Rle_abs].
    + rewrite Rminus_0_r, Rabs_R0. apply Rabs_pos.
    + rewrite Rminus_0_r, Rabs_R0. apply Rabs_pos.
  - exists l. split; [|exact L1]. eapply is_RInt_extR; [exact Hab| |exact L2].
    intros x Hx. unfold clip. destruct (Rle_dec a x); [|lra]. destruct (Rle_dec x b); [|lra]. reflexivity.
Qed.

(** ** completeness *)
Section Complete.
  Variables (f : R -> R) (c : nat -> R).
  Hypothesis Hf : forall x, -1 <= x <= 1 -> continuous f x.
  Hypothesis Hc : forall n, is_RInt (fun x => f x * leg n x) (-1) 1 (c n * (2 / (2 * INR n + 1))).
  Hypothesis Hs : ex_series (fun n => Rabs (c n)).

  Definition lsum (x : R) : R := Series (fun n => c n * leg n x).

  Lemma lsum_lim x : -1 <= x <= 1 -> is_lim_seq (fun N => leg_sum c N x) (lsum x).
  Proof.
    intros Hx. apply leg_sum_lim, Series_correct. apply ex_series_Rabs.
    apply (ex_series_le (K := R_AbsRing) (V := R_CompleteNormedModule) _ (fun n => Rabs (c n))); [|exact Hs]. intros n. unfold norm; simpl. unfold abs; simpl.
    rewrite Rabs_Rabsolu, Rabs_mult. pose proof (leg_bound n x Hx). pose proof (Rabs_pos (c n)).
    rewrite <- (Rmult_1_r (Rabs (c n))) at 2. apply Rmult_le_compat_l; assumption.
  Qed.

  Lemma lsum_expands : expands c lsum (abs_tail c).
  Proof. apply expands_abs; [exact Hs|apply lsum_lim]. Qed.

  Lemma leg_sum_int m N : is_RInt (fun x => leg_sum c N x * leg m x) (-1) 1 (if Nat.ltb m N then c m * (2 / (2 * INR m + 1)) else 0).
  Proof.
    induction N.
    - eapply is_RInt_replace; [|eapply is_RInt_extR; [lra| |apply (is_RInt_constR (-1) 1 0)]]; [simpl; ring|].
      intros x _. unfold leg_sum; simpl. ring.
    - pose proof (is_RInt_plusR _ _ _ _ _ _ IHN (is_RInt_scalR _ _ _ (c N) _ (leg_orth m N))) as Q.
      eapply is_RInt_replace; [|eapply is_RInt_extR; [lra| |exact Q]].
      + unfold lorth. destruct (Nat.eqb_spec N m) as [->|Hn].
        * destruct (Nat.ltb_spec m m); [lia|]. destruct (Nat.ltb_spec m (S m)); [|lia]. ring.
        * destruct (Nat.ltb_spec m N), (Nat.ltb_spec m (S N)); try lia; ring.
      + intros x _. cbv beta. rewrite leg_sum_S. ring.
  Qed.

  Lemma lsum_int m : is_RInt (fun x => lsum x * leg m x) (-1) 1 (c m * (2 / (2 * INR m + 1))).
  Proof.
    destruct (RInt_uniform (fun N x => leg_sum c N x * leg m x) (fun x => lsum x * leg m x) _ (abs_tail c) (-1) 1 ltac:(lra) (leg_sum_int m)) as [l [L1 L2]].
    - intros n x Hx. replace (leg_sum c n x * leg m x - lsum x * leg m x) with ((leg_sum c n x - lsum x) * leg m x) by ring.
      rewrite Rabs_mult. pose proof (lsum_expands n x Hx). pose proof (leg_bound m x Hx).
      rewrite <- (Rmult_1_r (abs_tail c n)). apply Rmult_le_compat; try apply Rabs_pos; assumption.
    - apply abs_tail_vanishing, Hs.
    - assert (E : Finite l = Finite (c m * (2 / (2 * INR m + 1)))).
      { rewrite <- (is_lim_seq_unique _ _ L2). apply is_lim_seq_unique.
        apply (is_lim_seq_incr_n _ (S m)). apply (is_lim_seq_ext (fun _ => c m * (2 / (2 * INR m + 1)))); [|apply is_lim_seq_const].
        intros n. destruct (Nat.ltb_spec m (n + S m)); [reflexivity|lia]. }
      injection E as <-. exact L1.
  Qed.

  Definition ldiff (s x : R) : R := s * (f x - lsum x).

  Definition annih (s : R) (g : R -> R) : Prop := forall n, is_RInt (fun x => ldiff s x * g x * leg n x) (-1) 1 0.
  Lemma annih_1 s : annih s (fun _ => 1).
  Proof.
    intros n. pose proof (is_RInt_scalR _ _ _ s _ (is_RInt_minusR _ _ _ _ _ _ (Hc n) (lsum_int n))) as Q.
    eapply is_RInt_replace; [|eapply is_RInt_extR; [lra| |exact Q]]; [ring|]. intros x _. unfold ldiff. ring.
  Qed.
  Lemma annih_x s g : annih s g -> annih s (fun x => x * g x).
  Proof.
    intros H [|n].
    - eapply is_RInt_extR; [lra| |apply (H 1%nat)]. intros x _. cbv beta. rewrite leg_0, leg_1. ring.
    - pose proof (is_RInt_scalR _ _ _ (/ (2 * INR (S n) + 1)) _ (is_RInt_plusR _ _ _ _ _ _
         (is_RInt_scalR _ _ _ (INR (S (S n))) _ (H (S (S n)))) (is_RInt_scalR _ _ _ (INR (S n)) _ (H n)))) as Q.
      eapply is_RInt_replace; [|eapply is_RInt_extR; [lra| |exact Q]]; [ring|]. intros x _. cbv beta.
      replace (ldiff s x * (x * g x) * leg (S n) x) with (ldiff s x * g x * (x * leg (S n) x)) by ring.
      rewrite xleg. unfold Rdiv. ring.
  Qed.
  Lemma annih_lin s g h a b : annih s g -> annih s h -> annih s (fun x => a * g x + b * h x).
  Proof.
    intros H K n. pose proof (is_RInt_plusR _ _ _ _ _ _ (is_RInt_scalR _ _ _ a _ (H n)) (is_RInt_scalR _ _ _ b _ (K n))) as Q.
    eapply is_RInt_replace; [|eapply is_RInt_extR; [lra| |exact Q]]; [ring|]. intros x _. cbv beta. ring.
  Qed.
  Lemma annih_ext s g h : (forall x, g x = h x) -> annih s g -> annih s h.
  Proof. intros E H n. eapply is_RInt_extR; [lra| |apply (H n)]. intros x _. cbv beta. rewrite E. reflexivity. Qed.
  Lemma annih_quad s p q r k : annih s (fun x => (p + q * x + r * x ^ 2) ^ k).
  Proof.
    induction k; [simpl; apply annih_1|].
    apply annih_ext with (fun x => 1 * (p * (p + q * x + r * x ^ 2) ^ k + q * (x * (p + q * x + r * x ^ 2) ^ k))
                                    + r * (x * (x * (p + q * x + r * x ^ 2) ^ k))).
    { intros x. simpl. ring. }
    apply annih_lin; [apply annih_lin; [exact IHk|apply annih_x, IHk]|apply annih_x, annih_x, IHk].
  Qed.

  Lemma f_bounded : exists B, forall x, -1 <= x <= 1 -> Rabs (f x) <= B.
  Proof.
    destruct (continuity_ab_maj (fun x => Rabs (f x)) (-1) 1) as [x0 [Hm _]]; [lra| |].
    - intros x Hx. apply continuity_pt_filterlim. apply (continuous_comp f Rabs); [apply Hf; lra|]. apply continuous_Rabs.
    - exists (Rabs (f x0)). intros x Hx. apply Hm. lra.
  Qed.

  Lemma ldiff_nonpos s x0 : s = 1 \/ s = -1 -> -1 <= x0 <= 1 -> ldiff s x0 <= 0.
  Proof.
    intros Hs1 Hx0. destruct (Rle_lt_dec (ldiff s x0) 0) as [L|L]; [exact L|exfalso].
    assert (As : Rabs s = 1) by (destruct Hs1 as [-> | ->]; [apply Rabs_R1|rewrite Rabs_left; lra]).
    destruct f_bounded as [B HB]. set (w := ldiff s x0) in *.
    pose proof (abs_tail_vanishing c Hs) as [_ Hl]. apply is_lim_seq_spec in Hl.
    assert (W : 0 < w / 8) by lra. destruct (Hl (mkposreal _ W)) as [N HN]. specialize (HN N (Nat.le_refl _)). simpl in HN.
    rewrite Rminus_0_r in HN. rewrite Rabs_right in HN by (apply Rle_ge, abs_tail_nonneg, Hs).
    assert (Cn : continuous (fun x => f x - leg_sum c N x) x0).
    { apply contB; [apply Hf, Hx0|]. clear. induction N.
      - apply continuous_ext with (fun _ => 0); [intros; reflexivity|apply contC].
      - apply continuous_ext with (fun x => leg_sum c N x + c N * leg N x); [intros; symmetry; apply leg_sum_S|].
        apply contP; [exact IHN|apply contM; [apply contC|apply leg_continuous]]. }
    assert (W4 : 0 < w / 4) by lra.
    destruct (proj1 (filterlim_locally _ _) Cn (mkposreal _ W4)) as [d Hd].
    set (d' := Rmin d 1). assert (D' : 0 < d' <= 1) by (unfold d'; split; [apply Rmin_pos; [apply cond_pos|lra]|apply Rmin_r]).
    refine (peak (ldiff s) (B + abs_tail c 0) x0 (w / 4) d' _ Hx0 W4 D' _ _).
    - intros x Hx. unfold ldiff. rewrite Rabs_mult, As, Rmult_1_l.
      eapply Rle_trans; [apply Rabs_triang|]. rewrite Rabs_Ropp. apply Rplus_le_compat; [apply HB, Hx|].
      apply (expands_total c lsum (abs_tail c) x lsum_expands Hx).
    - intros x Hx Hxd. specialize (Hd x). assert (Bd : ball x0 d x).
      { change (Rabs (x - x0) < d). eapply Rlt_le_trans; [exact Hxd|apply Rmin_l]. }
      specialize (Hd Bd). simpl in Hd. change (Rabs ((f x - leg_sum c N x) - (f x0 - leg_sum c N x0)) < w / 4) in Hd.
      pose proof (lsum_expands N x Hx) as E1. pose proof (lsum_expands N x0 Hx0) as E2.
      apply Rabs_def2 in Hd. apply Rabs_le_between in E1. apply Rabs_le_between in E2.
      unfold w, ldiff in *. destruct Hs1 as [-> | ->]; lra.
    - intros k. eapply is_RInt_extR; [lra| |apply (annih_quad s (1 + d' ^ 2 / 8 - x0 ^ 2 / 4) (x0 / 2) (- / 4) k 0%nat)].
      intros x _. cbv beta. rewrite leg_0, Rmult_1_r. f_equal. f_equal. field.
  Qed.

  Lemma legendre_complete x : -1 <= x <= 1 -> is_lim_seq (fun N => leg_sum c N x) (f x).
  Proof.
    intros Hx. replace (f x) with (lsum x); [apply lsum_lim, Hx|].
    pose proof (ldiff_nonpos 1 x (or_introl eq_refl) Hx) as A. pose proof (ldiff_nonpos (-1) x (or_intror eq_refl) Hx) as B.
    unfold ldiff in *. lra.
  Qed.
End Complete.

(** ** cosine lobes *)
Lemma clv_abs_step i n : (i <= n)%nat -> (INR n + INR i + 3) * Rabs (clv i (S (S n))) = (INR n - INR i) * Rabs (clv i n).
Proof.
  intros H. pose proof (clv_step i n) as E. apply (f_equal Rabs) in E. rewrite !Rabs_mult in E.
  pose proof (pos_INR n). pose proof (pos_INR i). apply le_INR in H.
  rewrite (Rabs_right (INR n + INR i + 3)) in E by lra. rewrite (Rabs_left1 (INR i - INR n)) in E by lra. lra.
Qed.

Lemma nonneg_series (a : nat -> R) B : (forall n, 0 <= a n) -> (forall n, sum_n a n <= B) -> ex_series a.
Proof.
  intros Ha HB. destruct (ex_finite_lim_seq_incr (sum_n a) B) as [l Hl]; [|exact HB|exists l; exact Hl].
  intros n. rewrite sum_Sn. unfold plus; simpl. specialize (Ha (S n)). lra.
Qed.

Lemma coslobe_summable i : (1 <= i)%nat -> ex_series (fun n => Rabs (coslobe_coefs i n)).
Proof.
  intros Hi. set (u := fun n => (2 * INR n + 1) * Rabs (clv i n)).
  assert (Hi' : 1 <= INR i) by (change 1 with (INR 1); apply le_INR, Hi).
  assert (S0 : ex_series u).
  { apply (ex_series_incr_n u i).
    set (D := fun n => (INR n + INR i + 1) * (INR n - / 2) * Rabs (clv i n)).
    assert (DS : forall n, (i <= n)%nat -> D n = D (S (S n)) + (2 * INR i - 1) / 2 * u n).
    { intros n Hn. unfold D, u. rewrite !S_INR. pose proof (clv_abs_step i n Hn) as E.
      replace ((INR n + 1 + 1 + INR i + 1) * (INR n + 1 + 1 - / 2) * Rabs (clv i (S (S n)))) with
        ((INR n + 1 + 1 - / 2) * ((INR n + INR i + 3) * Rabs (clv i (S (S n))))) by ring.
      rewrite E. field. }
    assert (D0 : forall n, (i <= n)%nat -> 0 <= D n).
    { intros n Hn. apply le_INR in Hn. unfold D. apply Rmult_le_pos; [apply Rmult_le_pos; lra|apply Rabs_pos]. }
    apply (nonneg_series _ (2 / (2 * INR i - 1) * (D i + D (S i)))).
    - intros n. unfold u. apply Rmult_le_pos; [pose proof (pos_INR (i + n)); lra|apply Rabs_pos].
    - assert (Q : forall n, (2 * INR i - 1) / 2 * sum_n (fun k => u (i + k)%nat) n + (D (i + n + 1)%nat + D (i + n + 2)%nat) = D i + D (S i)).
      { induction n.
        - rewrite sum_O, !Nat.add_0_r. rewrite (DS i) by lia. replace (i + 2)%nat with (S (S i)) by lia. replace (i + 1)%nat with (S i) by lia. ring.
        - rewrite sum_Sn. unfold plus; simpl (_ + _). rewrite <- IHn. rewrite (DS (i + n + 1)%nat) by lia.
          replace (i + S n + 1)%nat with (i + n + 2)%nat by lia. replace (i + S n + 2)%nat with (S (S (i + n + 1))) by lia.
          replace (i + S n)%nat with (i + n + 1)%nat by lia. ring. }
      intros n. specialize (Q n). pose proof (D0 (i + n + 1)%nat ltac:(lia)). pose proof (D0 (i + n + 2)%nat ltac:(lia)).
      apply (Rmult_le_reg_l ((2 * INR i - 1) / 2)); [lra|].
      replace ((2 * INR i - 1) / 2 * (2 / (2 * INR i - 1) * (D i + D (S i)))) with (D i + D (S i)) by (field; lra). lra. }
  apply (ex_series_ext (fun n => / (2 * PI) * u n)).
  - intros n. rewrite coslobe_coefs_clv, !Rabs_mult. unfold u. pose proof (pos_INR n). pose proof PI_pos.
    assert (0 < 1 / PI) by (apply Rdiv_lt_0_compat; lra).
    rewrite (Rabs_right ((2 * INR n + 1) / 2)), (Rabs_right (1 / PI)) by lra.
    match goal with |- ?a = ?b => change (@eq R a b) end. field. lra.
  - apply (ex_series_scal_l (/ (2 * PI)) u), S0.
Qed.

Lemma coslobe_cont i x : (1 <= i)%nat -> continuous (coslobe_func i) x.
Proof.
  intros Hi. apply continuous_ext with (fun y => 1 / PI * ((y + Rabs y) / 2) ^ i).
  { intros y. assert (E : (y + Rabs y) / 2 = y * (1 + sgn y) / 2).
    { unfold sgn. destruct (Rlt_dec 0 y); [rewrite Rabs_right by lra; field|].
      destruct (Rlt_dec y 0); [rewrite Rabs_left by lra; field|]. assert (y = 0) as -> by lra. rewrite Rabs_R0. field. }
    rewrite E. reflexivity. }
  apply contM; [apply contC|].
  apply (continuous_comp (fun y => (y + Rabs y) / 2) (fun z => z ^ i)).
  - apply contM; [|apply contC]. apply contP; [apply contI|apply continuous_Rabs].
  - apply ex_derive_cont. auto_derive. exact I.
Qed.

Lemma coslobe_complete i x : (1 <= i)%nat -> -1 <= x <= 1 -> is_lim_seq (fun N => leg_sum (coslobe_coefs i) N x) (coslobe_func i x).
Proof.
  intros Hi Hx. apply legendre_complete; [intros; apply coslobe_cont, Hi| |apply coslobe_summable, Hi|exact Hx].
  intros n. eapply is_RInt_replace; [|apply (coslobe_int i n Hi)]. rewrite coslobe_coefs_clv. pose proof (pos_INR n). field.
  pose proof PI_pos. split; lra.
Qed.
