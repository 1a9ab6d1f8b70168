(** Expansions of the shipped scattering functions. *)
From Coq Require Import Reals List ZArith Arith Lra Lia Psatz.
From Coquelicot Require Import Coquelicot.
From Verif Require Import Base RT_Model Sca_Model Sca_Spec Leg_Proofs Sca_Proofs Sca2_Proofs Sca3_Proofs Int_Model Int_Spec Int2_Proofs
  Shp_Model Shp_Spec Cvg_Model Cvg_Spec Cvg_Proofs Cvg2_Proofs.
Import ListNotations.
Local Open Scope R_scope.

(** ** HGRayleigh *)
Lemma frac_le a b c : 0 < b -> a <= c * b -> a / b <= c.
Proof. intros Hb H. apply (Rmult_le_reg_r b); [lra|]. unfold Rdiv. rewrite Rmult_assoc, Rinv_l by lra. lra. Qed.
Lemma frac_nonneg a b : 0 < b -> 0 <= a -> 0 <= a / b.
Proof. intros Hb H. apply Rmult_le_pos; [exact H|apply Rlt_le, Rinv_0_lt_compat, Hb]. Qed.

Lemma scaled_pow q B t s n : Rabs t <= s -> 0 <= q <= B -> Rabs (q * t ^ n) <= B * s ^ n.
Proof.
  intros Hs Hq. rewrite Rabs_mult, <- RPow_abs, (Rabs_right q) by lra.
  apply Rmult_le_compat; [lra|apply pow_le, Rabs_pos|lra|apply pow_incr; split; [apply Rabs_pos|exact Hs]].
Qed.

Lemma hgray_bound t s n : Rabs t <= s -> / 2 <= s <= 1 ->
  Rabs (hgray_coefs t n) <= 15 / (16 * PI) * ((2 * INR n + 1) * s ^ n).
Proof.
  intros Hs Hs2. pose proof PI_pos as Pp. pose proof (pos_INR n) as Pn.
  set (K := 3 / (8 * PI) * 1 / (2 + t ^ 2)).
  assert (T2 : 0 <= t ^ 2) by apply pow2_ge_0.
  assert (HK : 0 <= K <= 3 / (16 * PI)).
  { unfold K. split.
    - apply frac_nonneg; [lra|]. rewrite Rmult_1_r. apply frac_nonneg; lra.
    - apply frac_le; [lra|]. replace (3 / (8 * PI) * 1) with (3 / (16 * PI) * 2) by (field; lra).
      apply Rmult_le_compat_l; [apply frac_nonneg; lra|lra]. }
  assert (Sn : 0 <= s ^ n) by (apply pow_le; lra).
  assert (S2 : s ^ (n + 2) <= s ^ n).
  { rewrite pow_add. rewrite <- (Rmult_1_r (s ^ n)) at 2. apply Rmult_le_compat_l; [exact Sn|].
    rewrite <- (pow1 2). apply pow_incr. lra. }
  assert (B : exists X, hgray_coefs t n = K * X /\ Rabs X <= 5 * ((2 * INR n + 1) * s ^ n)).
  { set (m := INR n) in *.
    assert (A2 : Rabs ((m + 2) * (m + 1) / (2 * m + 3) * t ^ (n + 2)) <= (m + 1) * s ^ n).
    { eapply Rle_trans; [apply (scaled_pow _ (m + 1) t s); [exact Hs|]|].
      - split; [apply frac_nonneg; nra|apply frac_le; nra].
      - apply Rmult_le_compat_l; [lra|exact S2]. }
    assert (A3 : Rabs ((m + 1) ^ 2 / (2 * m + 3) * t ^ n) <= (m + 1) * s ^ n).
    { apply scaled_pow; [exact Hs|]. split; [apply frac_nonneg; nra|apply frac_le; nra]. }
    assert (A4 : Rabs ((5 * m ^ 2 - 1) / (2 * m - 1) * t ^ n) <= (5 * m + 1) * s ^ n).
    { destruct n as [|n'].
      - unfold m; simpl. rewrite Rabs_right; lra.
      - assert (1 <= m) by (unfold m; rewrite S_INR; pose proof (pos_INR n'); lra).
        apply scaled_pow; [exact Hs|]. split; [apply frac_nonneg; nra|apply frac_le; nra]. }
    unfold hgray_coefs. fold m. fold K. destruct (Nat.ltb_spec n 2) as [L|L].
    - eexists. split; [reflexivity|].
      eapply Rle_trans; [apply Rabs_triang|]. eapply Rle_trans; [apply Rplus_le_compat_r, Rabs_triang|].
      apply Rle_trans with ((m + 1) * s ^ n + (m + 1) * s ^ n + (5 * m + 1) * s ^ n); [lra|]. 
      replace ((m + 1) * s ^ n + (m + 1) * s ^ n + (5 * m + 1) * s ^ n) with ((7 * m + 3) * s ^ n) by ring.
      replace (5 * ((2 * m + 1) * s ^ n)) with ((10 * m + 5) * s ^ n) by ring. apply Rmult_le_compat_r; lra.
    - eexists. split; [reflexivity|].
      assert (M2 : 2 <= m) by (unfold m; apply (le_INR 2), L).
      assert (A1 : Rabs (m * (m - 1) / (2 * m - 1) * t ^ (n - 2)) <= 2 * m * s ^ n).
      { eapply Rle_trans; [apply (scaled_pow _ (m / 2) t s); [exact Hs|]|].
        - split; [apply frac_nonneg; nra|apply frac_le; [lra|nra]].
        - replace n with ((n - 2) + 2)%nat at 2 by lia. rewrite pow_add.
          assert (Sk : 0 <= s ^ (n - 2)) by (apply pow_le; lra). assert (/ 4 <= s ^ 2) by nra.
          replace (2 * m * (s ^ (n - 2) * s ^ 2)) with (m * s ^ (n - 2) * (2 * s ^ 2)) by ring.
          replace (m / 2 * s ^ (n - 2)) with (m * s ^ (n - 2) * / 2) by field.
          apply Rmult_le_compat_l; [apply Rmult_le_pos; lra|lra]. }
      eapply Rle_trans; [apply Rabs_triang|]. eapply Rle_trans; [apply Rplus_le_compat_r, Rabs_triang|].
      eapply Rle_trans; [apply Rplus_le_compat_r, Rplus_le_compat_r, Rabs_triang|].
      apply Rle_trans with (2 * m * s ^ n + (m + 1) * s ^ n + (m + 1) * s ^ n + (5 * m + 1) * s ^ n); [lra|].
      replace (2 * m * s ^ n + (m + 1) * s ^ n + (m + 1) * s ^ n + (5 * m + 1) * s ^ n) with ((9 * m + 3) * s ^ n) by ring.
      replace (5 * ((2 * m + 1) * s ^ n)) with ((10 * m + 5) * s ^ n) by ring. apply Rmult_le_compat_r; lra. }
  destruct B as [X [-> BX]]. rewrite Rabs_mult, (Rabs_right K) by lra.
  replace (15 / (16 * PI) * ((2 * INR n + 1) * s ^ n)) with (3 / (16 * PI) * (5 * ((2 * INR n + 1) * s ^ n))) by (field; lra).
  apply Rmult_le_compat; [lra|apply Rabs_pos|lra|exact BX].
Qed.

(** a number between 1/2 and 1 not below |t| *)
Definition wider (t : R) : R := Rmax (Rabs t) (/ 2).
Lemma wider_spec t : -1 < t < 1 -> Rabs t <= wider t /\ / 2 <= wider t <= 1 /\ Rabs (wider t) = wider t /\ Rabs (wider t) < 1.
Proof.
  intros Ht. unfold wider. pose proof (abs_lt_1 t Ht). pose proof (Rmax_l (Rabs t) (/ 2)). pose proof (Rmax_r (Rabs t) (/ 2)).
  assert (Rmax (Rabs t) (/ 2) < 1) by (apply Rmax_lub_lt; lra).
  assert (E : Rabs (Rmax (Rabs t) (/ 2)) = Rmax (Rabs t) (/ 2)) by (apply Rabs_right; lra). rewrite E. repeat split; lra.
Qed.

Lemma expands_hgray t : -1 < t < 1 -> expands (hgray_coefs t) (hgray_func t) (fun N => 15 / (16 * PI) * hg_tail (wider t) N).
Proof.
  intros Ht. destruct (wider_spec t Ht) as [W1 [W2 [W3 W4]]]. pose proof PI_pos. apply expands_by; [|exact W4| |].
  - apply frac_nonneg; lra.
  - intros n. rewrite W3. apply hgray_bound; assumption.
  - intros x Hx. apply leg_sum_lim, hgray_series; assumption.
Qed.

(** ** finite expansions *)
Lemma expands_finite c (h : R -> R) k B : (forall N x, (k <= N)%nat -> leg_sum c N x = h x) ->
  (forall N x, (N < k)%nat -> -1 <= x <= 1 -> Rabs (leg_sum c N x - h x) <= B) ->
  expands c h (fun N => if Nat.ltb N k then B else 0).
Proof.
  intros H1 H2 N x Hx. destruct (Nat.ltb_spec N k) as [L|L]; [apply H2; assumption|]. rewrite H1 by exact L.
  rewrite Rminus_eq_0, Rabs_R0. lra.
Qed.
Lemma finite_vanishing k B : 0 <= B -> vanishing (fun N => if Nat.ltb N k then B else 0).
Proof.
  intros HB. split.
  - intros N. destruct (Nat.ltb_spec (S N) k), (Nat.ltb_spec N k); try lia; lra.
  - apply (is_lim_seq_incr_n _ k). apply (is_lim_seq_ext (fun _ => 0)); [|apply is_lim_seq_const].
    intros n. destruct (Nat.ltb_spec (n + k) k); [lia|reflexivity].
Qed.
Lemma finite_bound c (h : R -> R) k : (forall N x, (k <= N)%nat -> leg_sum c N x = h x) ->
  exists B, 0 <= B /\ forall N x, (N < k)%nat -> -1 <= x <= 1 -> Rabs (leg_sum c N x - h x) <= B.
Proof.
  intros H. assert (S0 : ex_series (fun n => Rabs (c n))).
  { apply (ex_series_incr_n _ k). apply (ex_series_ext (fun _ => 0)).
    - intros n. assert (E : c (k + n)%nat = 0).
      { pose proof (H (S (k + n)) 1 ltac:(lia)) as A. pose proof (H (k + n)%nat 1 ltac:(lia)) as B.
        rewrite leg_sum_S, leg_at_1 in A. lra. }
      rewrite E, Rabs_R0. reflexivity.
    - exists 0. apply filterlim_ext with (fun _ => 0); [|apply filterlim_const]. intros n. rewrite sum_n_const.
      unfold zero; simpl. ring. }
  exists (abs_tail c 0). split; [apply abs_tail_nonneg, S0|]. intros N x HN Hx.
  rewrite <- (H k x (Nat.le_refl _)). rewrite Rabs_minus_sym. replace k with (N + (k - N))%nat by lia.
  eapply Rle_trans; [apply abs_tail_bound; assumption|]. pose proof (abs_tail_nonneg c (N + (k - N)) S0).
  assert (M : forall j, abs_tail c j <= abs_tail c 0).
  { induction j; [lra|]. pose proof (proj1 (abs_tail_vanishing c S0) j). lra. }
  pose proof (M N). lra.
Qed.

(** ** sums of expansions *)
Lemma vanishing_le tail n m : vanishing tail -> (n <= m)%nat -> tail m <= tail n.
Proof. intros [V _] H. induction H; [lra|]. pose proof (V m). lra. Qed.

Section Sums.
  Context {A : Type} (w : A -> R) (cf : A -> nat -> R) (h : A -> R -> R) (nc : A -> nat -> nat).
  Definition expandable (a : A) : Prop :=
    exists tail, vanishing tail /\ expands (cf a) (h a) tail /\ is_lim_seq (fun N => tail (nc a N)) 0.

  Lemma sum_expands l : (forall a, In a l -> expandable a) ->
    exists e, is_lim_seq e 0 /\ forall N (m : A -> nat) (x : A -> R),
      (forall a, In a l -> (nc a N <= m a)%nat) -> (forall a, In a l -> -1 <= x a <= 1) ->
      Rabs (sumR (map (fun a => w a * leg_sum (cf a) (m a) (x a)) l) - sumR (map (fun a => w a * h a (x a)) l)) <= e N.
  Proof.
    induction l as [|a l IH]; intros H.
    - exists (fun _ => 0). split; [apply is_lim_seq_const|]. intros. simpl. rewrite Rminus_eq_0, Rabs_R0. lra.
    - destruct IH as [e [He Hb]]; [intros; apply H; right; assumption|].
      destruct (H a (or_introl eq_refl)) as [tail [V [E L]]].
      exists (fun N => Rabs (w a) * tail (nc a N) + e N). split.
      + replace (Finite 0) with (Finite (Rabs (w a) * 0 + 0)) by (f_equal; ring).
        apply is_lim_seq_plus'; [apply (is_lim_seq_scal_l _ _ (Finite 0)); exact L|exact He].
      + intros N m x Hm Hx. cbn [map sumR fold_right]. change (fold_right Rplus 0 ?q) with (sumR q).
        match goal with |- Rabs (?a1 + ?b1 - (?c1 + ?d1)) <= _ => replace (a1 + b1 - (c1 + d1)) with ((a1 - c1) + (b1 - d1)) by ring end.
        eapply Rle_trans; [apply Rabs_triang|]. apply Rplus_le_compat.
        * rewrite <- Rmult_minus_distr_l, Rabs_mult. apply Rmult_le_compat_l; [apply Rabs_pos|].
          eapply Rle_trans; [apply E, Hx; left; reflexivity|]. apply vanishing_le; [exact V|]. apply Hm. left; reflexivity.
        * apply Hb; intros; [apply Hm|apply Hx]; right; assumption.
  Qed.

  Lemma sum_bounded l : (forall a, In a l -> expandable a) ->
    exists B, forall x : A -> R, (forall a, In a l -> -1 <= x a <= 1) -> Rabs (sumR (map (fun a => w a * h a (x a)) l)) <= B.
  Proof.
    induction l as [|a l IH]; intros H.
    - exists 0. intros. simpl. rewrite Rabs_R0. lra.
    - destruct IH as [B HB]; [intros; apply H; right; assumption|].
      destruct (H a (or_introl eq_refl)) as [tail [V [E L]]].
      exists (Rabs (w a) * tail 0%nat + B). intros x Hx. cbn [map sumR fold_right]. change (fold_right Rplus 0 ?q) with (sumR q).
      eapply Rle_trans; [apply Rabs_triang|]. apply Rplus_le_compat.
      + rewrite Rabs_mult. apply Rmult_le_compat_l; [apply Rabs_pos|]. eapply expands_total; [exact E|apply Hx; left; reflexivity].
      + apply HB. intros; apply Hx; right; assumption.
  Qed.
End Sums.

(** ** the shipped elements *)
Lemma expandable_n c h nc tail : vanishing tail -> expands c h tail -> (forall N, (N <= nc N)%nat) ->
  exists tail, vanishing tail /\ expands c h tail /\ is_lim_seq (fun N => tail (nc N)) 0.
Proof.
  intros V E H. exists tail. split; [exact V|]. split; [exact E|].
  apply is_lim_seq_le_le with (u := fun _ => 0) (w := tail); [|apply is_lim_seq_const|apply V].
  intros N. split; [apply vanishing_nonneg, V|apply vanishing_le; [exact V|apply H]].
Qed.
Lemma expandable_fixed c h k : (forall N x, (k <= N)%nat -> leg_sum c N x = h x) ->
  exists tail, vanishing tail /\ expands c h tail /\ is_lim_seq (fun N : nat => tail k) 0.
Proof.
  intros H. destruct (finite_bound c h k H) as [B [B0 HB]]. exists (fun N => if Nat.ltb N k then B else 0).
  split; [apply finite_vanishing, B0|]. split; [apply expands_finite; assumption|].
  rewrite Nat.ltb_irrefl. apply is_lim_seq_const.
Qed.

Lemma rayleigh_exact N x : (rayleigh_ncoefs <= N)%nat -> leg_sum rayleigh_coefs N x = rayleigh_func x.
Proof.
  intros H. unfold rayleigh_ncoefs in H. rewrite (leg_sum_stop rayleigh_coefs 3 N x).
  - pose proof (leg_rec 0 x) as L. simpl in L. rewrite leg_0, leg_1 in L.
    unfold leg_sum, rayleigh_coefs, rayleigh_func, kron; simpl. rewrite leg_0, leg_1.
    replace (leg 2 x) with ((3 * x * x - 1) / 2) by lra. pose proof PI_pos. field. lra.
  - intros n Hn. unfold rayleigh_coefs, kron. destruct n as [|[|[|n]]]; try lia. simpl. ring.
  - exact H.
Qed.
Lemma iso_exact N x : (iso_ncoefs <= N)%nat -> leg_sum iso_coefs N x = iso_func x.
Proof.
  intros H. unfold iso_ncoefs in H. rewrite (leg_sum_stop iso_coefs 1 N x).
  - unfold leg_sum, iso_coefs, iso_func, kron; simpl. rewrite leg_0. ring.
  - intros n Hn. unfold iso_coefs, kron. destruct n; [lia|]. simpl. ring.
  - exact H.
Qed.

Lemma asym_num pd q : has asym pd q -> -1 < pnum pd q < 1.
Proof. intros [x [E H]]. unfold pnum. rewrite E. exact H. Qed.

Lemma v_expandable pd e : v_adm pd e -> expandable (velem_coefs pd) (velem_x pd) (fun e N => velem_ncoefs N e) e.
Proof.
  intros H. unfold expandable. destruct e as [a|q a|q a]; simpl in *.
  - apply expandable_fixed. intros; apply rayleigh_exact; assumption.
  - destruct H as [H _]. apply asym_num in H. apply (expandable_n _ _ (fun N => N) (fun N => / (4 * PI) * hg_tail (pnum pd q) N)); [|apply expands_hgV, H|auto].
    apply hg_vanishing; [|apply abs_lt_1, H]. pose proof PI_pos. apply Rlt_le, Rinv_0_lt_compat. lra.
  - destruct H as [H _]. apply asym_num in H.
    apply (expandable_n _ _ (fun N => N) (fun N => 15 / (16 * PI) * hg_tail (wider (pnum pd q)) N)); [|apply expands_hgray, H|auto].
    apply hg_vanishing; [|apply wider_spec, H]. pose proof PI_pos. apply frac_nonneg; lra.
Qed.

Lemma s_expandable pd e : s_adm pd e -> (forall i a, e = SCos i a -> (1 <= i)%nat) ->
  expandable (selem_coefs pd) (selem_x pd) (fun e N => selem_ncoefs N e) e.
Proof.
  intros H Hl. unfold expandable. destruct e as [a|i a|q a|q a]; simpl in *.
  - apply expandable_fixed. intros; apply iso_exact; assumption.
  - specialize (Hl i a eq_refl). apply (expandable_n _ _ (fun N => N) (abs_tail (coslobe_coefs i))); [| |auto].
    + apply abs_tail_vanishing, coslobe_summable, Hl.
    + apply expands_abs; [apply coslobe_summable, Hl|]. intros x Hx. apply coslobe_complete; assumption.
  - destruct H as [H _]. apply asym_num in H. apply (expandable_n _ _ (fun N => N) (fun N => / PI * hg_tail (pnum pd q) N)); [|apply expands_hgS, H|auto].
    apply hg_vanishing; [|apply abs_lt_1, H]. pose proof PI_pos. apply Rlt_le, Rinv_0_lt_compat. lra.
  - destruct H as [H _]. assert (H' : has asym pd q) by (destruct H as [x [E [Q _]]]; exists x; split; [exact E|exact Q]). apply asym_num in H'.
    apply (expandable_n _ _ (fun N => N) (fun N => Rabs (/ (nadir_hemreflect (pnum pd q) a * PI)) * hg_tail (pnum pd q) N));
      [|apply expands_nadir, H'|auto]. apply hg_vanishing; [apply Rabs_pos|apply abs_lt_1, H'].
Qed.
