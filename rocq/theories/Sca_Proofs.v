(** Proofs about the scattering functions. *)
From Coq Require Import Reals List Lra Lia Arith Psatz ZArith Permutation Bool.
From Coquelicot Require Import Coquelicot.
From Verif Require Import Base Sca_Model Leg_Proofs.
Import ListNotations.
Local Open Scope R_scope.

Lemma PI_pos : 0 < PI. Proof. apply PI_RGT_0. Qed.

Lemma ser_scal (c : R) (a : nat -> R) (l : R) : is_series a l -> is_series (fun n => c * a n) (c * l).
Proof. intros H. exact (is_series_scal_l c a l H). Qed.
Lemma ser_plus (a b : nat -> R) (l m : R) : is_series a l -> is_series b m -> is_series (fun n => a n + b n) (l + m).
Proof. intros H K. exact (is_series_plus a b l m H K). Qed.
Lemma ser_minus (a b : nat -> R) (l m : R) : is_series a l -> is_series b m -> is_series (fun n => a n - b n) (l - m).
Proof. intros H K. exact (is_series_minus a b l m H K). Qed.
Lemma ser_ext (a b : nat -> R) (l : R) : (forall n, a n = b n) -> is_series a l -> is_series b l.
Proof. intros H K. exact (is_series_ext a b l H K). Qed.

Lemma ser_shift2 (a : nat -> R) (l : R) : a 0%nat = 0 -> a 1%nat = 0 ->
  is_series (fun n => a (S (S n))) l <-> is_series a l.
Proof.
  intros A0 A1. split; intros H.
  - apply is_series_decr_1. apply is_series_decr_1.
    rewrite A0, A1. unfold plus, opp; simpl. replace (l + - 0 + - 0) with l by ring. exact H.
  - apply (is_series_incr_1 (fun n => a (S n))). rewrite A1.
    apply (is_series_incr_1 a). rewrite A0. unfold plus; simpl. replace (l + 0 + 0) with l by ring. exact H.
Qed.

(** ** C18 *)
Lemma x2_leg m x :
  (2 * INR m + 1) * x ^ 2 * leg m x
  = (INR m + 2) * (INR m + 1) / (2 * INR m + 3) * leg (m + 2) x
    + (2 * INR m + 1) * (2 * INR m ^ 2 + 2 * INR m - 1) / ((2 * INR m - 1) * (2 * INR m + 3)) * leg m x
    + (if Nat.ltb m 2 then 0 else INR m * (INR m - 1) / (2 * INR m - 1) * leg (m - 2) x).
Proof.
  destruct m as [|[|m]].
  - pose proof (leg_rec 0 x) as H. simpl in *. rewrite ?leg_0, ?leg_1 in *. 
    replace (leg 2 x) with ((3 * x * x - 1) / 2) by lra. field.
  - pose proof (leg_rec 0 x) as H. pose proof (leg_rec 1 x) as H3. simpl in *. rewrite ?leg_0, ?leg_1 in *.
    assert (E2 : leg 2 x = (3 * x * x - 1) / 2) by lra.
    rewrite E2 in H3. replace (leg 3 x) with ((5 * x * ((3 * x * x - 1) / 2) - 2 * x) / 3) by lra. field.
  - replace (Nat.ltb (S (S m)) 2) with false by reflexivity.
    replace (S (S m) - 2)%nat with m by lia. replace (S (S m) + 2)%nat with (S (S (S (S m)))) by lia.
    pose proof (leg_rec m x) as H1. pose proof (leg_rec (S m) x) as H2. pose proof (leg_rec (S (S m)) x) as H3.
    rewrite !S_INR in *. pose proof (pos_INR m) as Pm. set (k := INR m) in *.
    set (p0 := leg m x) in *. set (p1 := leg (S m) x) in *. set (p2 := leg (S (S m)) x) in *.
    set (p3 := leg (S (S (S m))) x) in *. set (p4 := leg (S (S (S (S m)))) x) in *.
    (* x p1 = ((k+2) p2 + (k+1) p0)/(2k+3); x p2 = ((k+3)p3+(k+2)p1)/(2k+5); x p3 = ((k+4)p4+(k+3)p2)/(2k+7) *)
    assert (X1 : x * p1 = ((k + 2) * p2 + (k + 1) * p0) / (2 * k + 3)).
    { apply (Rmult_eq_reg_l (2 * k + 3)); [|lra]. transitivity ((2 * (k + 1) + 1) * x * p1); [ring|]. 
      replace ((2 * (k + 1) + 1) * x * p1) with ((k + 1 + 1) * p2 + (k + 1) * p0) by lra. field. lra. }
    assert (X2 : x * p2 = ((k + 3) * p3 + (k + 2) * p1) / (2 * k + 5)).
    { apply (Rmult_eq_reg_l (2 * k + 5)); [|lra]. transitivity ((2 * (k + 1 + 1) + 1) * x * p2); [ring|]. 
      replace ((2 * (k + 1 + 1) + 1) * x * p2) with ((k + 1 + 1 + 1) * p3 + (k + 1 + 1) * p1) by lra. field. lra. }
    assert (X3 : x * p3 = ((k + 4) * p4 + (k + 3) * p2) / (2 * k + 7)).
    { apply (Rmult_eq_reg_l (2 * k + 7)); [|lra]. transitivity ((2 * (k + 1 + 1 + 1) + 1) * x * p3); [ring|]. 
      replace ((2 * (k + 1 + 1 + 1) + 1) * x * p3) with ((k + 1 + 1 + 1 + 1) * p4 + (k + 1 + 1 + 1) * p2) by lra. field. lra. }
    replace ((2 * (k + 1 + 1) + 1) * x ^ 2 * p2) with ((2 * k + 5) * (x * (x * p2))) by ring.
    rewrite X2. replace (x * (((k + 3) * p3 + (k + 2) * p1) / (2 * k + 5)))
      with (((k + 3) * (x * p3) + (k + 2) * (x * p1)) / (2 * k + 5)) by (field; lra).
    rewrite X3, X1. field. repeat split; lra.
Qed.

Lemma hgray_series x t : -1 <= x <= 1 -> -1 < t < 1 ->
  is_series (fun n => hgray_coefs t n * leg n x) (hgray_func t x).
Proof.
  intros Hx Ht. assert (Ht' : Rabs t < 1) by (apply Rabs_def1; lra).
  (* the three power series in t *)
  set (b1 := fun m : nat => (INR m + 2) * (INR m + 1) / (2 * INR m + 3) * leg (m + 2) x).
  set (b2 := fun m : nat => if Nat.ltb m 2 then 0 else INR m * (INR m - 1) / (2 * INR m - 1) * leg (m - 2) x).
  set (b3 := fun m : nat => ((INR m + 1) ^ 2 / (2 * INR m + 3) + (5 * INR m ^ 2 - 1) / (2 * INR m - 1)) * leg m x).
  assert (Bsum : forall m, b1 m + b2 m + b3 m = (1 + x ^ 2) * ((2 * INR m + 1) * leg m x)).
  { intros m. unfold b1, b2, b3. pose proof (x2_leg m x) as E.
    assert (N1 : 2 * INR m - 1 <> 0).
    { destruct m as [|m]; [simpl; lra|]. rewrite S_INR. pose proof (pos_INR m). lra. }
    assert (N2 : 2 * INR m + 3 <> 0) by (pose proof (pos_INR m); lra).
    replace ((1 + x ^ 2) * ((2 * INR m + 1) * leg m x)) with ((2 * INR m + 1) * leg m x + (2 * INR m + 1) * x ^ 2 * leg m x) by ring.
    rewrite E. destruct (Nat.ltb m 2); field; tauto. }
  assert (C1 : ex_pseries b1 t).
  { apply CV_radius_inside, PS_poly_radius; [|exact Ht']. intros n. unfold b1. rewrite Rabs_mult.
    pose proof (leg_bound (n + 2) x Hx). pose proof (pos_INR n) as Pn.
    assert (0 <= (INR n + 2) * (INR n + 1) / (2 * INR n + 3) <= (INR n + 2) * (INR n + 1)).
    { split. apply Rmult_le_pos; [nra|]. apply Rlt_le, Rinv_0_lt_compat; lra.
      rewrite <- (Rmult_1_r ((INR n + 2) * (INR n + 1))) at 2. apply Rmult_le_compat_l; [nra|].
      rewrite <- Rinv_1. apply Rinv_le_contravar; lra. }
    rewrite Rabs_pos_eq by lra. rewrite !S_INR. pose proof (Rabs_pos (leg (n + 2) x)).
    apply Rle_trans with ((INR n + 2) * (INR n + 1) * 1); [apply Rmult_le_compat; lra|lra]. }
  assert (C2 : ex_pseries b2 t).
  { apply CV_radius_inside, PS_poly_radius; [|exact Ht']. intros n. unfold b2.
    destruct n as [|[|n]]; try (simpl; rewrite Rabs_R0; lra).
    replace (Nat.ltb (S (S n)) 2) with false by reflexivity. rewrite Rabs_mult.
    pose proof (leg_bound (S (S n) - 2) x Hx). pose proof (pos_INR n) as Pn.
    rewrite !S_INR. set (k := INR n) in *.
    assert (0 <= (k + 1 + 1) * (k + 1 + 1 - 1) / (2 * (k + 1 + 1) - 1) <= (k + 2) * (k + 1)).
    { split. apply Rmult_le_pos; [nra|]. apply Rlt_le, Rinv_0_lt_compat; lra.
      replace (k + 1 + 1) with (k + 2) by ring. replace (k + 2 - 1) with (k + 1) by ring.
      rewrite <- (Rmult_1_r ((k + 2) * (k + 1))) at 2. apply Rmult_le_compat_l; [nra|].
      rewrite <- Rinv_1. apply Rinv_le_contravar; lra. }
    rewrite Rabs_pos_eq by lra. pose proof (Rabs_pos (leg (S (S n) - 2) x)).
    apply Rle_trans with ((k + 2) * (k + 1) * 1); [apply Rmult_le_compat; lra|nra]. }
  assert (Hs : is_series (fun m => (1 + x ^ 2) * ((2 * INR m + 1) * t ^ m * leg m x))
                 ((1 + x ^ 2) * ((1 - t ^ 2) / pow15 (1 + t ^ 2 - 2 * t * x)))).
  { apply ser_scal, hg_series; assumption. }
  destruct C1 as [l1 C1]. destruct C2 as [l2 C2]. apply is_pseries_R in C1. apply is_pseries_R in C2.
  (* b3 series from the total *)
  assert (C3 : is_series (fun m => b3 m * t ^ m) ((1 + x ^ 2) * ((1 - t ^ 2) / pow15 (1 + t ^ 2 - 2 * t * x)) - l1 - l2)).
  { eapply ser_ext; [|apply (ser_minus _ _ _ _ (ser_minus _ _ _ _ Hs C1) C2)].
    intros m. cbv beta.
    replace ((1 + x ^ 2) * ((2 * INR m + 1) * t ^ m * leg m x)) with ((1 + x ^ 2) * ((2 * INR m + 1) * leg m x) * t ^ m) by ring.
    rewrite <- Bsum. ring. }
  (* shifted series *)
  assert (T1 : is_series (fun n => if Nat.ltb n 2 then 0 else INR n * (INR n - 1) / (2 * INR n - 1) * t ^ (n - 2) * leg n x) l1).
  { apply ser_shift2; [reflexivity|reflexivity|].
    eapply ser_ext; [|exact C1]. intros n. cbv beta.
    replace (Nat.ltb (S (S n)) 2) with false by reflexivity.
    unfold b1. replace (S (S n)) with (n + 2)%nat by lia. rewrite Nat.add_sub, plus_INR. simpl INR.
    pose proof (pos_INR n). field; lra. }
  assert (T2 : is_series (fun n => (INR n + 2) * (INR n + 1) / (2 * INR n + 3) * t ^ (n + 2) * leg n x) l2).
  { apply (proj2 (ser_shift2 (fun m => b2 m * t ^ m) l2 ltac:(unfold b2; simpl; ring) ltac:(unfold b2; simpl; ring))) in C2.
    eapply ser_ext; [|exact C2].
    intros n. cbv beta. unfold b2. replace (Nat.ltb (S (S n)) 2) with false by reflexivity.
    replace (S (S n)) with (n + 2)%nat by lia. rewrite Nat.add_sub, plus_INR. simpl INR.
    pose proof (pos_INR n). field; lra. }
  assert (Tot : is_series (fun n => 3 / (8 * PI) * 1 / (2 + t ^ 2) *
     (((if Nat.ltb n 2 then 0 else INR n * (INR n - 1) / (2 * INR n - 1) * t ^ (n - 2) * leg n x)
      + (INR n + 2) * (INR n + 1) / (2 * INR n + 3) * t ^ (n + 2) * leg n x) + b3 n * t ^ n))
     (3 / (8 * PI) * 1 / (2 + t ^ 2) * ((l1 + l2) + ((1 + x ^ 2) * ((1 - t ^ 2) / pow15 (1 + t ^ 2 - 2 * t * x)) - l1 - l2)))).
  { apply ser_scal. apply (ser_plus _ _ _ _ (ser_plus _ _ _ _ T1 T2) C3). }
  pose proof PI_pos as Pp.
  replace (hgray_func t x) with (3 / (8 * PI) * 1 / (2 + t ^ 2) * ((l1 + l2) + ((1 + x ^ 2) * ((1 - t ^ 2) / pow15 (1 + t ^ 2 - 2 * t * x)) - l1 - l2))).
  2:{ unfold hgray_func. pose proof (pow15_pos _ (dpos x t Hx Ht)). field. repeat split; nra. }
  eapply ser_ext; [|exact Tot]. intros n. cbv beta. unfold hgray_coefs, b3.
  destruct (Nat.ltb n 2); ring.
Qed.

(** ** C19 *)
Lemma dpos' x t : -1 <= x <= 1 -> -1 < t < 1 -> 0 < 1 + t * t - 2 * t * x.
Proof. intros. replace (t * t) with (t ^ 2) by ring. apply dpos; assumption. Qed.

Lemma is_RInt_FTC (f F : R -> R) a b : a <= b ->
  (forall x, a <= x <= b -> is_derive F x (f x)) -> (forall x, a <= x <= b -> continuous f x) ->
  is_RInt f a b (F b - F a).
Proof.
  intros Hab HD HC. apply (is_RInt_derive F f).
  - intros x Hx. rewrite Rmin_left, Rmax_right in Hx by lra. apply HD; lra.
  - intros x Hx. rewrite Rmin_left, Rmax_right in Hx by lra. apply HC; lra.
Qed.
Lemma ex_derive_cont (f : R -> R) x : ex_derive f x -> continuous f x.
Proof. apply (ex_derive_continuous f x). Qed.

Lemma contM (f g : R -> R) (x : R) : continuous f x -> continuous g x -> continuous (fun y => f y * g y) x.
Proof. intros A B. exact (continuous_mult f g x A B). Qed.
Lemma contP (f g : R -> R) (x : R) : continuous f x -> continuous g x -> continuous (fun y => f y + g y) x.
Proof. intros A B. exact (continuous_plus f g x A B). Qed.
Lemma contB (f g : R -> R) (x : R) : continuous f x -> continuous g x -> continuous (fun y => f y - g y) x.
Proof. intros A B. exact (continuous_minus f g x A B). Qed.
Lemma contC (c x : R) : continuous (fun _ : R => c) x.
Proof. apply continuous_const. Qed.
Lemma contI (x : R) : continuous (fun y : R => y) x.
Proof. apply continuous_id. Qed.

Lemma sqrt_1mt t : -1 < t < 1 -> sqrt (1 + t ^ 2 - 2 * t * 1) = 1 - t.
Proof. intros. replace (1 + t ^ 2 - 2 * t * 1) with ((1 - t) ^ 2) by ring. rewrite <- Rsqr_pow2. apply sqrt_Rsqr; lra. Qed.
Lemma sqrt_1pt t : -1 < t < 1 -> sqrt (1 + t ^ 2 - 2 * t * -1) = 1 + t.
Proof. intros. replace (1 + t ^ 2 - 2 * t * -1) with ((1 + t) ^ 2) by ring. rewrite <- Rsqr_pow2. apply sqrt_Rsqr; lra. Qed.

Lemma hgD_derive t x : 0 < 1 + t ^ 2 - 2 * t * x ->
  is_derive (fun y => sqrt (1 + t ^ 2 - 2 * t * y)) x (- t / sqrt (1 + t ^ 2 - 2 * t * x)).
Proof.
  intros H. auto_derive.
  - replace (1 + t * (t * 1) + - (2 * t * x)) with (1 + t ^ 2 - 2 * t * x) by ring. lra.
  - replace (1 + t * (t * 1) + - (2 * t * x)) with (1 + t ^ 2 - 2 * t * x) by ring.
    field. apply Rgt_not_eq, sqrt_lt_R0, H.
Qed.

(** any function of the square root of the HG denominator *)
Lemma hg_comp_derive t x (g dg : R -> R) : 0 < 1 + t ^ 2 - 2 * t * x ->
  (forall s, 0 < s -> is_derive g s (dg s)) ->
  is_derive (fun y => g (sqrt (1 + t ^ 2 - 2 * t * y))) x
     (- t / sqrt (1 + t ^ 2 - 2 * t * x) * dg (sqrt (1 + t ^ 2 - 2 * t * x))).
Proof.
  intros H Hg. apply (is_derive_comp g (fun y => sqrt (1 + t ^ 2 - 2 * t * y))).
  - apply Hg, sqrt_lt_R0, H.
  - apply hgD_derive, H.
Qed.

Lemma pow15_s b : 0 < b -> pow15 b = sqrt b ^ 3.
Proof. intros. unfold pow15. rewrite <- (sqrt_sqrt b) at 1 by lra. ring. Qed.
Lemma pow2_s b : 0 < b -> b = sqrt b ^ 2.
Proof. intros. rewrite <- (sqrt_sqrt b) at 1 by lra. ring. Qed.

Lemma cont_hg t x : 0 < 1 + t ^ 2 - 2 * t * x -> continuous (fun y => / pow15 (1 + t ^ 2 - 2 * t * y)) x.
Proof.
  intros H. apply ex_derive_cont. unfold pow15. auto_derive.
  replace (1 + t * (t * 1) + - (2 * t * x)) with (1 + t ^ 2 - 2 * t * x) by ring.
  pose proof (sqrt_lt_R0 _ H). repeat split; try lra. nra.
Qed.

Lemma is_RInt_replace (f : R -> R) (a b l l' : R) : l = l' -> is_RInt f a b l -> is_RInt f a b l'.
Proof. intros ->; auto. Qed.

Lemma is_RInt_extR (f g : R -> R) (a b l : R) : a <= b -> (forall x, a < x < b -> f x = g x) ->
  is_RInt f a b l -> is_RInt g a b l.
Proof.
  intros Hab H. apply is_RInt_ext. intros x Hx. rewrite Rmin_left, Rmax_right in Hx by lra. apply H, Hx.
Qed.
Lemma is_RInt_scalR (f : R -> R) (a b c l : R) : is_RInt f a b l -> is_RInt (fun x => c * f x) a b (c * l).
Proof. intros H. exact (is_RInt_scal f a b c l H). Qed.
Lemma is_RInt_constR (a b c : R) : is_RInt (fun _ => c) a b ((b - a) * c).
Proof. exact (is_RInt_const a b c). Qed.

Lemma rayleigh_norm : is_RInt rayleigh_func (-1) 1 (/ (2 * PI)).
Proof.
  pose proof PI_pos as Pp. set (F := fun x => 3 / (16 * PI) * (x + x ^ 3 / 3)).
  apply is_RInt_replace with (l := F 1 - F (-1)); [unfold F; field; lra|].
  apply is_RInt_FTC; [lra| |].
  - intros x _. unfold rayleigh_func, F. auto_derive. exact I. field. lra.
  - intros x _. apply ex_derive_cont. unfold rayleigh_func. auto_derive. exact I.
Qed.

Lemma hg_int t : -1 < t < 1 -> is_RInt (fun x => (1 - t ^ 2) * / pow15 (1 + t ^ 2 - 2 * t * x)) (-1) 1 2.
Proof.
  intros Ht. destruct (Req_dec t 0) as [->|Nt].
  - apply is_RInt_extR with (f := fun _ => 1); [lra| |].
    { intros x _. unfold pow15. replace (1 + 0 ^ 2 - 2 * 0 * x) with 1 by ring. rewrite sqrt_1. field. }
    eapply is_RInt_replace; [|apply is_RInt_constR]. ring.
  - set (F := fun x => (1 - t ^ 2) / t * / sqrt (1 + t ^ 2 - 2 * t * x)).
    eapply is_RInt_replace with (l := F 1 - F (-1)).
    { unfold F. rewrite sqrt_1mt, sqrt_1pt by lra. field. repeat split; lra. }
    apply is_RInt_FTC; [lra| |].
    + intros x Hx. pose proof (dpos x t Hx Ht) as Dp. pose proof (sqrt_lt_R0 _ Dp) as Sp.
      unfold F. eapply is_derive_ext with (f := fun y => (fun s => (1 - t ^ 2) / t * / s) (sqrt (1 + t ^ 2 - 2 * t * y))).
      { intros; reflexivity. }
      rewrite pow15_s by exact Dp.
      replace ((1 - t ^ 2) * / sqrt (1 + t ^ 2 - 2 * t * x) ^ 3)
        with (- t / sqrt (1 + t ^ 2 - 2 * t * x) * ((fun s => - (1 - t ^ 2) / t / s ^ 2) (sqrt (1 + t ^ 2 - 2 * t * x)))).
      2:{ cbv beta. field. split; lra. }
      apply (hg_comp_derive t x (fun s => (1 - t ^ 2) / t * / s) (fun s => - (1 - t ^ 2) / t / s ^ 2)); [exact Dp|].
      intros s Hs. auto_derive. lra. field. split; lra.
    + intros x Hx. apply (continuous_mult (fun _ => 1 - t ^ 2)). apply continuous_const. apply cont_hg, dpos; assumption.
Qed.

Lemma hgV_norm t : -1 < t < 1 -> is_RInt (hgV_func t) (-1) 1 (/ (2 * PI)).
Proof.
  intros Ht. pose proof PI_pos.
  apply is_RInt_extR with (f := fun x => (/ (4 * PI)) * ((1 - t ^ 2) * / pow15 (1 + t ^ 2 - 2 * t * x))); [lra| |].
  { intros x Hx. unfold hgV_func. pose proof (pow15_pos _ (dpos x t ltac:(lra) Ht)). field. split; lra. }
  eapply is_RInt_replace; [|apply is_RInt_scalR, (hg_int t Ht)]. field. lra.
Qed.

Lemma hgray_norm t : -1 < t < 1 -> is_RInt (hgray_func t) (-1) 1 (/ (2 * PI)).
Proof.
  intros Ht. pose proof PI_pos as Pp.
  assert (HC : forall x, -1 <= x <= 1 -> continuous (hgray_func t) x).
  { intros x Hx. unfold hgray_func, Rdiv.
    apply (continuous_mult (fun _ => 3 * / (8 * PI))); [apply continuous_const|].
    apply (continuous_mult (fun x => 1 * / (2 + t ^ 2) * (1 + x ^ 2) * (1 - t ^ 2))).
    - apply ex_derive_cont. auto_derive. exact I.
    - apply cont_hg, dpos; assumption. }
  destruct (Req_dec t 0) as [->|Nt].
  - set (F := fun x => 3 / (16 * PI) * (x + x ^ 3 / 3)).
    apply is_RInt_replace with (l := F 1 - F (-1)); [unfold F; field; lra|].
    apply is_RInt_FTC; [lra| |exact HC].
    intros x _. unfold F, hgray_func, pow15. replace (1 + 0 ^ 2 - 2 * 0 * x) with 1 by ring. rewrite sqrt_1. auto_derive. exact I. field. lra.
  - set (A := 1 + t ^ 2). set (K := 3 / (8 * PI) * (1 / (2 + t ^ 2)) * (1 - t ^ 2)).
    set (G := fun s => K * (/ (4 * t ^ 3) * (A ^ 2 * / s + 2 * A * s - s ^ 3 / 3) + / t * / s)).
    set (F := fun x => G (sqrt (1 + t ^ 2 - 2 * t * x))).
    eapply is_RInt_replace with (l := F 1 - F (-1)).
    { unfold F. rewrite sqrt_1mt, sqrt_1pt by lra. unfold G, K, A. field. repeat split; nra. }
    apply is_RInt_FTC; [lra| |exact HC].
    intros x Hx. pose proof (dpos x t Hx Ht) as Dp. pose proof (sqrt_lt_R0 _ Dp) as Sp.
    unfold F.
    replace (hgray_func t x)
      with (- t / sqrt (1 + t ^ 2 - 2 * t * x) * ((fun s => K * (/ (4 * t ^ 3) * (- A ^ 2 / s ^ 2 + 2 * A - s ^ 2) - / t / s ^ 2)) (sqrt (1 + t ^ 2 - 2 * t * x)))).
    2:{ cbv beta. unfold hgray_func. rewrite pow15_s by exact Dp.
        assert (Ex : x = (A - sqrt (1 + t ^ 2 - 2 * t * x) ^ 2) / (2 * t)).
        { rewrite <- pow2_s by exact Dp. unfold A. field. exact Nt. }
        set (s := sqrt (1 + t ^ 2 - 2 * t * x)) in *.
        clearbody s. rewrite Ex at 1. unfold K, A. field. repeat split; nra. }
    apply (hg_comp_derive t x G (fun s => K * (/ (4 * t ^ 3) * (- A ^ 2 / s ^ 2 + 2 * A - s ^ 2) - / t / s ^ 2))); [exact Dp|].
    intros s Hs. unfold G. auto_derive. lra. field. repeat split; lra.
Qed.

(** ** C20 *)
Lemma nadir_hem_int t a : a0 a <> 0 -> t <> 0 -> -1 < t < 1 -> 0 < 1 + t ^ 2 - 2 * a0 a * t ->
  is_RInt (fun mu => hgS_func t (a0 a * mu) * mu) 0 1 (nadir_hemreflect t a / (2 * PI)) /\ 0 < nadir_hemreflect t a.
Proof.
  intros Ha Ht0 Ht HD. pose proof PI_pos as Pp.
  set (b := 2 * t * a0 a). set (A := 1 + t ^ 2).
  assert (HA : 0 < A) by (unfold A; nra).
  assert (Hb : b <> 0) by (unfold b; apply Rmult_integral_contrapositive_currified; [lra|exact Ha]).
  assert (HAb : 0 < A - b) by (unfold A, b; lra).
  assert (HDm : forall mu, 0 <= mu <= 1 -> 0 < A - b * mu).
  { intros mu Hmu. replace (A - b * mu) with ((1 - mu) * A + mu * (A - b)) by ring.
    destruct (Req_dec mu 1) as [->|]; [lra|]. assert (0 < (1 - mu) * A) by (apply Rmult_lt_0_compat; lra).
    assert (0 <= mu * (A - b)) by (apply Rmult_le_pos; lra). lra. }
  pose proof (sqrt_lt_R0 _ HA) as SA. pose proof (sqrt_lt_R0 _ HAb) as SB.
  split.
  - set (F := fun mu => (1 - t ^ 2) / PI * (2 / b ^ 2 * (A * / sqrt (A - b * mu) + sqrt (A - b * mu)))).
    apply is_RInt_replace with (l := F 1 - F 0).
    { unfold F, nadir_hemreflect. replace (A - b * 1) with (A - b) by ring. replace (A - b * 0) with A by ring.
      replace (1 + t ^ 2 - 2 * a0 a * t) with (A - b) by (unfold A, b; ring). fold A.
      rewrite sqrt_mult by lra.
      assert (EA : A = sqrt A ^ 2) by (apply pow2_s, HA). assert (EB : A - b = sqrt (A - b) ^ 2) by (apply pow2_s, HAb).
      replace (1 - t * (- t + a0 a)) with (A - b / 2) by (unfold A, b; field).
      replace (2 * a0 a ^ 2 * t ^ 2) with (b ^ 2 / 2) by (unfold b; field).
      set (sA := sqrt A) in *. set (sB := sqrt (A - b)) in *. clearbody sA sB.
      assert (Eb : b = sA ^ 2 - sB ^ 2) by lra. clearbody A b. subst A.
      field_simplify_eq; [|repeat split; lra]. subst b. ring. }
    apply is_RInt_FTC; [lra| |].
    + intros mu Hmu. pose proof (HDm mu Hmu) as Dp. pose proof (sqrt_lt_R0 _ Dp) as Sp.
      unfold F. auto_derive.
      { replace (A + - (b * mu)) with (A - b * mu) by ring. repeat split; try lra. }
      unfold hgS_func. replace (1 + t ^ 2 - 2 * t * (a0 a * mu)) with (A - b * mu) by (unfold A, b; ring).
      rewrite pow15_s by exact Dp. replace (A + - (b * mu)) with (A - b * mu) by ring.
      assert (E : A - b * mu = sqrt (A - b * mu) ^ 2) by (apply pow2_s, Dp).
      assert (Em : mu = (A - sqrt (A - b * mu) ^ 2) / b) by (rewrite <- E; field; exact Hb).
      set (s := sqrt (A - b * mu)) in *. clearbody s. replace (t * (t * 1)) with (t ^ 2) by ring.
      rewrite Em. field. repeat split; lra.
    + intros mu Hmu. unfold hgS_func, Rdiv. apply ex_derive_cont. unfold pow15. auto_derive.
      pose proof (HDm mu Hmu) as Dp.
      replace (1 + t * (t * 1) + - (2 * t * (a0 a * mu))) with (A - b * mu) by (unfold A, b; ring).
      pose proof (sqrt_lt_R0 _ Dp). split; [lra|]. split; [|exact I].
      apply Rgt_not_eq. assert (0 < (A - b * mu) * sqrt (A - b * mu)) by (apply Rmult_lt_0_compat; lra).
      apply Rmult_lt_0_compat; lra.
  - unfold nadir_hemreflect. replace (1 + t ^ 2 - 2 * a0 a * t) with (A - b) by (unfold A, b; ring). fold A.
    replace (1 - t * (- t + a0 a)) with (A - b / 2) by (unfold A, b; field).
    replace (2 * a0 a ^ 2 * t ^ 2) with (b ^ 2 / 2) by (unfold b; field).
    apply Rmult_lt_0_compat; [lra|]. apply Rmult_lt_0_compat.
    + apply Rmult_lt_0_compat; [nra|].
      assert (sqrt ((A - b) * A) < A - b / 2); [|lra].
      apply Rsqr_incrst_0; [|apply sqrt_pos|lra].
      rewrite Rsqr_sqrt by (apply Rmult_le_pos; lra). unfold Rsqr. assert (0 < b * b) by nra. nra.
    + apply Rinv_0_lt_compat. apply Rmult_lt_0_compat; [|exact SB]. assert (0 < b * b) by nra. nra.
Qed.
