(** Properties C111 and C112: the hemispherical reflectance. *)
From Coq Require Import Reals Lra Lia Bool Arith ZArith Sorted List.
From Coquelicot Require Import Coquelicot.
From Verif Require Import Hem_Model Hem_Spec Hem_Proofs Hem2_Proofs Sca_Model Sca_Spec Sca_Proofs Sca3_Proofs.
Import ListNotations.
Local Open Scope R_scope.

(** ** C111: the values that are returned belong to the angles t_0_min, t_0_min + t_0_step, ...
    below t_0_max and converge to the hemispherical reflectance *)
Theorem C111_angles : forall lo hi step, 0 < step ->
  StronglySorted Rlt (arange lo hi step) /\
  (forall t, In t (arange lo hi step) <-> on_grid lo hi step t).
Proof. intros lo hi step H. split; [apply arange_sorted, H|intros t; apply arange_grid, H]. Qed.
Print Assumptions C111_angles.

Theorem C111_converges : forall brdf NormBRDF phi_0 step lo hi eps,
  continuous_brdf brdf -> 0 < eps ->
  exists N0, forall N, (N0 <= N)%nat ->
    Forall2 (fun t v => Rabs (v - reflectance brdf NormBRDF (t * (PI / 180)) phi_0) < eps)
            (arange lo hi step) (hemreflect brdf NormBRDF phi_0 step lo hi N).
Proof.
  intros brdf n p step lo hi eps Hb He. unfold hemreflect.
  induction (arange lo hi step) as [|t l (N0 & IH)]; [exists 0%nat; constructor|].
  destruct (simps2_converges brdf Hb (deg2rad t) p (eps / (Rabs n + 1))) as [N1 H1].
  { assert (A := Rabs_pos n). apply Rdiv_lt_0_compat; lra. }
  exists (Nat.max N0 N1). intros N HN. cbn [map]. constructor; [|apply IH; lia].
  specialize (H1 N ltac:(lia)). rewrite reflectance_scale. fold (deg2rad t).
  assert (A := Rabs_pos n).
  replace (simps2 brdf N (deg2rad t) p * n - n * reflectance brdf 1 (deg2rad t) p)
    with (n * (simps2 brdf N (deg2rad t) p - reflectance brdf 1 (deg2rad t) p)) by ring.
  rewrite Rabs_mult. set (d := Rabs (simps2 brdf N (deg2rad t) p - reflectance brdf 1 (deg2rad t) p)) in *.
  assert (D : 0 <= d) by apply Rabs_pos.
  apply Rle_lt_trans with ((Rabs n + 1) * d); [nra|].
  apply Rlt_le_trans with ((Rabs n + 1) * (eps / (Rabs n + 1))); [apply Rmult_lt_compat_l; lra|].
  right. field. lra.
Qed.
Print Assumptions C111_converges.

(** every surface that ships with the package, and every combination of such, is covered *)
Theorem C111_shipped : forall a t i,
  unit_weights a -> -1 < t < 1 ->
  continuous_brdf (fun t_0 ts p_0 ps => iso_func (scat_angle t_0 ts p_0 ps a)) /\
  continuous_brdf (fun t_0 ts p_0 ps => coslobe_func i (scat_angle t_0 ts p_0 ps a)) /\
  continuous_brdf (fun t_0 ts p_0 ps => hgS_func t (scat_angle t_0 ts p_0 ps a)) /\
  continuous_brdf (fun t_0 ts p_0 ps => hgnadir_func t a (scat_angle t_0 ts p_0 ps a)).
Proof.
  intros a t i Ha Ht. repeat apply conj; apply comp_cont; try exact Ha; intros x Hx.
  - apply contC.
  - apply coslobe_cont.
  - apply hgS_cont; assumption.
  - apply hgnadir_cont; assumption.
Qed.
Print Assumptions C111_shipped.

Theorem C111_combination : forall cs,
  List.Forall (fun c => continuous_brdf (ch_func c)) cs -> continuous_brdf (comb_func cs).
Proof.
  intros cs H t_0 p_0 ts ps. unfold comb_func.
  assert (G : forall (acc : R -> R -> R), continuity_2d_pt acc ts ps ->
    continuity_2d_pt (fun ts ps => fold_left (fun s c => s + ch_func c t_0 ts p_0 ps * ch_frac c) cs (acc ts ps)) ts ps).
  { induction H as [|c cs Hc H IH]; intros acc Ha; [exact Ha|]. cbn [fold_left].
    apply (IH (fun ts ps => acc ts ps + ch_func c t_0 ts p_0 ps * ch_frac c)).
    apply continuity_2d_pt_plus; [exact Ha|]. apply continuity_2d_pt_mult; [apply Hc|apply continuity_2d_pt_const]. }
  apply (G (fun _ _ => 0)). apply continuity_2d_pt_const.
Qed.
Print Assumptions C111_combination.

(** NormBRDF is the reflectance of the Lambertian surface from every direction, ... *)
Theorem C111_lambert : forall a NormBRDF t_0 p_0,
  reflectance (fun t_0 ts p_0 ps => iso_func (scat_angle t_0 ts p_0 ps a)) NormBRDF t_0 p_0 = NormBRDF.
Proof. intros a n t p. exact (reflectance_lambert n t p). Qed.
Print Assumptions C111_lambert.
(** ... and of [HG_nadirnorm] for radiation from nadir *)
Theorem C111_nadir : forall t a NormBRDF p_0,
  t <> 0 -> -1 < t < 1 -> a0 a <> 0 -> Rabs (a0 a) <= 1 ->
  reflectance (fun t_0 ts p_0 ps => hgnadir_func t a (scat_angle t_0 ts p_0 ps a)) NormBRDF 0 p_0 = NormBRDF.
Proof.
  intros t a n p H0 H1 H2 H3. apply (reflectance_nadir (hgnadir_func t a) n p a).
  - intros x Hx. apply hgnadir_cont; assumption.
  - exact H3.
  - apply nadir_sphere; assumption.
Qed.
Print Assumptions C111_nadir.

Example C111_example :
  (* angles 0, 30, 60: the Lambertian surface with NormBRDF = 0.3 *)
  arange 0 90 30 <> [] /\
  exists N0, forall N, (N0 <= N)%nat ->
    List.Forall (fun v => Rabs (v - 3 / 10) < 1 / 1000)
      (hemreflect (fun t_0 ts p_0 ps => iso_func (scat_angle t_0 ts p_0 ps (A3 (-1) 1 1))) (3 / 10) 0 30 0 90 N).
Proof.
  split.
  - intros E. assert (H : In 60 (arange 0 90 30)).
    { apply (proj2 (C111_angles 0 90 30 ltac:(lra))). exists 2%nat. simpl. lra. }
    rewrite E in H. exact H.
  - destruct (C111_converges (fun t_0 ts p_0 ps => iso_func (scat_angle t_0 ts p_0 ps (A3 (-1) 1 1))) (3 / 10) 0 30 0 90 (1 / 1000)) as [N0 H].
    + apply (fun H => proj1 (C111_shipped (A3 (-1) 1 1) 0 0%nat H ltac:(lra))).
      unfold unit_weights; cbn; repeat split; apply Rabs_le; lra.
    + lra.
    + exists N0. intros N HN. specialize (H N HN). clear -H.
      induction H as [|t v l l' Hv H IH]; constructor; [|exact IH].
      rewrite C111_lambert in Hv. exact Hv.
Qed.

(** ** C112: the warning "Hemispherical Reflectance > 1" is given only if the reflectance
    exceeds 1.  It is given for the Lambertian surface with NormBRDF = 1, whose
    reflectance is 1, for every odd number of samples ... *)
Theorem C112_odd_refuted : forall a phi_0 step lo hi N,
  0 < step -> lo < hi -> (3 <= N)%nat -> Nat.odd N = true ->
  let brdf := fun t_0 ts p_0 ps => iso_func (scat_angle t_0 ts p_0 ps a) in
  (forall t_0, reflectance brdf 1 t_0 phi_0 = 1) /\
  warned (hemreflect brdf 1 phi_0 step lo hi N) = true.
Proof.
  intros a p step lo hi N Hs Hlh HN Ho brdf. split; [intros t; apply C111_lambert|].
  unfold warned. apply existsb_exists. exists (simps2 lambert N (deg2rad lo) p * 1). split.
  - unfold hemreflect. rewrite !map_map. apply in_map_iff. exists lo. split; [reflexivity|].
    apply arange_grid; [exact Hs|]. exists 0%nat. simpl. lra.
  - destruct (Rlt_dec 1 (simps2 lambert N (deg2rad lo) p * 1)) as [_|E]; [reflexivity|].
    exfalso. apply E. rewrite Rmult_1_r. apply lambert_odd; assumption.
Qed.
Print Assumptions C112_odd_refuted.

(** ... and is not given for an even number (the default: 1000), up to NormBRDF = 1 *)
Theorem C112_even : forall a NormBRDF phi_0 step lo hi N,
  0 <= NormBRDF <= 1 -> (3 <= N)%nat -> Nat.odd N = false ->
  warned (hemreflect (fun t_0 ts p_0 ps => iso_func (scat_angle t_0 ts p_0 ps a)) NormBRDF phi_0 step lo hi N) = false.
Proof.
  intros a n p step lo hi N Hn HN Ho. unfold warned, hemreflect. rewrite !map_map.
  induction (arange lo hi step) as [|t l IH]; [reflexivity|]. cbn [map existsb]. rewrite IH.
  assert (L := lambert_even N (deg2rad t) p HN Ho).
  change (simps2 (fun t_0 ts p_0 ps => iso_func (scat_angle t_0 ts p_0 ps a)) N (deg2rad t) p)
    with (simps2 lambert N (deg2rad t) p).
  destruct (Rlt_dec 1 (simps2 lambert N (deg2rad t) p * n)) as [E|_]; [exfalso; nra|reflexivity].
Qed.
Print Assumptions C112_even.

(** in general: a reflectance above 1 is reported once there are enough samples, and one
    below 1 everywhere on the grid is not *)
Theorem C112_limit : forall brdf NormBRDF phi_0 step lo hi,
  0 < step -> continuous_brdf brdf ->
  ((exists t, on_grid lo hi step t /\ 1 < reflectance brdf NormBRDF (t * (PI / 180)) phi_0) ->
   exists N0, forall N, (N0 <= N)%nat -> warned (hemreflect brdf NormBRDF phi_0 step lo hi N) = true) /\
  ((forall t, on_grid lo hi step t -> reflectance brdf NormBRDF (t * (PI / 180)) phi_0 < 1) ->
   exists N0, forall N, (N0 <= N)%nat -> warned (hemreflect brdf NormBRDF phi_0 step lo hi N) = false).
Proof.
  intros brdf n p step lo hi Hs Hb. split.
  - intros (t & Hg & Ht). set (d := reflectance brdf n (t * (PI / 180)) p - 1) in *.
    destruct (C111_converges brdf n p step lo hi d Hb) as [N0 H]; [unfold d; lra|].
    exists N0. intros N HN. specialize (H N HN). apply (arange_grid lo hi step t Hs) in Hg.
    clear - H Hg Ht d. revert Hg. induction H as [|u v l l' Hv H IH]; intros Hg; [destruct Hg|].
    unfold warned. cbn [existsb]. apply orb_true_iff. destruct Hg as [->|Hg].
    + left. destruct (Rlt_dec 1 v) as [_|E]; [reflexivity|]. exfalso. apply E.
      apply Rabs_lt_between in Hv. unfold d in Hv. lra.
    + right. apply IH, Hg.
  - intros Hlt.
    assert (E : exists eps, 0 < eps /\ forall t, In t (arange lo hi step) -> reflectance brdf n (t * (PI / 180)) p + eps <= 1).
    { assert (Hlt' : forall t, In t (arange lo hi step) -> reflectance brdf n (t * (PI / 180)) p < 1)
        by (intros t Ht; apply Hlt, arange_grid; assumption).
      clear Hlt. induction (arange lo hi step) as [|t l IH]; [exists 1; split; [lra|intros t []]|].
      destruct IH as (e & He & IH); [intros u Hu; apply Hlt'; right; exact Hu|].
      assert (Ht := Hlt' t (or_introl eq_refl)).
      exists (Rmin e (1 - reflectance brdf n (t * (PI / 180)) p)). split; [apply Rmin_glb_lt; lra|].
      intros u [<-|Hu].
      - assert (M := Rmin_r e (1 - reflectance brdf n (t * (PI / 180)) p)). lra.
      - assert (M := Rmin_l e (1 - reflectance brdf n (t * (PI / 180)) p)). specialize (IH u Hu). lra. }
    destruct E as (eps & He & E).
    destruct (C111_converges brdf n p step lo hi eps Hb He) as [N0 H].
    exists N0. intros N HN. specialize (H N HN). clear - H E.
    induction H as [|u v l l' Hv H IH]; [reflexivity|].
    unfold warned. cbn [existsb]. apply orb_false_iff. split.
    + specialize (E u (or_introl eq_refl)). apply Rabs_lt_between in Hv.
      destruct (Rlt_dec 1 v) as [F|_]; [exfalso; lra|reflexivity].
    + apply IH. intros t Ht. apply E. right. exact Ht.
Qed.
Print Assumptions C112_limit.

Example C112_example :
  (* three and four samples, angles 0, 1, ..., 89 *)
  warned (hemreflect (fun t_0 ts p_0 ps => iso_func (scat_angle t_0 ts p_0 ps (A3 1 1 1))) 1 0 1 0 90 3) = true /\
  warned (hemreflect (fun t_0 ts p_0 ps => iso_func (scat_angle t_0 ts p_0 ps (A3 1 1 1))) 1 0 1 0 90 4) = false.
Proof.
  split.
  - apply (C112_odd_refuted (A3 1 1 1) 0 1 0 90 3); [lra|lra|lia|reflexivity].
  - apply C112_even; [lra|lia|reflexivity].
Qed.
