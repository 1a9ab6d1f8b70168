(** Proofs about models built from the shipped scattering functions. *)
From Coq Require Import Reals List String Bool Lra Lia.
From Coquelicot Require Import Coquelicot.
From Verif Require Import Base Base_Proofs RT_Model RT_Spec Sca_Model Sca_Spec Sca_Proofs Sca_Props Shp_Model Shp_Spec.
Import ListNotations.
Local Open Scope R_scope.

(** ** once or twice differentiable *)
Definition diffn (two : bool) (f : R -> R) (t : R) : Prop :=
  if two then twice_diff f t else ex_derive f t.

Lemma td_intro (f f1 : R -> R) t : locally t (fun u => is_derive f u (f1 u)) -> ex_derive f1 t -> twice_diff f t.
Proof.
  intros H H1. split.
  - revert H. apply filter_imp. intros u K. eexists; exact K.
  - apply ex_derive_ext_loc with f1; [|exact H1]. revert H. apply filter_imp. intros u K. symmetry. apply is_derive_unique, K.
Qed.
Lemma td_elim (f : R -> R) t : twice_diff f t -> locally t (fun u => is_derive f u (Derive f u)) /\ ex_derive (Derive f) t.
Proof. intros [H H1]. split; [|exact H1]. revert H. apply filter_imp. intros u K. apply Derive_correct, K. Qed.
Lemma td_ex (f : R -> R) t : twice_diff f t -> ex_derive f t.
Proof. intros [H _]. apply (locally_singleton _ _ H). Qed.

Lemma dn_const two c t : diffn two (fun _ => c) t.
Proof.
  destruct two; simpl; [|apply ex_derive_const].
  apply td_intro with (fun _ => 0); [|apply ex_derive_const].
  apply filter_forall. intro u. apply (is_derive_const c u).
Qed.
Lemma dn_ext two (f g : R -> R) t : (forall u, f u = g u) -> diffn two f t -> diffn two g t.
Proof.
  intros E. destruct two; simpl; [|apply ex_derive_ext; exact E].
  intros H. apply td_elim in H. destruct H as [H H1]. apply td_intro with (Derive f); [|exact H1].
  revert H. apply filter_imp. intros u. apply is_derive_ext. exact E.
Qed.
Lemma dn_ext_loc two (f g : R -> R) t : locally t (fun u => f u = g u) -> diffn two f t -> diffn two g t.
Proof.
  intros E. destruct two; simpl; [|apply ex_derive_ext_loc; exact E].
  intros H. apply td_elim in H. destruct H as [H H1]. apply td_intro with (Derive f); [|exact H1].
  generalize (filter_and _ _ H (locally_locally _ _ E)). apply filter_imp. intros u [A B].
  apply (is_derive_ext_loc f); auto.
Qed.
Lemma dn_plus two (f g : R -> R) t : diffn two f t -> diffn two g t -> diffn two (fun u => f u + g u) t.
Proof.
  destruct two; simpl; [|intros A B; apply (ex_derive_plus f g); auto].
  intros A B. apply td_elim in A. apply td_elim in B. destruct A as [A A1], B as [B B1].
  apply td_intro with (fun u => Derive f u + Derive g u).
  - generalize (filter_and _ _ A B). apply filter_imp. intros u [H1 H2]. apply (is_derive_plus f g); auto.
  - apply (ex_derive_plus (Derive f) (Derive g)); auto.
Qed.
Lemma dn_mult two (f g : R -> R) t : diffn two f t -> diffn two g t -> diffn two (fun u => f u * g u) t.
Proof.
  destruct two; simpl; [|intros A B; apply (ex_derive_mult f g); auto].
  intros A B. pose proof (td_ex _ _ A) as A0. pose proof (td_ex _ _ B) as B0.
  apply td_elim in A. apply td_elim in B. destruct A as [A A1], B as [B B1].
  apply td_intro with (fun u => Derive f u * g u + f u * Derive g u).
  - generalize (filter_and _ _ A B). apply filter_imp. intros u [H1 H2].
    apply (is_derive_mult f g u _ _ H1 H2). intros; apply Rmult_comm.
  - apply (ex_derive_plus (fun u => Derive f u * g u) (fun u => f u * Derive g u)).
    + apply (ex_derive_mult (Derive f) g); auto.
    + apply (ex_derive_mult f (Derive g)); auto.
Qed.
Lemma dn_comp two (f g : R -> R) t : diffn two f (g t) -> diffn two g t -> diffn two (fun u => f (g u)) t.
Proof.
  destruct two; simpl; [|intros A B; apply (ex_derive_comp f g); auto].
  intros A B. pose proof (td_ex _ _ B) as B0.
  apply td_elim in A. apply td_elim in B. destruct A as [A A1], B as [B B1].
  apply td_intro with (fun u => Derive g u * Derive f (g u)).
  - assert (Cg : continuous g t) by (apply (ex_derive_continuous (K := R_AbsRing) (V := R_NormedModule) g t); exact B0).
    generalize (filter_and _ _ B (Cg _ A)). apply filter_imp. intros u [H1 H2].
    apply (is_derive_comp f g); auto.
  - apply (ex_derive_mult (Derive g) (fun u => Derive f (g u))); auto.
    apply (ex_derive_comp (Derive f) g); auto.
Qed.
Lemma dn_id two t : diffn two (fun u => u) t.
Proof.
  destruct two; simpl; [|apply ex_derive_id].
  apply td_intro with (fun _ => 1); [|apply ex_derive_const].
  apply filter_forall. intro u. apply (is_derive_id u).
Qed.
Lemma dn_pow two (f : R -> R) n t : diffn two f t -> diffn two (fun u => f u ^ n) t.
Proof. intro H. induction n; simpl; [apply dn_const|]. apply dn_mult; auto. Qed.
(** functions smooth enough: derivative given everywhere in an open set *)
Lemma dn_of (P : R -> Prop) two (f f1 : R -> R) t : open P -> P t ->
  (forall u, P u -> is_derive f u (f1 u)) -> (forall u, P u -> ex_derive f1 u) -> diffn two f t.
Proof.
  intros Ho Ht H H1. destruct two; simpl.
  - apply td_intro with f1; [|auto]. generalize (Ho t Ht). apply filter_imp. auto.
  - eexists. apply H, Ht.
Qed.
Lemma dn_sqrt two t : 0 < t -> diffn two sqrt t.
Proof.
  intro H. apply (dn_of (fun u => 0 < u) two sqrt (fun u => / (2 * sqrt u))); auto.
  - apply open_gt.
  - intros u Hu. auto_derive; [exact Hu|]. field. apply Rgt_not_eq, sqrt_lt_R0, Hu.
  - intros u Hu. pose proof (sqrt_lt_R0 _ Hu). auto_derive. repeat split; auto. lra.
Qed.
Lemma dn_inv two t : t <> 0 -> diffn two Rinv t.
Proof.
  intro H. apply (dn_of (fun u => u <> 0) two Rinv (fun u => - / u ^ 2)); auto.
  - apply open_neq.
  - intros u Hu. auto_derive; [exact Hu|]. field; exact Hu.
  - intros u Hu. auto_derive. replace (u * (u * 1)) with (u * u) by ring.
    apply Rmult_integral_contrapositive_currified; auto.
Qed.
Lemma dn_sin two t : diffn two sin t.
Proof.
  apply (dn_of (fun _ => True) two sin cos); auto; [apply open_true| |]; intros u _; [apply is_derive_sin|].
  eexists. apply is_derive_cos.
Qed.
Lemma dn_cos two t : diffn two cos t.
Proof.
  apply (dn_of (fun _ => True) two cos (fun u => - sin u)); auto; [apply open_true| |]; intros u _; [apply is_derive_cos|].
  auto_derive; auto.
Qed.

Lemma dn_div two (f g : R -> R) t : diffn two f t -> diffn two g t -> g t <> 0 -> diffn two (fun u => f u / g u) t.
Proof. intros A B H. unfold Rdiv. apply dn_mult; auto. apply (dn_comp two Rinv g); auto. apply dn_inv; auto. Qed.
Lemma dn_minus two (f g : R -> R) t : diffn two f t -> diffn two g t -> diffn two (fun u => f u - g u) t.
Proof.
  intros A B. apply dn_ext with (fun u => f u + (-1) * g u); [intro; ring|].
  apply dn_plus; auto. apply dn_mult; auto. apply dn_const.
Qed.

(** the HG denominator *)
Definition hgden (g x : R) : R := 1 + g ^ 2 - 2 * g * x.
Lemma hgden_pos g x : asym g -> -1 <= x <= 1 -> 0 < hgden g x.
Proof. intros Hg Hx. unfold hgden. pose proof (dpos' x g Hx Hg). simpl. lra. Qed.

Lemma pow15_pos b : 0 < b -> 0 < pow15 b.
Proof. intro H. unfold pow15. apply Rmult_lt_0_compat; auto. apply sqrt_lt_R0, H. Qed.
Lemma dn_pow15 two (f : R -> R) t : 0 < f t -> diffn two f t -> diffn two (fun u => pow15 (f u)) t.
Proof. intros H D. unfold pow15. apply dn_mult; auto. apply (dn_comp two sqrt f); auto. apply dn_sqrt, H. Qed.

Lemma dn_hgden two (g x : R -> R) t : diffn two g t -> diffn two x t -> diffn two (fun u => hgden (g u) (x u)) t.
Proof.
  intros G X. unfold hgden. apply dn_minus.
  - apply dn_plus; [apply dn_const|]. apply dn_pow, G.
  - apply dn_mult; [|exact X]. apply dn_mult; [apply dn_const|exact G].
Qed.

(** the kernels as functions of both arguments *)
Lemma dn_hgV two (g x : R -> R) t : diffn two g t -> diffn two x t -> asym (g t) -> -1 <= x t <= 1 ->
  diffn two (fun u => hgV_func (g u) (x u)) t.
Proof.
  intros G X Hg Hx. unfold hgV_func. apply dn_div.
  - apply dn_minus; [apply dn_const | apply dn_pow, G].
  - apply dn_mult; [apply dn_const|]. apply (dn_pow15 two (fun u => hgden (g u) (x u))).
    + apply hgden_pos; auto.
    + apply dn_hgden; auto.
  - pose proof PI_RGT_0. pose proof (pow15_pos _ (hgden_pos _ _ Hg Hx)). unfold hgden in *.
    apply Rgt_not_eq, Rmult_lt_0_compat; lra.
Qed.
Lemma dn_hgS two (g x : R -> R) t : diffn two g t -> diffn two x t -> asym (g t) -> -1 <= x t <= 1 ->
  diffn two (fun u => hgS_func (g u) (x u)) t.
Proof.
  intros G X Hg Hx. unfold hgS_func. apply dn_div.
  - apply dn_mult; [apply dn_const|]. apply dn_minus; [apply dn_const | apply dn_pow, G].
  - apply dn_mult; [apply dn_const|]. apply (dn_pow15 two (fun u => hgden (g u) (x u))).
    + apply hgden_pos; auto.
    + apply dn_hgden; auto.
  - pose proof PI_RGT_0. pose proof (pow15_pos _ (hgden_pos _ _ Hg Hx)). unfold hgden in *.
    apply Rgt_not_eq, Rmult_lt_0_compat; lra.
Qed.
Lemma dn_hgray two (g x : R -> R) t : diffn two g t -> diffn two x t -> asym (g t) -> -1 <= x t <= 1 ->
  diffn two (fun u => hgray_func (g u) (x u)) t.
Proof.
  intros G X Hg Hx. unfold hgray_func. apply dn_mult; [apply dn_const|]. apply dn_div.
  - apply dn_mult; [apply dn_mult|].
    + apply dn_div; [apply dn_const| |].
      * apply dn_plus; [apply dn_const | apply dn_pow, G].
      * apply Rgt_not_eq. pose proof (pow2_ge_0 (g t)). lra.
    + apply dn_plus; [apply dn_const | apply dn_pow, X].
    + apply dn_minus; [apply dn_const | apply dn_pow, G].
  - apply (dn_pow15 two (fun u => hgden (g u) (x u))).
    + apply hgden_pos; auto.
    + apply dn_hgden; auto.
  - pose proof (pow15_pos _ (hgden_pos _ _ Hg Hx)). unfold hgden in *. lra.
Qed.

Lemma unit_den g a : asym g -> unit_weights a -> 0 < 1 + g ^ 2 - 2 * a0 a * g.
Proof.
  intros Hg (H & _ & _). apply Rabs_le_between in H. pose proof (hgden_pos g (a0 a) Hg H) as K.
  unfold hgden in K. lra.
Qed.
Lemma dn_hgN two (g x : R -> R) a t : diffn two g t -> diffn two x t -> asym (g t) -> g t <> 0 ->
  unit_weights a -> a0 a <> 0 -> -1 <= x t <= 1 ->
  diffn two (fun u => hgnadir_func (g u) a (x u)) t.
Proof.
  intros G X Hg Hg0 Ha Ha0 Hx. unfold hgnadir_func. pose proof (unit_den _ _ Hg Ha) as HD.
  destruct (nadir_hem_int (g t) a Ha0 Hg0 Hg HD) as [_ Hpos].
  apply dn_mult.
  - apply dn_div; [apply dn_const| |lra]. unfold nadir_hemreflect. apply dn_mult; [apply dn_const|].
    assert (DD : diffn two (fun u => 1 + g u ^ 2 - 2 * a0 a * g u) t).
    { apply dn_minus; [apply dn_plus; [apply dn_const|apply dn_pow, G]|].
      apply dn_mult; [apply dn_const|exact G]. }
    apply dn_div.
    + apply dn_mult; [apply dn_minus; [apply dn_const|apply dn_pow, G]|].
      apply dn_minus.
      * apply dn_minus; [apply dn_const|]. apply dn_mult; [exact G|]. apply dn_plus; [|apply dn_const].
        apply dn_ext with (fun u => (-1) * g u); [intro; ring|]. apply dn_mult; [apply dn_const|exact G].
      * apply (dn_comp two sqrt (fun u => (1 + g u ^ 2 - 2 * a0 a * g u) * (1 + g u ^ 2))).
        { apply dn_sqrt. apply Rmult_lt_0_compat; auto. pose proof (pow2_ge_0 (g t)). lra. }
        apply dn_mult; auto. apply dn_plus; [apply dn_const|apply dn_pow, G].
    + apply dn_mult; [apply dn_mult; [apply dn_const|apply dn_pow, G]|].
      apply (dn_comp two sqrt (fun u => 1 + g u ^ 2 - 2 * a0 a * g u)); auto. apply dn_sqrt, HD.
    + pose proof (sqrt_lt_R0 _ HD). pose proof (pow2_gt_0 _ Ha0). pose proof (pow2_gt_0 _ Hg0).
      apply Rgt_not_eq, Rmult_lt_0_compat; [|assumption]. apply Rmult_lt_0_compat; [|assumption]. lra.
  - apply dn_div.
    + apply dn_minus; [apply dn_const | apply dn_pow, G].
    + apply dn_mult; [apply dn_const|]. apply (dn_pow15 two (fun u => hgden (g u) (x u))).
      * apply hgden_pos; auto.
      * apply dn_hgden; auto.
    + pose proof PI_RGT_0. pose proof (pow15_pos _ (hgden_pos _ _ Hg Hx)). unfold hgden in *.
      apply Rgt_not_eq, Rmult_lt_0_compat; lra.
Qed.

(** ** the cosine lobe *)
Definition ramp (x : R) : R := x * (1 + sgn x) / 2.
Lemma ramp_pos x : 0 <= x -> ramp x = x.
Proof. intros H. unfold ramp, sgn. destruct (Rlt_dec 0 x); [field|]. destruct (Rlt_dec x 0); [lra|]. replace x with 0 by lra. field. Qed.
Lemma ramp_neg x : x <= 0 -> ramp x = 0.
Proof. intros H. unfold ramp, sgn. destruct (Rlt_dec 0 x); [lra|]. destruct (Rlt_dec x 0); [field|]. replace x with 0 by lra. field. Qed.
Lemma ramp_bound x : 0 <= ramp x <= Rabs x.
Proof.
  destruct (Rle_dec 0 x).
  - rewrite ramp_pos by auto. rewrite Rabs_pos_eq by auto. lra.
  - rewrite ramp_neg by lra. pose proof (Rabs_pos x). lra.
Qed.
Lemma ramp_derive n x : is_derive (fun u => ramp u ^ (S (S n))) x (INR (S (S n)) * ramp x ^ (S n)).
Proof.
  destruct (Rtotal_order x 0) as [H|[H|H]].
  - apply is_derive_ext_loc with (fun _ => 0).
    + generalize (open_lt 0 x H). apply filter_imp. intros u Hu. rewrite ramp_neg by lra. simpl; ring.
    + rewrite ramp_neg by lra. replace (INR (S (S n)) * 0 ^ S n) with 0 by (simpl; ring). apply (is_derive_const 0 x).
  - subst x. rewrite ramp_neg by lra. replace (INR (S (S n)) * 0 ^ S n) with 0 by (simpl; ring).
    apply is_derive_Reals. intros eps He. assert (Hm : 0 < Rmin 1 eps) by (apply Rmin_pos; lra).
    exists (mkposreal _ Hm). intros h Hh Hd. simpl in Hd. rewrite Rplus_0_l, (ramp_neg 0) by lra.
    replace ((ramp h ^ S (S n) - 0 ^ S (S n)) / h - 0) with (ramp h ^ S n * (ramp h / h)) by (simpl; field; exact Hh).
    rewrite Rabs_mult. destruct (ramp_bound h) as [R0 R1]. pose proof (Rmin_l 1 eps). pose proof (Rmin_r 1 eps).
    assert (B1 : Rabs (ramp h / h) <= 1).
    { unfold Rdiv. rewrite Rabs_mult, Rabs_inv, (Rabs_pos_eq (ramp h)) by auto.
      pose proof (Rabs_pos_lt h Hh). apply Rmult_le_reg_r with (Rabs h); auto. rewrite Rmult_assoc, Rinv_l by lra. lra. }
    assert (B2 : Rabs (ramp h ^ S n) <= Rabs h).
    { rewrite <- RPow_abs, (Rabs_pos_eq (ramp h)) by auto. simpl.
      assert (ramp h ^ n <= 1) by (rewrite <- (pow1 n); apply pow_incr; lra).
      assert (0 <= ramp h ^ n) by (apply pow_le; auto). nra. }
    pose proof (Rabs_pos (ramp h ^ S n)). pose proof (Rabs_pos (ramp h / h)). nra.
  - apply is_derive_ext_loc with (fun u => u ^ (S (S n))).
    + generalize (open_gt 0 x H). apply filter_imp. intros u Hu. rewrite ramp_pos by lra. reflexivity.
    + rewrite ramp_pos by lra. auto_derive; auto. replace (match n with 0%nat => 1 | S _ => INR n + 1 end + 1) with (INR (S (S n))) by (rewrite !S_INR; destruct n; simpl; ring).
      simpl. ring.
Qed.
Definition level (two : bool) : nat := if two then 2%nat else 1%nat.
Lemma dn_ramp two i x : lobe_smooth (level two) i x -> diffn two (fun u => ramp u ^ i) x.
Proof.
  intros [H|[H|H]].
  - destruct (Rlt_dec 0 x) as [Hp|Hn].
    + apply dn_ext_loc with (fun u => u ^ i); [|apply dn_pow, dn_id].
      generalize (open_gt 0 x Hp). apply filter_imp. intros u Hu. rewrite ramp_pos by lra. reflexivity.
    + apply dn_ext_loc with (fun u => 0 ^ i); [|apply dn_const].
      assert (Hl : x < 0) by lra. generalize (open_lt 0 x Hl). apply filter_imp. intros u Hu. rewrite ramp_neg by lra. reflexivity.
  - subst i. apply dn_ext with (fun _ => 1); [intro; reflexivity | apply dn_const].
  - destruct two; simpl in *.
    + destruct i as [|[|[|n]]]; try lia. apply td_intro with (fun u => INR (S (S (S n))) * ramp u ^ (S (S n))).
      * apply filter_forall. intro u. apply ramp_derive.
      * apply (ex_derive_scal (fun u => ramp u ^ (S (S n)))). eexists. apply ramp_derive.
    + destruct i as [|[|n]]; try lia. eexists. apply ramp_derive.
Qed.
Lemma dn_cos_lobe two i (x : R -> R) t : lobe_smooth (level two) i (x t) -> diffn two x t ->
  diffn two (fun u => coslobe_func i (x u)) t.
Proof.
  intros H X. unfold coslobe_func. apply dn_mult; [apply dn_const|].
  apply (dn_comp two (fun y => ramp y ^ i) x); auto. apply dn_ramp, H.
Qed.

(** ** the angle *)
Lemma dn_scat two a ph t : diffn two (fun u => scat_angle u u ph (ph + PI) a) t.
Proof.
  unfold scat_angle.
  apply dn_plus; [apply dn_plus|].
  - apply dn_mult; [|apply dn_cos]. apply dn_mult; [apply dn_const|apply dn_cos].
  - apply dn_mult; [|apply dn_const]. apply dn_mult; [|apply dn_const].
    apply dn_mult; [|apply dn_sin]. apply dn_mult; [apply dn_const|apply dn_sin].
  - apply dn_mult; [|apply dn_const]. apply dn_mult; [|apply dn_const].
    apply dn_mult; [|apply dn_sin]. apply dn_mult; [apply dn_const|apply dn_sin].
Qed.

Lemma has_num P pd q : has P pd q -> P (pnum pd q).
Proof. intros (x & H & K). unfold pnum. rewrite H. exact K. Qed.

Lemma scat_b e t0 tex p0 pex : unit_weights e -> -1 <= scat_angle t0 tex p0 pex e <= 1.
Proof. apply C15_bounds. Qed.

(** elements along an angle or along a parameter: [pd u] and the angle cosine depend on u *)
Lemma dn_velem two (pd : R -> pdict) (x : R -> R) e t :
  (forall q, diffn two (fun u => pnum (pd u) q) t) -> diffn two x t -> -1 <= x t <= 1 -> v_adm (pd t) e ->
  diffn two (fun u => velem_x (pd u) e (x u)) t.
Proof.
  intros Q X Hx Ha. destruct e as [a|q a|q a]; simpl in *.
  - unfold rayleigh_func. apply dn_mult; [apply dn_const|]. apply dn_plus; [apply dn_const|apply dn_pow, X].
  - destruct Ha as [Hq _]. apply has_num in Hq. apply (dn_hgV two (fun u => pnum (pd u) q)); auto.
  - destruct Ha as [Hq _]. apply has_num in Hq. apply (dn_hgray two (fun u => pnum (pd u) q)); auto.
Qed.
Lemma dn_selem two (pd : R -> pdict) (x : R -> R) e t :
  (forall q, diffn two (fun u => pnum (pd u) q) t) -> diffn two x t -> -1 <= x t <= 1 -> s_adm (pd t) e ->
  (forall i a, e = SCos i a -> lobe_smooth (level two) i (x t) \/ (forall u, x u = x t)) ->
  diffn two (fun u => selem_x (pd u) e (x u)) t.
Proof.
  intros Q X Hx Ha Hs. destruct e as [a|i a|q a|q a]; simpl in *.
  - apply dn_ext with (fun _ => 1 / PI); [intro; reflexivity | apply dn_const].
  - destruct (Hs i a eq_refl) as [H|H].
    + apply dn_cos_lobe; auto.
    + apply dn_ext with (fun _ => coslobe_func i (x t)); [intro u; rewrite (H u); reflexivity | apply dn_const].
  - destruct Ha as [Hq _]. apply has_num in Hq. apply (dn_hgS two (fun u => pnum (pd u) q)); auto.
  - destruct Ha as (Hq & Hu & H0). apply has_num in Hq. destruct Hq as [Hq Hq0].
    apply (dn_hgN two (fun u => pnum (pd u) q)); auto.
Qed.

Lemma dn_fold {A} two (f : A -> R -> R) cs t (acc : R -> R) : diffn two acc t -> (forall c, In c cs -> diffn two (f c) t) ->
  diffn two (fun u => fold_left (fun s c => s + f c u) cs (acc u)) t.
Proof.
  revert acc. induction cs as [|c cs IH]; intros acc Ha H; simpl; auto.
  apply (IH (fun u => acc u + f c u)); [|intros; apply H; right; auto].
  apply dn_plus; auto. apply H. left; reflexivity.
Qed.

Lemma dn_vfun two v (pd : R -> pdict) (g : R -> R * R * (R * R)) t :
  (forall q, diffn two (fun u => pnum (pd u) q) t) ->
  (forall a, diffn two (fun u => let '(a1, b1, (c1, d1)) := g u in scat_angle a1 b1 c1 d1 a) t) ->
  v_ok (pd t) v ->
  diffn two (fun u => let '(a1, b1, (c1, d1)) := g u in vfun_func v (pd u) a1 b1 c1 d1) t.
Proof.
  intros Q X Hok.
  assert (E : forall e, v_adm (pd t) e -> diffn two (fun u => let '(a1, b1, (c1, d1)) := g u in velem_func (pd u) e a1 b1 c1 d1) t).
  { intros e He. apply dn_ext with (fun u => velem_x (pd u) e (let '(a1, b1, (c1, d1)) := g u in scat_angle a1 b1 c1 d1 (velem_a e))).
    { intro u. destruct (g u) as [[? ?] [? ?]]. reflexivity. }
    apply dn_velem; auto.
    destruct (g t) as [[? ?] [? ?]]. apply scat_b. destruct e; simpl in *; tauto. }
  destruct v as [e|cs]; simpl.
  - apply E. apply (Hok (Num 1) e). left; reflexivity.
  - apply dn_ext with (fun u => fold_left (fun s c => s + (let '(a1, b1, (c1, d1)) := g u in velem_func (pd u) (snd c) a1 b1 c1 d1) * pnum (pd u) (fst c)) cs 0).
    { intro u. destruct (g u) as [[? ?] [? ?]]. reflexivity. }
    apply (dn_fold two (fun c u => (let '(a1, b1, (c1, d1)) := g u in velem_func (pd u) (snd c) a1 b1 c1 d1) * pnum (pd u) (fst c))
             cs t (fun _ => 0)); [apply dn_const|].
    intros [w e] Hin. apply dn_mult; [|apply Q]. apply E. apply (Hok w e Hin).
Qed.
Lemma dn_sfun two s (pd : R -> pdict) (g : R -> R * R * (R * R)) t :
  (forall q, diffn two (fun u => pnum (pd u) q) t) ->
  (forall a, diffn two (fun u => let '(a1, b1, (c1, d1)) := g u in scat_angle a1 b1 c1 d1 a) t) ->
  s_ok (pd t) s ->
  (forall w i a, In (w, SCos i a) (s_elems s) ->
     lobe_smooth (level two) i (let '(a1, b1, (c1, d1)) := g t in scat_angle a1 b1 c1 d1 a)
     \/ (forall u, g u = g t)) ->
  diffn two (fun u => let '(a1, b1, (c1, d1)) := g u in sfun_func s (pd u) a1 b1 c1 d1) t.
Proof.
  intros Q X Hok Hs.
  assert (E : forall w e, In (w, e) (s_elems s) -> diffn two (fun u => let '(a1, b1, (c1, d1)) := g u in selem_func (pd u) e a1 b1 c1 d1) t).
  { intros w e Hin. destruct (Hok w e Hin) as [_ He].
    apply dn_ext with (fun u => selem_x (pd u) e (let '(a1, b1, (c1, d1)) := g u in scat_angle a1 b1 c1 d1 (selem_a e))).
    { intro u. destruct (g u) as [[? ?] [? ?]]. reflexivity. }
    apply dn_selem; auto.
    - destruct (g t) as [[? ?] [? ?]]. apply scat_b. destruct e; simpl in *; tauto.
    - intros i a ->. destruct (Hs w i a Hin) as [H|H]; [left; exact H|]. right. intro u. rewrite (H u). reflexivity. }
  destruct s as [e|cs]; simpl.
  - apply (E (Num 1) e). left; reflexivity.
  - apply dn_ext with (fun u => fold_left (fun s c => s + (let '(a1, b1, (c1, d1)) := g u in selem_func (pd u) (snd c) a1 b1 c1 d1) * pnum (pd u) (fst c)) cs 0).
    { intro u. destruct (g u) as [[? ?] [? ?]]. reflexivity. }
    apply (dn_fold two (fun c u => (let '(a1, b1, (c1, d1)) := g u in selem_func (pd u) (snd c) a1 b1 c1 d1) * pnum (pd u) (fst c))
             cs t (fun _ => 0)); [apply dn_const|].
    intros [w e] Hin. apply dn_mult; [|apply Q]. apply (E w e Hin).
Qed.

(** ** along the incidence angle *)
Lemma back_p_dn two o v s t : shipped o v s -> v_ok (param_dict o) v -> diffn two (back_p o) t.
Proof.
  intros [HV _] Hok. unfold back_p. rewrite HV. simpl.
  apply (dn_vfun two v (fun _ => param_dict o) (fun u => (u, u, (p_0 o, p_0 o + PI))) t); auto.
  - intro q. apply dn_const.
  - intro a. apply dn_scat.
Qed.
Lemma back_brdf_dn two o v s t : shipped o v s -> s_ok (param_dict o) s -> no_edge (level two) s t (p_0 o) ->
  diffn two (back_brdf o) t.
Proof.
  intros [_ HS] Hok He. unfold back_brdf. rewrite HS. simpl.
  apply (dn_sfun two s (fun _ => param_dict o) (fun u => (u, u, (p_0 o, p_0 o + PI))) t); auto.
  - intro q. apply dn_const.
  - intro a. apply dn_scat.
  - intros w i a Hin. left. apply (He w i a Hin).
Qed.

(** ** along a free parameter *)
Lemma dn_pnum two key pd q t : dmem string_dec key pd = true ->
  diffn two (fun u => pnum (dset string_dec key u pd) q) t.
Proof.
  intro Hm. unfold pnum, pval. destruct q as [x|k]; [apply dn_const|].
  destruct (string_dec k key) as [->|Hne].
  - apply dn_ext with (fun u => u); [|apply dn_id]. intro u. rewrite dget_dset_same. reflexivity.
  - apply dn_ext with (fun _ => match dget string_dec k pd with Some x => x | None => 0 end); [|apply dn_const].
    intro u. rewrite dget_dset_other; auto.
Qed.
Lemma dset_same key v (pd : pdict) : dget string_dec key pd = Some v -> forall q, pval (dset string_dec key v pd) q = pval pd q.
Proof.
  intros H [x|k]; [reflexivity|]. simpl. destruct (string_dec k key) as [->|Hne].
  - rewrite dget_dset_same. congruence.
  - apply dget_dset_other; auto.
Qed.
Lemma has_eq P pd pd' q : (forall q, pval pd' q = pval pd q) -> has P pd q -> has P pd' q.
Proof. intros E (x & H & K). exists x. rewrite E. auto. Qed.
Lemma v_ok_eq pd pd' v : (forall q, pval pd' q = pval pd q) -> v_ok pd v -> v_ok pd' v.
Proof.
  intros E H w e Hin. destruct (H w e Hin) as [A B]. split; [eapply has_eq; eauto|].
  destruct e; simpl in *; auto; destruct B; split; auto; eapply has_eq; eauto.
Qed.
Lemma s_ok_eq pd pd' s : (forall q, pval pd' q = pval pd q) -> s_ok pd s -> s_ok pd' s.
Proof.
  intros E H w e Hin. destruct (H w e Hin) as [A B]. split; [eapply has_eq; eauto|].
  destruct e; simpl in *; auto; destruct B as [B1 B2]; split; auto; eapply has_eq; eauto.
Qed.
Lemma shipped_diff_in o v s key : shipped o v s -> v_ok (param_dict o) v -> s_ok (param_dict o) s -> diff_in o key.
Proof.
  intros [HV HS] Hv Hs x Hx.
  assert (Hm : dmem string_dec key (param_dict o) = true) by (unfold dmem; rewrite Hx; reflexivity).
  pose proof (dset_same key x (param_dict o) Hx) as Eq. split.
  - rewrite HS. simpl.
    apply (dn_sfun false s (fun u => dset string_dec key u (param_dict o)) (fun _ => (t_0 o, t_ex o, (p_0 o, p_ex o))) x).
    + intro q. apply dn_pnum, Hm.
    + intro a. apply dn_const.
    + apply (s_ok_eq (param_dict o)); auto.
    + intros w i a _. right. reflexivity.
  - rewrite HV. simpl.
    apply (dn_vfun false v (fun u => dset string_dec key u (param_dict o)) (fun _ => (t_0 o, t_ex o, (p_0 o, p_ex o))) x).
    + intro q. apply dn_pnum, Hm.
    + intro a. apply dn_const.
    + apply (v_ok_eq (param_dict o)); auto.
Qed.

(** ** positivity *)
Lemma asym_sq g : asym g -> 0 < 1 - g ^ 2.
Proof. unfold asym. intros. nra. Qed.
Lemma velem_pos pd e t0 tex p0 pex : v_adm pd e -> 0 < velem_func pd e t0 tex p0 pex.
Proof.
  pose proof PI_RGT_0 as HP. intro H. unfold velem_func. destruct e as [a|q a|q a]; simpl in *.
  - unfold rayleigh_func. apply Rmult_lt_0_compat.
    + apply Rdiv_lt_0_compat; lra.
    + pose proof (pow2_ge_0 (scat_angle t0 tex p0 pex a)). lra.
  - destruct H as [Hq Ha]. apply has_num in Hq. unfold hgV_func.
    pose proof (pow15_pos _ (hgden_pos _ _ Hq (scat_b a t0 tex p0 pex Ha))) as K. unfold hgden in K.
    apply Rdiv_lt_0_compat; [apply asym_sq, Hq|]. apply Rmult_lt_0_compat; lra.
  - destruct H as [Hq Ha]. apply has_num in Hq. unfold hgray_func.
    pose proof (pow15_pos _ (hgden_pos _ _ Hq (scat_b a t0 tex p0 pex Ha))) as K. unfold hgden in K.
    apply Rmult_lt_0_compat; [apply Rdiv_lt_0_compat; lra|].
    apply Rdiv_lt_0_compat; [|exact K]. apply Rmult_lt_0_compat; [|apply asym_sq, Hq].
    apply Rmult_lt_0_compat.
    + apply Rdiv_lt_0_compat; [lra|]. pose proof (pow2_ge_0 (pnum pd q)). lra.
    + pose proof (pow2_ge_0 (scat_angle t0 tex p0 pex a)). lra.
Qed.
Lemma selem_pos pd e t0 tex p0 pex : s_adm pd e -> 0 <= selem_func pd e t0 tex p0 pex.
Proof.
  pose proof PI_RGT_0 as HP. intro H. unfold selem_func. destruct e as [a|i a|q a|q a]; simpl in *.
  - unfold iso_func. left. apply Rdiv_lt_0_compat; lra.
  - unfold coslobe_func. apply Rmult_le_pos; [left; apply Rdiv_lt_0_compat; lra|].
    apply pow_le. apply (ramp_bound (scat_angle t0 tex p0 pex a)).
  - destruct H as [Hq Ha]. apply has_num in Hq. unfold hgS_func.
    pose proof (pow15_pos _ (hgden_pos _ _ Hq (scat_b a t0 tex p0 pex Ha))) as K. unfold hgden in K.
    left. apply Rdiv_lt_0_compat; [rewrite Rmult_1_l; apply asym_sq, Hq|]. apply Rmult_lt_0_compat; lra.
  - destruct H as (Hq & Ha & Ha0). apply has_num in Hq. destruct Hq as [Hq Hq0]. unfold hgnadir_func.
    pose proof (pow15_pos _ (hgden_pos _ _ Hq (scat_b a t0 tex p0 pex Ha))) as K. unfold hgden in K.
    destruct (nadir_hem_int _ a Ha0 Hq0 Hq (unit_den _ _ Hq Ha)) as [_ Hn].
    left. apply Rmult_lt_0_compat; [apply Rdiv_lt_0_compat; lra|].
    apply Rdiv_lt_0_compat; [apply asym_sq, Hq|]. apply Rmult_lt_0_compat; lra.
Qed.
Lemma fold_ge {A} (f : A -> R) cs acc : (forall c, In c cs -> 0 <= f c) -> acc <= fold_left (fun s c => s + f c) cs acc.
Proof.
  revert acc. induction cs as [|c cs IH]; intros acc H; simpl; [lra|].
  assert (0 <= f c) by (apply H; left; auto). assert (acc + f c <= fold_left (fun s c => s + f c) cs (acc + f c)) by (apply IH; intros; apply H; right; auto).
  lra.
Qed.
Lemma fold_gt {A} (f : A -> R) cs acc c : (forall c, In c cs -> 0 <= f c) -> In c cs -> 0 < f c -> acc < fold_left (fun s c => s + f c) cs acc.
Proof.
  revert acc. induction cs as [|d cs IH]; intros acc H Hi Hp; [destruct Hi|]. destruct Hi as [-> | Hin]; simpl.
  - apply Rlt_le_trans with (acc + f c); [lra|]. apply fold_ge. intros; apply H; right; auto.
  - assert (0 <= f d) by (apply H; left; auto). apply Rle_lt_trans with (acc + f d); [lra|].
    apply IH; auto. intros; apply H; right; auto.
Qed.
Lemma vfun_pos pd v t0 tex p0 pex : v_ok pd v -> v_weights pd v -> 0 < vfun_func v pd t0 tex p0 pex.
Proof.
  intros Hok [Hw (w & e & Hin & Hp)]. destruct v as [e'|cs]; simpl in *.
  - apply velem_pos. apply (Hok (Num 1) e'). left; reflexivity.
  - apply (fold_gt (fun c => velem_func pd (snd c) t0 tex p0 pex * pnum pd (fst c)) cs 0 (w, e)); auto.
    + intros [w' e'] Hin'. simpl. apply Rmult_le_pos.
      * left. apply velem_pos. apply (Hok w' e' Hin').
      * apply (has_num nonneg). apply (Hw w' e' Hin').
    + simpl. apply Rmult_lt_0_compat; [apply velem_pos; apply (Hok w e Hin) | apply (has_num positive), Hp].
Qed.
Lemma sfun_pos pd s t0 tex p0 pex : s_ok pd s -> s_weights pd s -> 0 <= sfun_func s pd t0 tex p0 pex.
Proof.
  intros Hok Hw. destruct s as [e'|cs]; simpl in *.
  - apply selem_pos. apply (Hok (Num 1) e'). left; reflexivity.
  - apply (fold_ge (fun c => selem_func pd (snd c) t0 tex p0 pex * pnum pd (fst c)) cs 0).
    intros [w' e'] Hin'. simpl. apply Rmult_le_pos.
    + apply selem_pos. apply (Hok w' e' Hin').
    + apply (has_num nonneg). apply (Hw w' e' Hin').
Qed.

(** ** exchange of the directions *)
Lemma scat_exch t0 tex p0 pex a : scat_angle t0 tex p0 pex a = scat_angle tex t0 pex p0 a.
Proof. apply C15_exchange. Qed.
Lemma vfun_exch v pd t0 tex p0 pex : vfun_func v pd t0 tex p0 pex = vfun_func v pd tex t0 pex p0.
Proof.
  destruct v as [e|cs]; simpl; [unfold velem_func; rewrite scat_exch; reflexivity|].
  generalize 0. induction cs as [|[w e] cs IH]; intro acc; simpl; auto. unfold velem_func at 2. rewrite scat_exch. apply IH.
Qed.
Lemma sfun_exch s pd t0 tex p0 pex : sfun_func s pd t0 tex p0 pex = sfun_func s pd tex t0 pex p0.
Proof.
  destruct s as [e|cs]; simpl; [unfold selem_func; rewrite scat_exch; reflexivity|].
  generalize 0. induction cs as [|[w e] cs IH]; intro acc; simpl; auto. unfold selem_func at 2. rewrite scat_exch. apply IH.
Qed.

(** ** textbook values *)
Lemma pow15_Rpower b : 0 < b -> pow15 b = Rpower b (3 / 2).
Proof.
  intro H. unfold pow15. rewrite <- Rpower_sqrt by exact H. rewrite <- (Rpower_1 b H) at 1. rewrite <- Rpower_plus. f_equal. field.
Qed.
Lemma velem_formula pd e x : v_adm pd e -> -1 <= x <= 1 -> velem_x pd e x = v_formula pd e x.
Proof.
  intros H Hx. pose proof PI_RGT_0 as HP. destruct e as [a|q a|q a]; simpl in *.
  - unfold rayleigh_func. ring.
  - destruct H as [Hq _]. apply has_num in Hq. unfold hgV_func, hg_kernel.
    pose proof (hgden_pos _ _ Hq Hx) as K. pose proof (pow15_pos _ K) as K2. unfold hgden in *. rewrite <- pow15_Rpower; replace (1 + pnum pd q * pnum pd q - 2 * pnum pd q * x) with (1 + pnum pd q ^ 2 - 2 * pnum pd q * x) by ring; [|exact K].
    field. split; lra.
  - destruct H as [Hq _]. apply has_num in Hq. unfold hgray_func, hg_kernel.
    pose proof (hgden_pos _ _ Hq Hx) as K. pose proof (pow15_pos _ K) as K2. unfold hgden in *. rewrite <- pow15_Rpower; replace (1 + pnum pd q * pnum pd q - 2 * pnum pd q * x) with (1 + pnum pd q ^ 2 - 2 * pnum pd q * x) by ring; [|exact K].
    pose proof (pow2_ge_0 (pnum pd q)). field. repeat split; try lra.
Qed.
Lemma selem_formula pd e x : s_adm pd e -> -1 <= x <= 1 -> selem_x pd e x = s_formula pd e x.
Proof.
  intros H Hx. pose proof PI_RGT_0 as HP. destruct e as [a|i a|q a|q a]; simpl in *.
  - unfold iso_func. field. lra.
  - unfold coslobe_func. change (x * (1 + sgn x) / 2) with (ramp x). replace (Rmax 0 x) with (ramp x); [field; lra|].
    unfold Rmax. destruct (Rle_dec 0 x); [apply ramp_pos; auto|apply ramp_neg; lra].
  - destruct H as [Hq _]. apply has_num in Hq. unfold hgS_func, hg_kernel.
    pose proof (hgden_pos _ _ Hq Hx) as K. pose proof (pow15_pos _ K) as K2. unfold hgden in *. rewrite <- pow15_Rpower; replace (1 + pnum pd q * pnum pd q - 2 * pnum pd q * x) with (1 + pnum pd q ^ 2 - 2 * pnum pd q * x) by ring; [|exact K].
    field. split; lra.
  - destruct H as (Hq & Ha & Ha0). apply has_num in Hq. destruct Hq as [Hq Hq0]. unfold hgnadir_func, hg_kernel.
    destruct (nadir_hem_int _ a Ha0 Hq0 Hq (unit_den _ _ Hq Ha)) as [_ Hn].
    pose proof (hgden_pos _ _ Hq Hx) as K. pose proof (pow15_pos _ K) as K2. unfold hgden in *. rewrite <- pow15_Rpower; replace (1 + pnum pd q * pnum pd q - 2 * pnum pd q * x) with (1 + pnum pd q ^ 2 - 2 * pnum pd q * x) by ring; [|exact K].
    field. repeat split; lra.
Qed.
Lemma v_adm_unit pd e : v_adm pd e -> unit_weights (velem_a e).
Proof. destruct e; simpl; tauto. Qed.
Lemma s_adm_unit pd e : s_adm pd e -> unit_weights (selem_a e).
Proof. destruct e; simpl; tauto. Qed.
Lemma vfun_value pd v t0 tex p0 pex : v_ok pd v -> vfun_func v pd t0 tex p0 pex = v_sum pd (v_elems v) t0 tex p0 pex.
Proof.
  intro Hok.
  assert (E : forall w e, In (w, e) (v_elems v) -> velem_func pd e t0 tex p0 pex = v_formula pd e (wdot (velem_a e) (dir t0 p0) (dir tex pex))).
  { intros w e Hin. destruct (Hok w e Hin) as [_ Ha]. unfold velem_func. rewrite velem_formula; [rewrite C15_dot_product; reflexivity|exact Ha|].
    apply scat_b, (v_adm_unit pd), Ha. }
  destruct v as [e|cs]; simpl in *.
  - rewrite (E (Num 1) e) by (left; reflexivity). unfold pnum at 1. simpl. ring.
  - transitivity (0 + v_sum pd cs t0 tex p0 pex); [|ring]. clear Hok. generalize 0. revert E.
    induction cs as [|[w e] cs IH]; intros E acc; simpl; [ring|].
    rewrite IH by (intros w' e' Hi; apply (E w'); right; exact Hi). rewrite (E w e) by (left; reflexivity). ring.
Qed.
Lemma sfun_value pd s t0 tex p0 pex : s_ok pd s -> sfun_func s pd t0 tex p0 pex = s_sum pd (s_elems s) t0 tex p0 pex.
Proof.
  intro Hok.
  assert (E : forall w e, In (w, e) (s_elems s) -> selem_func pd e t0 tex p0 pex = s_formula pd e (wdot (selem_a e) (dir t0 p0) (dir tex pex))).
  { intros w e Hin. destruct (Hok w e Hin) as [_ Ha]. unfold selem_func. rewrite selem_formula; [rewrite C15_dot_product; reflexivity|exact Ha|].
    apply scat_b, (s_adm_unit pd), Ha. }
  destruct s as [e|cs]; simpl in *.
  - rewrite (E (Num 1) e) by (left; reflexivity). unfold pnum at 1. simpl. ring.
  - transitivity (0 + s_sum pd cs t0 tex p0 pex); [|ring]. clear Hok. generalize 0. revert E.
    induction cs as [|[w e] cs IH]; intros E acc; simpl; [ring|].
    rewrite IH by (intros w' e' Hi; apply (E w'); right; exact Hi). rewrite (E w e) by (left; reflexivity). ring.
Qed.
