(** Convergence, the grid of angles, the Lambertian surface, the shipped functions. *)
From Coq Require Import Reals Lra Lia Bool Arith ZArith Sorted List.
From Coquelicot Require Import Coquelicot.
From Verif Require Import Hem_Model Hem_Spec Hem_Proofs Sca_Model Sca_Spec Sca_Proofs.
Import ListNotations.
Local Open Scope R_scope.

Lemma INR_above x : exists M : nat, x < INR M.
Proof.
  exists (Z.to_nat (up x)). destruct (archimed x) as [A _]. destruct (Z_lt_le_dec (up x) 0) as [H|H].
  - apply IZR_lt in H. assert (0 <= INR (Z.to_nat (up x))) by apply pos_INR. lra.
  - rewrite INR_IZR_INZ, Z2Nat.id by exact H. exact A.
Qed.

(** ** the grid *)
Lemma ceil_lt (x : R) (i : nat) : (i < Z.to_nat (1 - up (- x)))%nat <-> INR i < x.
Proof.
  destruct (archimed (- x)) as [A B]. rewrite INR_IZR_INZ. split.
  - intros H. assert (Hz : (up (- x) <= - Z.of_nat i)%Z) by lia. apply IZR_le in Hz. rewrite opp_IZR in Hz. lra.
  - intros H. assert (Hz : IZR (up (- x)) < IZR (- Z.of_nat i + 1)) by (rewrite plus_IZR, opp_IZR; lra).
    apply lt_IZR in Hz. lia.
Qed.

Lemma arange_grid a b s t : 0 < s -> (In t (arange a b s) <-> on_grid a b s t).
Proof.
  intros Hs. unfold arange, on_grid. rewrite in_map_iff.
  assert (E : forall i : nat, INR i < (b - a) / s <-> a + INR i * s < b).
  { intros i. split; intros H.
    - apply (Rmult_lt_compat_r s) in H; [|exact Hs]. replace ((b - a) / s * s) with (b - a) in H by (field; lra). lra.
    - apply (Rmult_lt_reg_r s); [exact Hs|]. replace ((b - a) / s * s) with (b - a) by (field; lra). lra. }
  split.
  - intros (i & <- & Hi). exists i. split; [reflexivity|]. apply E, ceil_lt. apply in_seq in Hi. lia.
  - intros (i & -> & Hi). exists i. split; [reflexivity|]. apply in_seq. assert (H := proj2 (ceil_lt _ _) (proj2 (E i) Hi)). lia.
Qed.

Lemma arange_sorted a b s : 0 < s -> StronglySorted Rlt (arange a b s).
Proof.
  intros Hs. unfold arange. generalize (Z.to_nat (1 - up (- ((b - a) / s)))) as n. intros n.
  generalize 0%nat. induction n as [|n IH]; intros k; [constructor|]. cbn [seq map]. constructor; [apply IH|].
  apply List.Forall_forall. intros x Hx. apply in_map_iff in Hx. destruct Hx as (i & <- & Hi). apply in_seq in Hi.
  assert (INR k < INR i) by (apply lt_INR; lia). nra.
Qed.

(** ** convergence *)
Section Conv.
Variable brdf : R -> R -> R -> R -> R.
Hypothesis Cb : continuous_brdf brdf.

Lemma integrand_cont t_0 p_0 x y : continuity_2d_pt (integfunkt brdf t_0 p_0) x y.
Proof.
  unfold integfunkt. apply continuity_2d_pt_mult; [|apply (Cb t_0 p_0 x y)].
  apply continuity_2d_pt_mult; apply (continuity_1d_2d_pt_comp _ (fun u _ => u));
    solve [apply continuity_sin | apply continuity_cos | apply continuity_2d_pt_id1].
Qed.

Lemma simps2_converges t_0 p_0 eps : 0 < eps -> exists N0, forall N, (N0 <= N)%nat ->
  Rabs (simps2 brdf N t_0 p_0 - reflectance brdf 1 t_0 p_0) < eps.
Proof.
  intros He. set (f := integfunkt brdf t_0 p_0).
  assert (Pp := PI_RGT_0).
  assert (He' : 0 < eps / (4 * (PI * PI))).
  { apply Rdiv_lt_0_compat; [lra|]. assert (0 < PI * PI) by (apply Rmult_lt_0_compat; lra). lra. }
  destruct (uniform_continuity_2d f 0 (PI / 2) 0 (2 * PI) (fun x y _ _ => integrand_cont t_0 p_0 x y) (mkposreal _ He')) as [dl Hdl].
  simpl in Hdl. assert (Hd := cond_pos dl). set (d := dl / 2). assert (Hd2 : 0 < d < dl) by (unfold d; lra).
  (* enough points: 2 * (2 * PI) / (N - 1) <= d *)
  destruct (INR_above (2 * (2 * PI) / d)) as [M HM].
  exists (S (S M)). intros N HN.
  assert (HN1 : INR M < INR (N - 1)) by (apply lt_INR; lia).
  assert (Hpos : 0 < INR (N - 1)) by (assert (0 <= INR M) by apply pos_INR; lra).
  assert (Hsmall : 2 * ((2 * PI - 0) / INR (N - 1)) <= d).
  { replace (2 * ((2 * PI - 0) / INR (N - 1))) with (2 * (2 * PI) / INR (N - 1)) by (field; lra).
    apply (Rmult_le_reg_r (INR (N - 1))); [lra|]. unfold Rdiv at 1. rewrite Rmult_assoc, Rinv_l, Rmult_1_r by lra.
    assert (H := Rlt_trans _ _ _ HM HN1). apply (Rmult_lt_compat_r d) in H; [|lra].
    replace (2 * (2 * PI) / d * d) with (2 * (2 * PI)) in H by (field; lra). lra. }
  assert (Hsmall' : 2 * ((PI / 2 - 0) / INR (N - 1)) <= d).
  { eapply Rle_trans; [|exact Hsmall]. apply Rmult_le_compat_l; [lra|]. unfold Rdiv. apply Rmult_le_compat_r; [|lra].
    apply Rlt_le, Rinv_0_lt_compat, Hpos. }
  assert (E := double_error f (integrand_cont t_0 p_0) 0 (PI / 2) 0 (2 * PI) _ _ d (eps / (4 * (PI * PI)))
    ltac:(lra) ltac:(lra) (Rlt_le _ _ He')
    (simps_good 0 (PI / 2) d N ltac:(lra) ltac:(lia) Hsmall')
    (simps_good 0 (2 * PI) d N ltac:(lra) ltac:(lia) Hsmall)).
  assert (E2 : Rabs (simps2 brdf N t_0 p_0 - RInt (fun x => RInt (f x) 0 (2 * PI)) 0 (PI / 2))
    <= 2 * (eps / (4 * (PI * PI))) * ((PI / 2 - 0) * (2 * PI - 0))).
  { apply E; [|lra]. intros x y u v Hx Hy Hu Hv H1 H2. apply Rlt_le. apply (Hdl x y u v); auto; lra. }
  replace (reflectance brdf 1 t_0 p_0) with (RInt (fun x => RInt (f x) 0 (2 * PI)) 0 (PI / 2)).
  - eapply Rle_lt_trans; [exact E2|].
    replace (2 * (eps / (4 * (PI * PI))) * ((PI / 2 - 0) * (2 * PI - 0))) with (eps / 2) by (field; lra). lra.
  - unfold reflectance. rewrite Rmult_1_l. apply RInt_ext. intros x _. apply RInt_ext. intros y _.
    change (sin x * cos x * brdf t_0 x p_0 y = brdf t_0 x p_0 y * (cos x * sin x)). ring.
Qed.
End Conv.

Lemma reflectance_scale brdf n t p : reflectance brdf n t p = n * reflectance brdf 1 t p.
Proof. unfold reflectance. ring. Qed.

(** ** the Lambertian surface *)
Definition lambert (_ _ _ _ : R) : R := 1 / PI.

Lemma good_const Q a b d c : good Q a b d -> Q (fun _ => c) = c * (b - a).
Proof.
  intros (A1 & _ & _ & _ & A5).
  assert (H : Rabs (Q (fun _ => c) - RInt (fun _ => c) a b) <= 0 * (b - a)).
  { apply A5; [apply ex_RInt_const|]. intros u v _ _ _. rewrite Rminus_eq_0, Rabs_R0. lra. }
  rewrite RInt_const in H. unfold scal in H; simpl in H. unfold mult in H; simpl in H.
  rewrite Rmult_0_l in H. assert (P := Rabs_pos (Q (fun _ => c) - (b - a) * c)).
  assert (Z : Rabs (Q (fun _ => c) - (b - a) * c) = 0) by lra.
  destruct (Req_dec (Q (fun _ => c) - (b - a) * c) 0) as [E|E]; [lra|]. apply Rabs_no_R0 in E. contradiction.
Qed.

Lemma lambert_simps2 N t_0 p_0 : (2 <= N)%nat ->
  simps2 lambert N t_0 p_0 = simps (samples (fun x => sin (2 * x)) (linspace 0 (PI / 2) N)).
Proof.
  intros HN. unfold simps2, samples. f_equal. apply map_ext. intros x. f_equal.
  assert (Pp := PI_RGT_0).
  assert (G := simps_good 0 (2 * PI) (2 * ((2 * PI - 0) / INR (N - 1))) N ltac:(lra) HN (Rle_refl _)).
  unfold integfunkt, lambert. assert (E := good_const _ _ _ _ (sin x * cos x * (1 / PI)) G). unfold samples in E.
  rewrite E, sin_2a. field. lra.
Qed.

(** Simpson's rule for sin (2 x) *)
Definition rho (g : R) : R := g * (2 + cos g) / (3 * sin g).

Lemma simpson_sin a h k : 0 < h -> sin (2 * h) <> 0 ->
  simpson (samples (fun x => sin (2 * x)) (nodes a h (S (2 * k)))) =
  rho (2 * h) * ((cos (2 * a) - cos (2 * (a + INR (2 * k) * h))) / 2).
Proof.
  intros Hh Hs. revert a. induction k as [|k IH]; intros a.
  - replace (a + INR (2 * 0) * h) with a by (simpl; ring). change (0 = rho (2 * h) * ((cos (2 * a) - cos (2 * a)) / 2)). unfold Rdiv; ring.
  - rewrite simpson_S by lra. rewrite IH.
    replace (a + INR (2 * S k) * h) with (a + h + h + INR (2 * k) * h)
      by (replace (2 * S k)%nat with (S (S (2 * k))) by lia; rewrite !S_INR; ring).
    set (z := cos (2 * (a + h + h + INR (2 * k) * h))).
    set (m := 2 * (a + h)).
    replace (2 * a) with (m - 2 * h) by (unfold m; ring).
    replace (2 * (a + h + h)) with (m + 2 * h) by (unfold m; ring).
    rewrite !sin_minus, !sin_plus, !cos_minus, !cos_plus. unfold rho. field. exact Hs.
Qed.

Lemma tan_gt x : 0 < x < PI -> 0 < sin x - x * cos x.
Proof.
  intros Hx. destruct (MVT_cor2 (fun x => sin x - x * cos x) (fun x => x * sin x) 0 x) as (c & E & Hc); [lra| |].
  - intros c _. apply is_derive_Reals. auto_derive; [exact I|ring].
  - rewrite sin_0 in E. assert (0 < c * sin c) by (apply Rmult_lt_0_compat; [lra|apply sin_gt_0; lra]).
    assert (0 < c * sin c * (x - 0)) by (apply Rmult_lt_0_compat; lra). lra.
Qed.

(** Snellius' inequality *)
Lemma rho_gt g : 0 < g < PI -> 1 < rho g.
Proof.
  intros Hg. assert (S := sin_gt_0 g (proj1 Hg) (proj2 Hg)). unfold rho.
  assert (P : 0 < g * (2 + cos g) - 3 * sin g).
  { destruct (MVT_cor2 (fun g => g * (2 + cos g) - 3 * sin g) (fun g => 2 - 2 * cos g - g * sin g) 0 g) as (c & E & Hc); [lra| |].
    - intros c _. apply is_derive_Reals. auto_derive; [exact I|ring].
    - rewrite sin_0 in E. assert (D : 0 < 2 - 2 * cos c - c * sin c).
      { set (u := c / 2). assert (Hu : 0 < u < PI) by (unfold u; lra). assert (T := tan_gt u Hu).
        assert (Su := sin_gt_0 u (proj1 Hu) (proj2 Hu)). replace c with (2 * u) by (unfold u; field).
        rewrite cos_2a_sin, sin_2a. assert (0 < sin u * (sin u - u * cos u)) by (apply Rmult_lt_0_compat; lra). lra. }
      assert (0 < (2 - 2 * cos c - c * sin c) * (g - 0)) by (apply Rmult_lt_0_compat; lra). lra. }
  apply (Rmult_lt_reg_r (3 * sin g)); [lra|]. unfold Rdiv. rewrite Rmult_assoc, Rinv_l by lra. lra.
Qed.

Lemma lambert_odd N t_0 p_0 : (3 <= N)%nat -> Nat.odd N = true -> 1 < simps2 lambert N t_0 p_0.
Proof.
  intros HN Ho. rewrite lambert_simps2 by lia. apply Nat.odd_spec in Ho. destruct Ho as [k Hk].
  assert (Pp := PI_RGT_0). rewrite linspace_nodes. subst N. replace (2 * k + 1 - 1)%nat with (2 * k)%nat by lia.
  replace (2 * k + 1)%nat with (S (2 * k)) by lia.
  assert (Hk : 2 <= INR (2 * k)) by (apply (le_INR 2); lia).
  set (h := (PI / 2 - 0) / INR (2 * k)). assert (Hh : 0 < h) by (unfold h; apply Rdiv_lt_0_compat; lra).
  assert (Hh2 : 2 * h < PI).
  { unfold h. apply (Rmult_lt_reg_r (INR (2 * k))); [lra|].
    replace (2 * ((PI / 2 - 0) / INR (2 * k)) * INR (2 * k)) with PI by (field; lra). nra. }
  assert (S := sin_gt_0 (2 * h) ltac:(lra) Hh2).
  rewrite simps_odd, simpson_sin by lra. replace (2 * (0 + INR (2 * k) * h)) with PI by (unfold h; field; lra).
  rewrite Rmult_0_r, cos_0, cos_PI. assert (R := rho_gt (2 * h) ltac:(lra)). lra.
Qed.

Lemma even_bound s : 0 < s < PI / 2 -> s * cos s * (3 + sin s * sin s) < 3 * sin s.
Proof.
  intros Hs.
  destruct (MVT_cor2 (fun s => 3 * sin s - s * cos s * (3 + sin s * sin s))
    (fun s => sin s * (s * (1 + 3 * (sin s * sin s)) - sin s * cos s)) 0 s) as (c & E & Hc); [lra| |].
  - intros c _. apply is_derive_Reals. auto_derive; [exact I|].
    assert (Q : cos c * cos c = 1 - sin c * sin c) by (assert (H := sin2_cos2 c); unfold Rsqr in H; lra).
    match goal with |- ?l = ?r => replace l with (sin c * (c * (3 + sin c * sin c - 2 * (cos c * cos c)) - sin c * cos c)) by ring end.
    rewrite Q. ring.
  - assert (Pp := PI_RGT_0). assert (S := sin_gt_0 c ltac:(lra) ltac:(lra)). assert (C := cos_gt_0 c ltac:(lra) ltac:(lra)).
    assert (L := sin_lt_x c ltac:(lra)). assert (B := COS_bound c).
    assert (D : 0 < sin c * (c * (1 + 3 * (sin c * sin c)) - sin c * cos c)).
    { apply Rmult_lt_0_compat; [exact S|]. assert (sin c * cos c <= sin c) by nra. assert (0 <= c * (sin c * sin c)) by nra. nra. }
    assert (0 < sin c * (c * (1 + 3 * (sin c * sin c)) - sin c * cos c) * (s - 0)) by (apply Rmult_lt_0_compat; lra).
    rewrite sin_0 in E. lra.
Qed.

Lemma lambert_even N t_0 p_0 : (3 <= N)%nat -> Nat.odd N = false -> simps2 lambert N t_0 p_0 < 1.
Proof.
  intros HN Ho. rewrite lambert_simps2 by lia.
  assert (He : Nat.even N = true) by (rewrite <- Nat.negb_odd, Ho; reflexivity). apply Nat.even_spec in He. destruct He as [k Hk].
  destruct k as [|k]; [lia|]. assert (Pp := PI_RGT_0). rewrite linspace_nodes.
  replace N with (S (S (2 * k))) by lia. replace (S (S (2 * k)) - 1)%nat with (S (2 * k)) by lia.
  assert (Hk1 : 2 <= INR (2 * k)) by (apply (le_INR 2); lia). assert (Hk2 : INR (S (2 * k)) = INR (2 * k) + 1) by apply S_INR.
  set (h := (PI / 2 - 0) / INR (S (2 * k))). assert (Hh : 0 < h) by (unfold h; apply Rdiv_lt_0_compat; lra).
  assert (Hn : INR (2 * k) * h + h = PI / 2) by (unfold h; rewrite Hk2; field; lra).
  assert (Hh2 : h < PI / 4) by nra.
  rewrite simps_even. assert (S2 := sin_gt_0 (2 * h) ltac:(lra) ltac:(lra)).
  rewrite !simpson_sin by lra. unfold trap. cbn [fst snd].
  replace (2 * (0 + INR (2 * k) * h)) with (PI - 2 * h) by lra.
  replace (2 * (0 + INR (2 * k) * h + h)) with PI by lra.
  replace (2 * (0 + h + INR (2 * k) * h)) with PI by lra.
  replace (0 + INR (2 * k) * h + h - (0 + INR (2 * k) * h)) with h by ring.
  replace (0 + h - 0) with h by ring. replace (2 * (0 + h)) with (2 * h) by ring. rewrite !Rmult_0_r.
  rewrite sin_PI_x, Rtrigo_facts.cos_pi_minus, sin_PI, cos_PI, sin_0, cos_0.
  assert (S := sin_gt_0 h ltac:(lra) ltac:(lra)). assert (C := cos_gt_0 h ltac:(lra) ltac:(lra)).
  assert (B := even_bound h ltac:(lra)). unfold rho. rewrite cos_2a_cos, sin_2a.
  assert (Q : cos h * cos h = 1 - sin h * sin h) by (assert (H := sin2_cos2 h); unfold Rsqr in H; lra).
  match goal with |- ?l < 1 => replace l with (h * cos h * (1 + 2 * (cos h * cos h)) / (3 * sin h) + h * (sin h * cos h)) by (field; lra) end.
  rewrite Q. apply (Rmult_lt_reg_r (3 * sin h)); [lra|].
  replace ((h * cos h * (1 + 2 * (1 - sin h * sin h)) / (3 * sin h) + h * (sin h * cos h)) * (3 * sin h))
    with (h * cos h * (3 + sin h * sin h)) by (field; lra). lra.
Qed.

(** ** the shipped functions *)
From Verif Require Import Sca3_Proofs.
Lemma scat_cont t_0 p_0 a ts ps : continuity_2d_pt (fun ts ps => scat_angle t_0 ts p_0 ps a) ts ps.
Proof.
  unfold scat_angle.
  assert (C1 : continuity_2d_pt (fun u _ => cos u) ts ps)
    by (apply (continuity_1d_2d_pt_comp cos (fun u _ => u)); [apply continuity_cos|apply continuity_2d_pt_id1]).
  assert (S1 : continuity_2d_pt (fun u _ => sin u) ts ps)
    by (apply (continuity_1d_2d_pt_comp sin (fun u _ => u)); [apply continuity_sin|apply continuity_2d_pt_id1]).
  assert (C2 : continuity_2d_pt (fun _ v => cos v) ts ps)
    by (apply (continuity_1d_2d_pt_comp cos (fun _ v => v)); [apply continuity_cos|apply continuity_2d_pt_id2]).
  assert (S2 : continuity_2d_pt (fun _ v => sin v) ts ps)
    by (apply (continuity_1d_2d_pt_comp sin (fun _ v => v)); [apply continuity_sin|apply continuity_2d_pt_id2]).
  assert (K : forall c, continuity_2d_pt (fun _ _ => c) ts ps) by (intros c; apply continuity_2d_pt_const).
  repeat (apply continuity_2d_pt_plus || apply continuity_2d_pt_mult); try apply K; assumption.
Qed.

Lemma comp_cont (f : R -> R) a : (forall x, -1 <= x <= 1 -> continuous f x) -> unit_weights a ->
  continuous_brdf (fun t_0 ts p_0 ps => f (scat_angle t_0 ts p_0 ps a)).
Proof.
  intros Hf Ha t_0 p_0 ts ps. apply (continuity_1d_2d_pt_comp f (fun ts ps => scat_angle t_0 ts p_0 ps a)); [|apply scat_cont].
  apply continuity_pt_filterlim. apply (Hf (scat_angle t_0 ts p_0 ps a)). apply scat_bound, Ha.
Qed.

Lemma hgS_cont t x : -1 < t < 1 -> -1 <= x <= 1 -> continuous (hgS_func t) x.
Proof.
  intros Ht Hx. apply (continuous_ext (fun x => 4 * hgV_func t x)).
  - intros y. change (4 * hgV_func t y = hgS_func t y). unfold hgS_func, hgV_func. assert (Pp := PI_RGT_0).
    replace (4 * PI * pow15 (1 + t ^ 2 - 2 * t * y)) with (4 * (PI * pow15 (1 + t ^ 2 - 2 * t * y))) by ring.
    unfold Rdiv. rewrite Rinv_mult. generalize (/ (PI * pow15 (1 + t ^ 2 - 2 * t * y))). intros z. field.
  - apply (contM (fun _ => 4)); [apply contC|]. apply hgV_cont; assumption.
Qed.
Lemma hgnadir_cont t a x : -1 < t < 1 -> -1 <= x <= 1 -> continuous (hgnadir_func t a) x.
Proof.
  intros Ht Hx. apply (continuous_ext (fun x => 1 / nadir_hemreflect t a * hgS_func t x)).
  - intros y. unfold hgS_func, hgnadir_func. rewrite Rmult_1_l. reflexivity.
  - apply (contM (fun _ => 1 / nadir_hemreflect t a)); [apply contC|]. apply hgS_cont; assumption.
Qed.
Lemma coslobe_cont i x : continuous (coslobe_func i) x.
Proof.
  apply (continuous_ext (fun x => 1 / PI * ((x + Rabs x) / 2) ^ i)).
  - intros y. unfold coslobe_func, sgn. f_equal. f_equal.
    destruct (Rlt_dec 0 y) as [H|H]; [rewrite Rabs_pos_eq by lra; lra|].
    destruct (Rlt_dec y 0) as [H'|H']; [rewrite Rabs_left by lra; lra|].
    replace y with 0 by lra. rewrite Rabs_R0. lra.
  - apply (contM (fun _ => 1 / PI)); [apply contC|].
    apply (continuous_comp (fun x => (x + Rabs x) / 2) (fun z => z ^ i)).
    + apply (contM (fun x => x + Rabs x) (fun _ => / 2)); [|apply contC].
      apply (continuous_plus (fun x => x) Rabs); [apply continuous_id|apply continuous_Rabs].
    + apply ex_derive_cont. auto_derive. exact I.
Qed.

Lemma reflectance_lambert n t p : reflectance lambert n t p = n.
Proof.
  unfold reflectance, lambert. assert (Pp := PI_RGT_0).
  assert (E : RInt (fun ts => RInt (fun _ : R => 1 / PI * (cos ts * sin ts)) 0 (2 * PI)) 0 (PI / 2) = 1); [|rewrite E; ring].
  rewrite (RInt_ext _ (fun ts => 2 * (sin ts * cos ts))).
  2: { intros x _. rewrite RInt_const. change ((2 * PI - 0) * (1 / PI * (cos x * sin x)) = 2 * (sin x * cos x)). field. lra. }
  apply is_RInt_unique.
  replace 1 with (minus (sin (PI / 2) * sin (PI / 2)) (sin 0 * sin 0)).
  2: { rewrite sin_PI2, sin_0. unfold minus, plus, opp; simpl. ring. }
  apply (is_RInt_derive (fun x => sin x * sin x) (fun x => 2 * (sin x * cos x))).
  - intros x _. auto_derive; [exact I|ring].
  - intros x _. apply ex_derive_cont. auto_derive. exact I.
Qed.

(** the integrand at nadir does not depend on the azimuth *)
Lemma reflectance_nadir (f : R -> R) n p a : (forall x, -1 <= x <= 1 -> continuous f x) -> Rabs (a0 a) <= 1 ->
  sphere (fun th phi => f (scat_angle 0 th p phi a) * cos th) (PI / 2) = 1 ->
  reflectance (fun t_0 ts p_0 ps => f (scat_angle t_0 ts p_0 ps a)) n 0 p = n.
Proof.
  intros Hf Ha S. unfold reflectance. assert (Pp := PI_RGT_0).
  assert (E : RInt (fun ts => RInt (fun ps => f (scat_angle 0 ts p ps a) * (cos ts * sin ts)) 0 (2 * PI)) 0 (PI / 2) = 1); [|rewrite E; ring].
  set (g := fun ts => f (a0 a * cos ts) * cos ts * sin ts).
  rewrite (RInt_ext _ (fun ts => 2 * PI * g ts)).
  2: { intros x _. rewrite (RInt_ext _ (fun _ => g x)).
       - rewrite RInt_const. change ((2 * PI - 0) * g x = 2 * PI * g x). ring.
       - intros y _. rewrite scat_nadir. unfold g. change (f (a0 a * cos x) * (cos x * sin x) = f (a0 a * cos x) * cos x * sin x). ring. }
  assert (S' : 2 * PI * RInt g 0 (PI / 2) = 1).
  { rewrite <- S. unfold sphere. symmetry. rewrite (RInt_ext _ (fun _ => RInt g 0 (PI / 2))).
    - rewrite RInt_const. change ((2 * PI - 0) * RInt g 0 (PI / 2) = 2 * PI * RInt g 0 (PI / 2)). ring.
    - intros x _. apply RInt_ext. intros y _. rewrite scat_nadir. reflexivity. }
  rewrite <- S'. apply (RInt_scal g 0 (PI / 2) (2 * PI)).
  apply (@ex_RInt_continuous R_CompleteNormedModule). intros z _. unfold g.
  apply (contM (fun ts => f (a0 a * cos ts) * cos ts) sin); [|apply continuous_sin].
  apply (contM (fun ts => f (a0 a * cos ts)) cos); [|apply continuous_cos].
  apply (continuous_comp (fun ts => a0 a * cos ts) f).
  - apply (contM (fun _ => a0 a) cos); [apply contC|apply continuous_cos].
  - apply Hf. apply Rabs_le_between in Ha. assert (B := COS_bound z). nra.
Qed.
