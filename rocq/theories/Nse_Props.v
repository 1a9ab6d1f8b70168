(** C194: errors of the data and of the parameters *)
From Coq Require Import ZArith Reals Bool Lia Lra Arith List String.
From Coquelicot Require Import Coquelicot.
From Verif Require Import Base RT_Model RT_Spec Fit_Model Fit_Spec Fit_Proofs Fit2_Proofs Fit4_Proofs Res_Model Res_Spec Res_Proofs Res_Props Dns_Spec Nfr_Spec Nfr_Props Rtv_Spec Rtv_Props Nse_Spec.
Import ListNotations.
Local Open Scope R_scope.

(** ** sums over groups *)
Lemma sumR_cons x l : sumR (x :: l) = x + sumR l. Proof. reflexivity. Qed.
Lemma pick_one (k : nat) (a : nat) (x : R) n : sumR (map (fun j => if Nat.eqb k j then x else 0) (seq a n)) = if (Nat.leb a k && Nat.ltb k (a + n))%bool then x else 0.
Proof.
  revert a. induction n as [|n IH]; intros a.
  - rewrite Nat.add_0_r. destruct (Nat.leb_spec a k), (Nat.ltb_spec k a); cbn; try reflexivity; exfalso; lia.
  - cbn [seq map]. rewrite sumR_cons, IH. destruct (Nat.eqb_spec k a), (Nat.leb_spec (S a) k), (Nat.leb_spec a k), (Nat.ltb_spec k (S a + n)), (Nat.ltb_spec k (a + S n)); cbn [andb]; try lra; exfalso; lia.
Qed.
Lemma sum_by (r : nat -> nat) (F : nat -> nat -> R) K l : (forall i, In i l -> (r i < K)%nat) ->
  sumR (map (fun i => F i (r i)) l) = sumR (map (fun k => sumR (map (fun i => if Nat.eqb (r i) k then F i k else 0) l)) (seq 0 K)).
Proof.
  induction l as [|i l IH]; intros H.
  - cbn. induction (seq 0 K) as [|k s IHs]; cbn; [reflexivity|]. unfold sumR in IHs. rewrite <- IHs. lra.
  - cbn [map]. rewrite sumR_cons, IH by (intros; apply H; right; assumption).
    transitivity (sumR (map (fun k => (if Nat.eqb (r i) k then F i k else 0) + sumR (map (fun i => if Nat.eqb (r i) k then F i k else 0) l)) (seq 0 K))); [|reflexivity].
    rewrite sumR_plus. f_equal. transitivity (sumR (map (fun k => if Nat.eqb (r i) k then F i (r i) else 0) (seq 0 K))).
    + rewrite pick_one. specialize (H i (or_introl eq_refl)). destruct (Nat.leb_spec 0 (r i)), (Nat.ltb_spec (r i) (0 + K)); cbn; try reflexivity; lia.
    + f_equal. apply map_ext. intros k. destruct (Nat.eqb_spec (r i) k) as [->|]; reflexivity.
Qed.
Lemma og_lin c g (a b : R) f h : over_group c g (fun i => a * f i + b * h i) = a * over_group c g f + b * over_group c g h.
Proof.
  unfold over_group. induction (seq 0 (List.length c)) as [|i s IH]; [cbn; ring|]. cbn [map]. rewrite !sumR_cons, IH. destruct (Z.eqb _ g); ring.
Qed.
Lemma og_ext c g f h : (forall i, (i < List.length c)%nat -> nth i c 0%Z = g -> f i = h i) -> over_group c g f = over_group c g h.
Proof.
  intros H. unfold over_group. f_equal. apply map_ext_in. intros i Hi. apply in_seq in Hi. destruct (Z.eqb_spec (nth i c 0%Z) g) as [E|]; [apply H; [lia|exact E]|reflexivity].
Qed.
Lemma og_le c g f h : (forall i, (i < List.length c)%nat -> nth i c 0%Z = g -> f i <= h i) -> over_group c g f <= over_group c g h.
Proof.
  intros H. unfold over_group. apply sumR_le. intros i Hi. apply in_seq in Hi. destruct (Z.eqb_spec (nth i c 0%Z) g) as [E|]; [apply H; [lia|exact E]|lra].
Qed.
Lemma og_abs c g f : Rabs (over_group c g f) <= over_group c g (fun i => Rabs (f i)).
Proof.
  unfold over_group. induction (seq 0 (List.length c)) as [|i s IH]; [cbn; rewrite Rabs_R0; lra|]. cbn [map]. rewrite !sumR_cons. eapply Rle_trans; [apply Rabs_triang|]. destruct (Z.eqb _ g); [lra|rewrite Rabs_R0; lra].
Qed.
Lemma og_pos c g f : (forall i, 0 <= f i) -> (exists i, (i < List.length c)%nat /\ nth i c 0%Z = g /\ f i <> 0) -> 0 < over_group c g f.
Proof.
  intros Hp (i & Hi & Eg & Hn). assert (P : forall x, In x (map (fun i => if Z.eqb (nth i c 0%Z) g then f i else 0) (seq 0 (List.length c))) -> 0 <= x).
  { intros x Ix. apply in_map_iff in Ix. destruct Ix as (j & <- & _). destruct (Z.eqb _ g); [apply Hp|lra]. }
  destruct (Req_dec (over_group c g f) 0) as [Z|N]; [|pose proof (sumR_nonneg _ P); unfold over_group in *; lra].
  elim Hn. apply (sumR_zero _ P Z). apply in_map_iff. exists i. rewrite Eg, Z.eqb_refl. split; [reflexivity|]. apply in_seq. lia.
Qed.

(** ** the model in linear units *)
Lemma model_line sig0 key o v : affine_key key -> rt1_model false sig0 key [Some v] o = offset sig0 key o + gain sig0 key o * v.
Proof.
  intros A. destruct (value_affine sig0 key o A) as (a & b & F). unfold gain, offset. change (seen_value false sig0 key o v = seen_value false sig0 key o 0 + (seen_value false sig0 key o 1 - seen_value false sig0 key o 0) * v). rewrite !F. ring.
Qed.
Lemma gain_seen sig0 key o : sensitive key o -> gain sig0 key o <> 0.
Proof.
  intros S Z. assert (X : 1 = 0); [|lra]. apply (C189_sensitive key o 1 0 S). apply (units_inj false sig0 (t_0 o)); [apply S|discriminate|]. unfold gain, offset, rt1_model in Z. lra.
Qed.
Lemma norm_pos sig0 key rows o0 weights c g : seen key rows o0 weights c -> In g c -> 0 < over_group c g (fun i => Rsqr (weight weights i * gain sig0 key (nth i rows o0))).
Proof.
  intros Se Ig. apply og_pos; [intros; apply Rle_0_sqr|]. destruct (Se g Ig) as (i & Hi & Eg & S & W). exists i. split; [exact Hi|]. split; [exact Eg|]. intros Z. apply Rsqr_0_uniq, Rmult_integral in Z. destruct Z as [Z|Z]; [exact (W Z)|exact (gain_seen sig0 key _ S Z)].
Qed.
Lemma clamp_in lo hi x : lo <= hi -> lo <= clamp lo hi x <= hi.
Proof. intros H. unfold clamp, Rmax, Rmin. destruct (Rle_dec hi x), (Rle_dec lo hi), (Rle_dec lo x); lra. Qed.
Lemma clamp_var lo hi x z : lo <= z <= hi -> 0 <= (z - clamp lo hi x) * (clamp lo hi x - x).
Proof. intros H. unfold clamp, Rmax, Rmin. destruct (Rle_dec hi x), (Rle_dec lo hi), (Rle_dec lo x); nra. Qed.
Lemma clamp_near lo hi x t : lo <= t <= hi -> Rabs (clamp lo hi x - t) <= Rabs (x - t).
Proof. intros H. unfold clamp, Rmax, Rmin, Rabs. destruct (Rle_dec hi x), (Rle_dec lo hi), (Rle_dec lo x); repeat destruct Rcase_abs; lra. Qed.

(** a parameter that enters linearly, linear units: the best fit is the weighted regression of each group, moved into the bounds *)
Theorem C194_closed : forall sig0 key gi index rows sig weights c lo hi y o0,
  gi <> [] -> List.length index = List.length gi -> List.length rows = List.length gi -> List.length sig = List.length gi ->
  (forall w, weights = Some w -> List.length w = List.length gi) -> refines gi c -> affine_key key -> seen key rows o0 weights c ->
  List.length lo = List.length (uniq c) -> (forall k, (k < List.length (uniq c))%nat -> nth k lo 0 <= nth k hi 0) ->
  (best_fit false sig0 key gi index rows sig weights c lo hi y <->
   List.length y = List.length (uniq c) /\ forall k, (k < List.length (uniq c))%nat -> nth k y 0 = clamp (nth k lo 0) (nth k hi 0) (estimate sig0 key rows o0 sig weights c (nth k (uniq c) 0%Z))).
Proof.
  intros sig0 key gi index rows sig weights c lo hi y o0 H1 H2 H3 H4 H5 Rf Ak Se Llo Hlh.
  set (m := List.length (uniq c)). set (est := fun k => estimate sig0 key rows o0 sig weights c (nth k (uniq c) 0%Z)).
  assert (Lc : List.length c = List.length gi) by (symmetry; apply Rf).
  assert (H6 : forall d, In d [c] -> refines gi d) by (intros d [<-|[]]; exact Rf).
  set (of := fun i => offset sig0 key (nth i rows o0)). set (ga := fun i => gain sig0 key (nth i rows o0)).
  set (G := fun (x : list R) i => Rsqr (weight weights i * (of i + ga i * value_at 0 (c, x) i - nth i sig 0))).
  assert (Cost : forall x, List.length x = m -> is_cost RT (rt1_model false sig0 key) gi index rows sig weights [c] x (sumR (map (G x) (seq 0 (List.length gi))))).
  { intros x Lx. assert (Vx : vector_of [c] [x] x) by (split; cbn; [apply app_nil_r|unfold m in Lx; rewrite Lx; reflexivity]). pose proof (cost_form RT (rt1_model false sig0 key) gi index rows sig weights [c] [x] x o0 H1 H2 H3 H4 H5 H6 Vx) as D.
    replace (sumR (map (G x) (seq 0 (List.length gi)))) with (sumR (map (fun i => Rsqr (weight weights i * (rt1_model false sig0 key (map (fun p => Some (value_at 0 p i)) (combine [c] [x])) (nth i rows o0) - nth i sig 0))) (seq 0 (List.length gi)))); [exact D|].
    f_equal. apply map_ext. intros i. cbn [combine map]. rewrite model_line by exact Ak. reflexivity. }
  assert (Best : forall y, List.length y = m -> (forall k, (k < m)%nat -> nth k y 0 = clamp (nth k lo 0) (nth k hi 0) (est k)) -> best_fit false sig0 key gi index rows sig weights c lo hi y).
  { clear y. intros y Ly Ey. assert (Iy : in_box lo hi y) by (split; [unfold m in Ly; congruence|]; intros k Hk; rewrite Llo in Hk; rewrite Ey by exact Hk; apply clamp_in, Hlh; exact Hk).
    split; [exact Iy|]. eexists. split; [apply Cost; exact Ly|]. intros z n [Lz Bz] Cz. rewrite (cost_fun _ _ _ _ _ _ _ _ _ _ _ Cz (Cost z ltac:(unfold m; congruence))).
    set (d := fun k => nth k z 0 - nth k y 0).
    set (D := fun i k => (d k * d k + 2 * d k * nth k y 0) * Rsqr (weight weights i * ga i) + (- 2 * d k) * (Rsqr (weight weights i) * ga i * (nth i sig 0 - of i))).
    assert (Sum : sumR (map (G z) (seq 0 (List.length gi))) = sumR (map (G y) (seq 0 (List.length gi))) + sumR (map (fun i => D i (rank c (nth i c 0%Z))) (seq 0 (List.length gi)))).
    { rewrite <- sumR_plus. f_equal. apply map_ext. intros i. unfold G, D, d, value_at. cbn [fst snd]. unfold Rsqr. ring. }
    rewrite Sum. assert (Pos : 0 <= sumR (map (fun i => D i (rank c (nth i c 0%Z))) (seq 0 (List.length gi)))); [|lra].
    rewrite (sum_by (fun i => rank c (nth i c 0%Z)) D m) by (intros i Hi; apply in_seq in Hi; apply rank_lt, nth_In; lia).
    apply sumR_nonneg. intros x Ix. apply in_map_iff in Ix. destruct Ix as (k & <- & Hk). apply in_seq in Hk. assert (Hk' : (k < m)%nat) by lia. clear Hk.
    set (g := nth k (uniq c) 0%Z). assert (Ig : In g c) by (apply in_uniq, nth_In; exact Hk').
    replace (sumR (map (fun i => if Nat.eqb (rank c (nth i c 0%Z)) k then D i k else 0) (seq 0 (List.length gi)))) with (over_group c g (fun i => D i k)).
    2:{ unfold over_group. rewrite Lc. f_equal. apply map_ext_in. intros i Hi. apply in_seq in Hi. destruct (Z.eqb_spec (nth i c 0%Z) g) as [E|N], (Nat.eqb_spec (rank c (nth i c 0%Z)) k) as [E'|N']; try reflexivity.
        - elim N'. rewrite E. apply rank_nth_self. exact Hk'.
        - elim N. apply (rank_inj c); [apply nth_In; lia|exact Ig|]. rewrite E'. symmetry. apply rank_nth_self. exact Hk'. }
    unfold D. rewrite og_lin. pose proof (norm_pos sig0 key rows o0 weights c g Se Ig) as PB. fold ga in PB. change (fun i => Rsqr (weight weights i * gain sig0 key (nth i rows o0))) with (fun i => Rsqr (weight weights i * ga i)) in PB.
    assert (Ee : over_group c g (fun i => Rsqr (weight weights i) * ga i * (nth i sig 0 - of i)) = over_group c g (fun i => Rsqr (weight weights i * ga i)) * est k).
    { unfold est, estimate. fold g. change (fun i => Rsqr (weight weights i) * gain sig0 key (nth i rows o0) * (nth i sig 0 - offset sig0 key (nth i rows o0))) with (fun i => Rsqr (weight weights i) * ga i * (nth i sig 0 - of i)).
      change (fun i => Rsqr (weight weights i * gain sig0 key (nth i rows o0))) with (fun i => Rsqr (weight weights i * ga i)). field. lra. }
    rewrite Ee. set (B := over_group c g (fun i => Rsqr (weight weights i * ga i))) in *. clearbody B.
    assert (V : 0 <= d k * (nth k y 0 - est k)). { unfold d. rewrite Ey by exact Hk'. apply clamp_var. apply Bz. unfold m in Hk'. congruence. }
    replace ((d k * d k + 2 * d k * nth k y 0) * B + - 2 * d k * (B * est k)) with (B * (d k * d k + 2 * (d k * (nth k y 0 - est k)))) by ring.
    apply Rmult_le_pos; [lra|]. pose proof (Rle_0_sqr (d k)) as Sq. unfold Rsqr in Sq. lra. }
  split.
  - intros By. set (y0 := map (fun k => clamp (nth k lo 0) (nth k hi 0) (est k)) (seq 0 m)).
    assert (L0 : List.length y0 = m) by (unfold y0; rewrite map_length, seq_length; reflexivity).
    assert (N0 : forall k, (k < m)%nat -> nth k y0 0 = clamp (nth k lo 0) (nth k hi 0) (est k)).
    { intros k Hk. unfold y0. rewrite (nth_indep _ 0 ((fun k => clamp (nth k lo 0) (nth k hi 0) (est k)) 0%nat)) by (rewrite map_length, seq_length; exact Hk). rewrite (map_nth (fun k => clamp (nth k lo 0) (nth k hi 0) (est k))), seq_nth by exact Hk. reflexivity. }
    rewrite (C190_linear_fit sig0 key gi index rows sig weights c lo hi y y0 o0 H1 H2 H3 H4 H5 Rf Llo Ak Se By (Best y0 L0 N0)). split; [exact L0|exact N0].
  - intros [Ly Ey]. apply Best; assumption.
Qed.
Print Assumptions C194_closed.

(** data with errors: the error of a parameter is a weighted mean of the errors of its group, divided by the gain *)
Theorem C194_noise : forall sig0 key gi index rows sig weights c lo hi y truth e o0,
  gi <> [] -> List.length index = List.length gi -> List.length rows = List.length gi -> List.length sig = List.length gi ->
  (forall w, weights = Some w -> List.length w = List.length gi) -> refines gi c -> affine_key key -> seen key rows o0 weights c ->
  List.length lo = List.length (uniq c) -> (forall k, (k < List.length (uniq c))%nat -> nth k lo 0 <= nth k truth 0 <= nth k hi 0) ->
  (forall i, (i < List.length gi)%nat -> nth i sig 0 = rt1_model false sig0 key [Some (value_at 0 (c, truth) i)] (nth i rows o0) + e i) ->
  best_fit false sig0 key gi index rows sig weights c lo hi y ->
  forall k, (k < List.length (uniq c))%nat ->
  Rabs (nth k y 0 - nth k truth 0) <=
    over_group c (nth k (uniq c) 0%Z) (fun i => Rsqr (weight weights i) * Rabs (gain sig0 key (nth i rows o0)) * Rabs (e i)) / over_group c (nth k (uniq c) 0%Z) (fun i => Rsqr (weight weights i * gain sig0 key (nth i rows o0))).
Proof.
  intros sig0 key gi index rows sig weights c lo hi y truth e o0 H1 H2 H3 H4 H5 Rf Ak Se Llo Ht Hs By k Hk.
  assert (Lc : List.length c = List.length gi) by (symmetry; apply Rf).
  apply (C194_closed sig0 key gi index rows sig weights c lo hi y o0) in By; try assumption; [|intros j Hj; specialize (Ht j Hj); lra]. destruct By as [_ Ey]. rewrite Ey by exact Hk.
  eapply Rle_trans; [apply clamp_near; apply Ht; exact Hk|]. set (g := nth k (uniq c) 0%Z). assert (Ig : In g c) by (apply in_uniq, nth_In; exact Hk).
  pose proof (norm_pos sig0 key rows o0 weights c g Se Ig) as PB. unfold estimate. set (B := over_group c g (fun i => Rsqr (weight weights i * gain sig0 key (nth i rows o0)))) in *.
  assert (X : over_group c g (fun i => Rsqr (weight weights i) * gain sig0 key (nth i rows o0) * (nth i sig 0 - offset sig0 key (nth i rows o0))) = nth k truth 0 * B + 1 * over_group c g (fun i => Rsqr (weight weights i) * gain sig0 key (nth i rows o0) * e i)).
  { unfold B. rewrite <- og_lin. apply og_ext. intros i Hi Ei. rewrite Hs by lia. rewrite model_line by exact Ak. unfold value_at. cbn [fst snd]. rewrite Ei. unfold g. rewrite rank_nth_self by exact Hk. unfold Rsqr. ring. }
  rewrite X. replace ((nth k truth 0 * B + 1 * over_group c g (fun i => Rsqr (weight weights i) * gain sig0 key (nth i rows o0) * e i)) / B - nth k truth 0) with (over_group c g (fun i => Rsqr (weight weights i) * gain sig0 key (nth i rows o0) * e i) / B) by (field; lra).
  unfold Rdiv. rewrite Rabs_mult, (Rabs_right (/ B)) by (apply Rle_ge, Rlt_le, Rinv_0_lt_compat; exact PB). apply Rmult_le_compat_r; [apply Rlt_le, Rinv_0_lt_compat; exact PB|].
  eapply Rle_trans; [apply og_abs|]. apply og_le. intros i _ _. rewrite !Rabs_mult, (Rabs_right (Rsqr _)) by (apply Rle_ge, Rle_0_sqr). lra.
Qed.
Print Assumptions C194_noise.

(** errors of at most eps: the error of a parameter is at most eps divided by the smallest gain of its group *)
Theorem C194_bound : forall sig0 key gi index rows sig weights c lo hi y truth e o0 eps beta,
  gi <> [] -> List.length index = List.length gi -> List.length rows = List.length gi -> List.length sig = List.length gi ->
  (forall w, weights = Some w -> List.length w = List.length gi) -> refines gi c -> affine_key key -> seen key rows o0 weights c ->
  List.length lo = List.length (uniq c) -> (forall k, (k < List.length (uniq c))%nat -> nth k lo 0 <= nth k truth 0 <= nth k hi 0) ->
  (forall i, (i < List.length gi)%nat -> nth i sig 0 = rt1_model false sig0 key [Some (value_at 0 (c, truth) i)] (nth i rows o0) + e i) ->
  (forall i, (i < List.length gi)%nat -> Rabs (e i) <= eps) -> 0 < beta -> (forall i, (i < List.length gi)%nat -> beta <= Rabs (gain sig0 key (nth i rows o0))) ->
  best_fit false sig0 key gi index rows sig weights c lo hi y ->
  forall k, (k < List.length (uniq c))%nat -> Rabs (nth k y 0 - nth k truth 0) <= eps / beta.
Proof.
  intros sig0 key gi index rows sig weights c lo hi y truth e o0 eps beta H1 H2 H3 H4 H5 Rf Ak Se Llo Ht Hs He Hb Hg By k Hk.
  assert (Lc : List.length c = List.length gi) by (symmetry; apply Rf).
  eapply Rle_trans; [apply (C194_noise sig0 key gi index rows sig weights c lo hi y truth e o0); assumption|].
  set (g := nth k (uniq c) 0%Z). assert (Ig : In g c) by (apply in_uniq, nth_In; exact Hk). pose proof (norm_pos sig0 key rows o0 weights c g Se Ig) as PB.
  set (B := over_group c g (fun i => Rsqr (weight weights i * gain sig0 key (nth i rows o0)))) in *.
  assert (P0 : 0 <= eps). { destruct gi as [|x gi]; [elim H1; reflexivity|]. specialize (He 0%nat ltac:(cbn; lia)). pose proof (Rabs_pos (e 0%nat)). lra. }
  apply (Rmult_le_reg_r B); [exact PB|]. unfold Rdiv at 1. rewrite Rmult_assoc, Rinv_l, Rmult_1_r by lra.
  replace (eps / beta * B) with (eps / beta * B + 0 * B) by ring. unfold B. rewrite <- og_lin. apply og_le. intros i Hi _. rewrite Lc in Hi. specialize (He i Hi). specialize (Hg i Hi).
  set (w := weight weights i). set (a := gain sig0 key (nth i rows o0)) in *. rewrite Rsqr_mult, (Rsqr_abs a). pose proof (Rle_0_sqr w) as Pw. pose proof (Rabs_pos a) as Pa. set (W := Rsqr w) in *. set (A := Rabs a) in *. clearbody W A.
  replace (eps / beta * (W * Rsqr A) + 0 * (W * Rsqr A)) with (W * A * (eps * (A / beta))) by (unfold Rsqr; field; lra). apply Rmult_le_compat_l; [apply Rmult_le_pos; assumption|].
  assert (1 <= A / beta) by (apply (Rmult_le_reg_r beta); [exact Hb|]; unfold Rdiv; rewrite Rmult_assoc, Rinv_l by lra; lra). nra.
Qed.
Print Assumptions C194_bound.

(** repeated measurements of one scene: the fit explains the weighted mean of the data *)
Theorem C194_mean : forall sig0 key rows sig weights c g o0 o, affine_key key -> sensitive key o -> (exists i, (i < List.length c)%nat /\ nth i c 0%Z = g /\ weight weights i <> 0) ->
  (forall i, (i < List.length c)%nat -> nth i c 0%Z = g -> nth i rows o0 = o) ->
  rt1_model false sig0 key [Some (estimate sig0 key rows o0 sig weights c g)] o =
    over_group c g (fun i => Rsqr (weight weights i) * nth i sig 0) / over_group c g (fun i => Rsqr (weight weights i)).
Proof.
  intros sig0 key rows sig weights c g o0 o Ak S Hw Hr. rewrite model_line by exact Ak. unfold estimate. pose proof (gain_seen sig0 key o S) as Ng. set (a := gain sig0 key o) in *. set (f := offset sig0 key o).
  assert (PW : 0 < over_group c g (fun i => Rsqr (weight weights i))). { apply og_pos; [intros; apply Rle_0_sqr|]. destruct Hw as (i & Hi & Ei & Wi). exists i. split; [exact Hi|]. split; [exact Ei|]. intros Z. apply Rsqr_0_uniq in Z. exact (Wi Z). }
  rewrite (og_ext c g (fun i => Rsqr (weight weights i) * gain sig0 key (nth i rows o0) * (nth i sig 0 - offset sig0 key (nth i rows o0))) (fun i => a * (Rsqr (weight weights i) * nth i sig 0) + (- a * f) * Rsqr (weight weights i))) by (intros i Hi Ei; rewrite (Hr i Hi Ei); fold a; fold f; ring).
  rewrite (og_ext c g (fun i => Rsqr (weight weights i * gain sig0 key (nth i rows o0))) (fun i => (a * a) * Rsqr (weight weights i) + 0 * Rsqr (weight weights i))) by (intros i Hi Ei; rewrite (Hr i Hi Ei); fold a; unfold Rsqr; ring).
  rewrite !og_lin. set (M := over_group c g (fun i => Rsqr (weight weights i) * nth i sig 0)). set (W := over_group c g (fun i => Rsqr (weight weights i))) in *. clearbody M W a f. field. split; [lra|exact Ng].
Qed.
Print Assumptions C194_mean.

(** ** one measurement, all units and parameters: the fitted value of the model does not move more than the measurement *)
Lemma attains f lo hi v v' x : (forall u, lo <= u <= hi -> continuity_pt f u) -> lo <= v <= hi -> lo <= v' <= hi -> f v < x -> x < f v' -> exists u, lo <= u <= hi /\ f u = x.
Proof.
  intros C Hv Hv' L1 L2. destruct (Rtotal_order v v') as [L|[->|L]]; [|lra|].
  - destruct (crossing f x v v' L) as (u & Hu & E); [intros u Hu; apply C; lra|nra|exists u; split; [lra|exact E]].
  - destruct (crossing f x v' v L) as (u & Hu & E); [intros u Hu; apply C; lra|nra|exists u; split; [lra|exact E]].
Qed.
Lemma projection f lo hi s s' v v' : (forall u, lo <= u <= hi -> continuity_pt f u) -> best_in f s lo hi v -> best_in f s' lo hi v' -> f v < f v' -> s <= f v /\ f v' <= s'.
Proof.
  intros C [Hv Bv] [Hv' Bv'] L. split.
  - destruct (Rle_dec s (f v)) as [|N]; [assumption|exfalso]. destruct (Rlt_dec s (f v')) as [M|M].
    + destruct (attains f lo hi v v' s C Hv Hv' ltac:(lra) M) as (u & Hu & E). specialize (Bv u Hu). rewrite E in Bv. replace (s - s) with 0 in Bv by ring. rewrite Rabs_R0 in Bv. unfold Rabs in Bv. destruct Rcase_abs; lra.
    + specialize (Bv v' Hv'). unfold Rabs in Bv. repeat destruct Rcase_abs; lra.
  - destruct (Rle_dec (f v') s') as [|N]; [assumption|exfalso]. destruct (Rlt_dec (f v) s') as [M|M].
    + destruct (attains f lo hi v v' s' C Hv Hv' M ltac:(lra)) as (u & Hu & E). specialize (Bv' u Hu). rewrite E in Bv'. replace (s' - s') with 0 in Bv' by ring. rewrite Rabs_R0 in Bv'. unfold Rabs in Bv'. destruct Rcase_abs; lra.
    + specialize (Bv' v Hv). unfold Rabs in Bv'. repeat destruct Rcase_abs; lra.
Qed.
Theorem C194_projection : forall dB sig0 key o s s' lo hi v v', sensitive key o ->
  (dB = true -> forall u, lo <= u <= hi -> 0 < RT_Spec.total (with_key o key u)) ->
  let f := fun v => rt1_model dB sig0 key [Some v] o in
  best_in f s lo hi v -> best_in f s' lo hi v' -> Rabs (f v - f v') <= Rabs (s - s').
Proof.
  intros dB sig0 key o s s' lo hi v v' S Hp f Bv Bv'. assert (C : forall u, lo <= u <= hi -> continuity_pt f u) by (intros u Hu; apply (value_cont dB sig0 key o u S); intros Hd; apply (Hp Hd u Hu)).
  destruct (Rtotal_order (f v) (f v')) as [L|[E|L]].
  - destruct (projection f lo hi s s' v v' C Bv Bv' L). unfold Rabs. repeat destruct Rcase_abs; lra.
  - rewrite E. replace (f v' - f v') with 0 by ring. rewrite Rabs_R0. apply Rabs_pos.
  - destruct (projection f lo hi s' s v' v C Bv' Bv L). unfold Rabs. repeat destruct Rcase_abs; lra.
Qed.
Print Assumptions C194_projection.

(** three measurements of a scene seen from above, two of them in one group *)
Example C194_example : let rows := [nadir 1; nadir 1; nadir 1] in
  affine_key "NormBRDF" /\ seen "NormBRDF" rows (nadir 1) None [1; 2; 1]%Z /\ refines [1; 2; 1]%Z [1; 2; 1]%Z /\ List.length (uniq [1; 2; 1]%Z) = 2%nat /\
  forall s1 s2 s3, rt1_model false false "NormBRDF" [Some (estimate false "NormBRDF" rows (nadir 1) [s1; s2; s3] None [1; 2; 1]%Z 1%Z)] (nadir 1) = (s1 + s3) / 2.
Proof.
  intros rows. assert (A : affine_key "NormBRDF") by (unfold affine_key; cbn; auto).
  assert (S : sensitive "NormBRDF" (nadir 1)) by (destruct (proj1 C189_example "NormBRDF"%string ltac:(cbn; auto)) as (C1 & C2 & C3); split; [exact C1|split; [exact C2|exact C3]]).
  assert (N : forall i, (i < 3)%nat -> nth i rows (nadir 1) = nadir 1) by (intros [|[|[|i]]] Hi; try reflexivity; lia).
  split; [exact A|]. split.
  { intros g [<-|[<-|[<-|[]]]]; [exists 0%nat|exists 1%nat|exists 0%nat]; (split; [cbn; lia|split; [reflexivity|split; [exact S|cbn; lra]]]). }
  split; [split; [reflexivity|intros i j _ _ E; exact E]|]. split; [reflexivity|].
  intros s1 s2 s3. rewrite (C194_mean false "NormBRDF" rows [s1; s2; s3] None [1; 2; 1]%Z 1%Z (nadir 1) (nadir 1) A S).
  - unfold over_group, Rsqr. cbn. field.
  - exists 0%nat. split; [cbn; lia|split; [reflexivity|cbn; lra]].
  - intros i Hi _. apply N. exact Hi.
Qed.
