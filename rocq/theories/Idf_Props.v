(** C192: which pairs of parameters a fit can tell apart *)
From Coq Require Import ZArith Reals Bool Lia Lra Arith List String Classical.
From Coquelicot Require Import Coquelicot.
From Verif Require Import Base RT_Model RT_Spec Fit_Model Fit_Spec Fit_Proofs Fit2_Proofs Fit4_Proofs Res_Model Res_Spec Res_Proofs Res_Props Dns_Spec Nfr_Spec Nfr_Props Rtv_Spec Rtv_Props Idf_Spec.
Import ListNotations.
Local Open Scope R_scope.

(** ** fits *)
(** observations that share both values determine them: there is only one vector without residuals *)
Theorem C192_unique : forall A (model : list (option R) -> A -> R) (P : R -> R -> Prop) gi index rows sig weights c1 c2 t1 t2 y1 y2 a0,
  gi <> [] -> List.length index = List.length gi -> List.length rows = List.length gi -> List.length sig = List.length gi ->
  (forall w, weights = Some w -> List.length w = List.length gi) -> refines gi c1 -> refines gi c2 ->
  List.length t1 = List.length (uniq c1) -> List.length t2 = List.length (uniq c2) -> List.length y1 = List.length (uniq c1) -> List.length y2 = List.length (uniq c2) ->
  generated A model rows a0 [c1; c2] [t1; t2] sig ->
  (forall i, (i < List.length gi)%nat -> P (value_at 0 (c1, t1) i) (value_at 0 (c2, t2) i) /\ P (value_at 0 (c1, y1) i) (value_at 0 (c2, y2) i)) ->
  (forall i, (i < List.length gi)%nat -> determine model P (sharing rows a0 weights c1 c2 i)) ->
  (is_cost A model gi index rows sig weights [c1; c2] (y1 ++ y2) 0 <-> y1 = t1 /\ y2 = t2).
Proof.
  intros A model P gi index rows sig weights c1 c2 t1 t2 y1 y2 a0 H1 H2 H3 H4 H5 R1 R2 L1 L2 L3 L4 Hg HP Hd.
  assert (H6 : forall d, In d [c1; c2] -> refines gi d) by (intros d [<-|[<-|[]]]; assumption).
  assert (Vy : vector_of [c1; c2] [y1; y2] (y1 ++ y2)) by (split; cbn; [rewrite app_nil_r; reflexivity|rewrite L3, L4; reflexivity]).
  assert (Vt : vector_of [c1; c2] [t1; t2] (t1 ++ t2)) by (split; cbn; [rewrite app_nil_r; reflexivity|rewrite L1, L2; reflexivity]).
  split; [|intros [-> ->]; apply (C189_truth A model gi index rows sig weights [c1; c2] [t1; t2] (t1 ++ t2) a0); assumption].
  intros C. pose proof (cost_form A model gi index rows sig weights [c1; c2] [y1; y2] (y1 ++ y2) a0 H1 H2 H3 H4 H5 H6 Vy) as D.
  pose proof (cost_fun _ _ _ _ _ _ _ _ _ _ _ D C) as S.
  assert (Lc1 : List.length c1 = List.length gi) by (symmetry; apply R1). assert (Lc2 : List.length c2 = List.length gi) by (symmetry; apply R2).
  assert (E : forall i, (i < List.length gi)%nat -> value_at 0 (c1, y1) i = value_at 0 (c1, t1) i /\ value_at 0 (c2, y2) i = value_at 0 (c2, t2) i).
  { intros i Hi. destruct (HP i Hi) as [Pt Py]. apply (Hd i Hi _ _ _ _ Py Pt). intros o (j & Hj & E1 & E2 & Wj & ->).
    assert (Z : Rsqr (weight weights j * (model (map (fun p => Some (value_at 0 p j)) (combine [c1; c2] [y1; y2])) (nth j rows a0) - nth j sig 0)) = 0).
    { eapply sumR_zero; [|exact S|apply in_map_iff; exists j; split; [reflexivity|apply in_seq; lia]]. intros q Iq. apply in_map_iff in Iq. destruct Iq as (w & <- & _). apply Rle_0_sqr. }
    apply Rsqr_0_uniq in Z. apply Rmult_integral in Z. destruct Z as [Z|Z]; [elim (Wj Z)|]. rewrite (Hg j) in Z by lia. cbn [combine map] in Z.
    assert (V : forall c (t : list R) , nth j c 0%Z = nth i c 0%Z -> value_at 0 (c, t) j = value_at 0 (c, t) i) by (intros c t E; unfold value_at; cbn [fst snd]; rewrite E; reflexivity).
    rewrite !(V c1 _ E1), !(V c2 _ E2) in Z. lra. }
  assert (F : forall c (y t : list R), List.length c = List.length gi -> List.length y = List.length (uniq c) -> List.length t = List.length (uniq c) ->
    (forall i, (i < List.length gi)%nat -> value_at 0 (c, y) i = value_at 0 (c, t) i) -> y = t).
  { clear. intros c y t Lc Ly Lt H. apply (nth_ext _ _ 0 0); [congruence|]. intros k Hk. rewrite Ly in Hk.
    assert (Ig : In (nth k (uniq c) 0%Z) c) by (apply in_uniq, nth_In; exact Hk). destruct (In_nth _ _ 0%Z Ig) as (i & Hi & Ei).
    specialize (H i ltac:(lia)). unfold value_at in H. cbn [fst snd] in H. rewrite Ei, rank_nth_self in H by exact Hk. exact H. }
  split; [apply (F c1)|apply (F c2)]; try assumption; intros i Hi; apply (E i Hi).
Qed.
Print Assumptions C192_unique.

(** two parameters with the same groups: fits of the data of the model have one solution exactly if each group determines both *)
Theorem C192_exact : forall A (model : list (option R) -> A -> R) (P : R -> R -> Prop) gi index rows weights c a0,
  gi <> [] -> List.length index = List.length gi -> List.length rows = List.length gi ->
  (forall w, weights = Some w -> List.length w = List.length gi) -> refines gi c ->
  ((forall sig t1 t2 y1 y2, List.length sig = List.length gi -> (forall l, In l [t1; t2; y1; y2] -> List.length l = List.length (uniq c)) ->
      (forall k, (k < List.length (uniq c))%nat -> P (nth k t1 0) (nth k t2 0) /\ P (nth k y1 0) (nth k y2 0)) ->
      generated A model rows a0 [c; c] [t1; t2] sig -> is_cost A model gi index rows sig weights [c; c] (y1 ++ y2) 0 -> y1 = t1 /\ y2 = t2) <->
   (forall g, In g c -> determine model P (in_group rows a0 weights c g))).
Proof.
  intros A model P gi index rows weights c a0 H1 H2 H3 H5 Rf. assert (Lc : List.length c = List.length gi) by (symmetry; apply Rf). split.
  - intros H g Ig v w v' w' Pv Pv' E.
    set (n := List.length (uniq c)). set (pick := fun a b : R => map (fun h => if Z.eqb h g then b else a) (uniq c)).
    set (sig := map (fun i => model [Some v; Some w] (nth i rows a0)) (seq 0 (List.length gi))).
    assert (Lp : forall a b, List.length (pick a b) = n) by (intros; apply map_length).
    assert (Np : forall a b k, (k < n)%nat -> nth k (pick a b) 0 = if Z.eqb (nth k (uniq c) 0%Z) g then b else a).
    { intros a b k Hk. unfold pick. rewrite (nth_indep _ 0 ((fun h => if Z.eqb h g then b else a) 0%Z)) by (rewrite map_length; exact Hk). apply (map_nth (fun h => if Z.eqb h g then b else a)). }
    assert (Nr : forall a k, (k < n)%nat -> nth k (repeat a n) 0 = a). { intros a k Hk. rewrite (nth_indep _ 0 a) by (rewrite repeat_length; exact Hk). apply nth_repeat. }
    assert (Ls : List.length sig = List.length gi) by (unfold sig; rewrite map_length, seq_length; reflexivity).
    assert (Ns : forall i, (i < List.length gi)%nat -> nth i sig 0 = model [Some v; Some w] (nth i rows a0)).
    { intros i Hi. unfold sig. rewrite (nth_indep _ 0 ((fun i => model [Some v; Some w] (nth i rows a0)) 0%nat)) by (rewrite map_length, seq_length; exact Hi). rewrite (map_nth (fun i => model [Some v; Some w] (nth i rows a0))), seq_nth by exact Hi. reflexivity. }
    assert (Rk : forall i, (i < List.length gi)%nat -> (rank c (nth i c 0%Z) < n)%nat) by (intros i Hi; apply rank_lt, nth_In; lia).
    destruct (H sig (repeat v n) (repeat w n) (pick v v') (pick w w')) as [E1 E2].
    + exact Ls.
    + intros l [<-|[<-|[<-|[<-|[]]]]]; try apply repeat_length; apply Lp.
    + intros k Hk. rewrite !Nr, !Np by exact Hk. split; [exact Pv|]. destruct (Z.eqb _ g); assumption.
    + intros i Hi. rewrite Ls in Hi. rewrite Ns by exact Hi. cbn [combine map]. unfold value_at. cbn [fst snd]. rewrite !Nr by (apply Rk; exact Hi). reflexivity.
    + assert (H6 : forall d, In d [c; c] -> refines gi d) by (intros d [<-|[<-|[]]]; exact Rf).
      assert (Vy : vector_of [c; c] [pick v v'; pick w w'] (pick v v' ++ pick w w')) by (split; cbn; [rewrite app_nil_r; reflexivity|rewrite !Lp; reflexivity]).
      pose proof (cost_form A model gi index rows sig weights [c; c] _ _ a0 H1 H2 H3 Ls H5 H6 Vy) as D.
      match type of D with is_cost _ _ _ _ _ _ _ _ _ ?s => assert (S : s = 0) end; [|rewrite S in D; exact D].
      assert (G : forall f l, (forall i : nat, In i l -> f i = 0) -> sumR (map f l) = 0).
      { clear. induction l as [|i l IH]; intros G; [reflexivity|]. cbn. rewrite (G i) by (left; reflexivity). unfold sumR in IH. rewrite IH; [lra|]. intros j J. apply G. right. exact J. }
      apply G. intros i Ii. apply in_seq in Ii. assert (Hi : (i < List.length gi)%nat) by lia. rewrite Ns by exact Hi. cbn [combine map]. unfold value_at. cbn [fst snd].
      rewrite !Np by (apply Rk; exact Hi). assert (Nk : nth (rank c (nth i c 0%Z)) (uniq c) 0%Z = nth i c 0%Z).
      { unfold rank. apply number_nth. apply in_uniq. apply nth_In. lia. }
      rewrite Nk. destruct (Z.eqb_spec (nth i c 0%Z) g) as [Eg|Ng].
      * destruct (Req_dec (weight weights i) 0) as [W|W]; [rewrite W; unfold Rsqr; ring|]. rewrite <- (E (nth i rows a0)); [unfold Rsqr; ring|]. exists i. split; [lia|]. split; [exact Eg|]. split; [exact W|reflexivity].
      * unfold Rsqr; ring.
    + assert (K : (rank c g < n)%nat) by (apply rank_lt; exact Ig). assert (Nk : nth (rank c g) (uniq c) 0%Z = g) by (unfold rank; apply number_nth, in_uniq; exact Ig).
      apply (f_equal (fun l => nth (rank c g) l 0)) in E1. apply (f_equal (fun l => nth (rank c g) l 0)) in E2. rewrite Np, Nr, Nk, Z.eqb_refl in E1, E2 by exact K. split; congruence.
  - intros H sig t1 t2 y1 y2 Ls Ll HP Hg C.
    apply (C192_unique A model P gi index rows sig weights c c t1 t2 y1 y2 a0); try assumption; try (apply Ll; cbn; auto; fail).
    + intros i Hi. unfold value_at. cbn [fst snd]. apply HP. apply rank_lt, nth_In. lia.
    + intros i Hi v w v' w' Pv Pv' E. apply (H (nth i c 0%Z)); [apply nth_In; lia|exact Pv|exact Pv'|]. intros o (j & Hj & E1 & Wj & ->). apply E. exists j. repeat split; try assumption.
Qed.
Print Assumptions C192_exact.

(** what the parameters determine does not depend on the units *)
Theorem C192_units : forall dB sig0 k1 k2 (P : R -> R -> Prop) (obs : RT -> Prop), (forall o, obs o -> 0 < cos (t_0 o)) ->
  (dB = true -> forall o v w, obs o -> P v w -> 0 < RT_Spec.total (with_key (with_key o k1 v) k2 w)) ->
  (determine (model2 dB sig0 k1 k2) P obs <-> determine (model2 false false k1 k2) P obs).
Proof.
  intros dB sig0 k1 k2 P obs Hc Hp. split; intros H v w v' w' Pv Pv' E; apply (H v w v' w' Pv Pv'); intros o Ho; specialize (E o Ho); cbn [model2] in *.
  - cbn [in_units] in E. unfold in_units in E. cbv zeta in E. rewrite E. reflexivity.
  - apply units_inj in E; [|apply Hc; exact Ho|]. { unfold in_units. cbv zeta. exact E. } intros Hd. split; apply Hp; assumption.
Qed.
Print Assumptions C192_units.

(** ** one row *)
Lemma surface_form o : surface o = (bsf o + (1 - bsf o) * att o) * bare_surface o.
Proof. unfold surface, bare_surface, att. change (mu_0 o) with (cos (t_0 o)). change (mu_ex o) with (cos (t_ex o)). unfold Rdiv. ring. Qed.
Lemma volume_form o : volume o = (1 - bsf o) * (1 - att o) * half_space o.
Proof. unfold volume, half_space, att. change (mu_0 o) with (cos (t_0 o)). change (mu_ex o) with (cos (t_ex o)). unfold Rdiv. ring. Qed.
(** the contributions for NormBRDF = 1 and omega = 1, without the canopy *)
Definition soil (o : RT) : R := I0 o * cos (t_0 o) * brdf_val o.
Definition leaf (o : RT) : R := I0 o * cos (t_0 o) / (cos (t_0 o) + cos (t_ex o)) * p_val o.
Definition E (o : RT) (v : R) : R := exp (- (v * slant o)).
Lemma att_E o : att o = E o (tau (V o)).
Proof. unfold att, E, slant. f_equal. unfold Rdiv. ring. Qed.
Lemma form_on o v w : RT_Spec.total (with_key (with_key o "omega" v) "NormBRDF" w) = v * volume (set_omega o 1) + w * surface (set_NormBRDF o 1).
Proof.
  rewrite total_form, surface_form, volume_form.
  change ((bsf o + (1 - bsf o) * att o) * (w * (I0 o * cos (t_0 o) * brdf_val o)) + (1 - bsf o) * (1 - att o) * (I0 o * v * cos (t_0 o) / (cos (t_0 o) + cos (t_ex o)) * p_val o) =
    v * ((1 - bsf o) * (1 - att o) * (I0 o * 1 * cos (t_0 o) / (cos (t_0 o) + cos (t_ex o)) * p_val o)) + w * ((bsf o + (1 - bsf o) * att o) * (1 * (I0 o * cos (t_0 o) * brdf_val o)))). unfold Rdiv. ring.
Qed.
Lemma form_tn o v w : RT_Spec.total (with_key (with_key o "tau" v) "NormBRDF" w) = (bsf o + (1 - bsf o) * E o v) * (w * soil o) + (1 - bsf o) * (1 - E o v) * half_space o.
Proof.
  rewrite total_form, att_E. reflexivity.
Qed.
Lemma form_to o v w : RT_Spec.total (with_key (with_key o "tau" v) "omega" w) = (bsf o + (1 - bsf o) * E o v) * bare_surface o + (1 - bsf o) * (1 - E o v) * (w * leaf o).
Proof.
  rewrite total_form, att_E.
  change ((bsf o + (1 - bsf o) * E o v) * bare_surface o + (1 - bsf o) * (1 - E o v) * (I0 o * w * cos (t_0 o) / (cos (t_0 o) + cos (t_ex o)) * p_val o) = (bsf o + (1 - bsf o) * E o v) * bare_surface o + (1 - bsf o) * (1 - E o v) * (w * leaf o)).
  unfold leaf, Rdiv. ring.
Qed.
Lemma form_tb o v w : RT_Spec.total (with_key (with_key o "tau" v) "bsf" w) = bare_surface o - (1 - w) * (1 - E o v) * (bare_surface o - half_space o).
Proof.
  rewrite total_form, att_E.
  change ((w + (1 - w) * E o v) * bare_surface o + (1 - w) * (1 - E o v) * half_space o = bare_surface o - (1 - w) * (1 - E o v) * (bare_surface o - half_space o)). ring.
Qed.

(** ** optical depth: the curves of two path lengths *)
Lemma chord a b : 0 < a < b -> b * (exp a - 1) < a * (exp b - 1).
Proof.
  intros [Ha Hb]. destruct (MVT_cor2 (fun x => a * (exp x - 1) - x * (exp a - 1)) (fun x => a * exp x - (exp a - 1)) a b Hb) as (c & Ec & Hc).
  { intros x _. apply is_derive_Reals. auto_derive; [exact I|ring]. }
  assert (exp a < exp c) by (apply exp_increasing; lra). assert (K : exp a - 1 < a * exp a).
  { assert (X : 1 + - a < exp (- a)) by (apply exp_ineq1; lra). rewrite exp_Ropp in X. pose proof (exp_pos a) as Pa. apply (Rmult_lt_compat_r (exp a)) in X; [|exact Pa]. rewrite Rinv_l in X by lra. lra. }
  assert (0 < a * exp c - (exp a - 1)) by nra. assert (0 < (a * exp c - (exp a - 1)) * (b - a)) by (apply Rmult_lt_0_compat; lra). lra.
Qed.
Lemma one_minus k t : 0 < k * t -> 0 < 1 - exp (- (k * t)) < 1.
Proof. intros H. assert (exp (- (k * t)) < exp 0) by (apply exp_increasing; lra). rewrite exp_0 in H0. pose proof (exp_pos (- (k * t))). lra. Qed.
Lemma ratio_lt k1 k2 s t : 0 < k1 < k2 -> 0 < s < t -> (1 - exp (- (k1 * s))) * (1 - exp (- (k2 * t))) < (1 - exp (- (k2 * s))) * (1 - exp (- (k1 * t))).
Proof.
  intros Hk Ht.
  set (h := fun k => ln (1 - exp (- (k * s))) - ln (1 - exp (- (k * t)))).
  destruct (MVT_cor2 h (fun k => s * exp (- (k * s)) / (1 - exp (- (k * s))) - t * exp (- (k * t)) / (1 - exp (- (k * t)))) k1 k2 (proj2 Hk)) as (c & Ec & Hc).
  { intros k Hkk. assert (0 < k * s) by (apply Rmult_lt_0_compat; lra). assert (0 < k * t) by (apply Rmult_lt_0_compat; lra).
    pose proof (one_minus k s H). pose proof (one_minus k t H0). apply is_derive_Reals. unfold h. auto_derive; [repeat split; lra|]. field. lra. }
  assert (Ps : 0 < c * s) by (apply Rmult_lt_0_compat; lra). assert (Pt : 0 < c * t) by (apply Rmult_lt_0_compat; lra).
  assert (Q : 0 < s * exp (- (c * s)) / (1 - exp (- (c * s))) - t * exp (- (c * t)) / (1 - exp (- (c * t)))).
  { pose proof (chord (c * s) (c * t) ltac:(split; [exact Ps|apply Rmult_lt_compat_l; lra])) as Ch. rewrite !exp_Ropp.
    assert (E1 : 1 < exp (c * s)) by (rewrite <- exp_0; apply exp_increasing; exact Ps). assert (E2 : 1 < exp (c * t)) by (rewrite <- exp_0; apply exp_increasing; exact Pt).
    set (x := exp (c * s)) in *. set (y := exp (c * t)) in *. clearbody x y.
    replace (s * / x / (1 - / x) - t * / y / (1 - / y)) with ((s * (y - 1) - t * (x - 1)) / ((x - 1) * (y - 1))) by (field; lra).
    apply Rdiv_lt_0_compat; [|apply Rmult_lt_0_compat; lra]. assert (c * (t * (x - 1)) < c * (s * (y - 1))) by lra. apply Rmult_lt_reg_l in H; lra. }
  assert (L : h k1 < h k2) by (assert (0 < (s * exp (- (c * s)) / (1 - exp (- (c * s))) - t * exp (- (c * t)) / (1 - exp (- (c * t)))) * (k2 - k1)) by (apply Rmult_lt_0_compat; lra); lra).
  assert (P : forall k u, 0 < k -> 0 < u -> 0 < 1 - exp (- (k * u))) by (intros; apply one_minus, Rmult_lt_0_compat; assumption).
  unfold h in L. assert (L2 : ln ((1 - exp (- (k1 * s))) * (1 - exp (- (k2 * t)))) < ln ((1 - exp (- (k2 * s))) * (1 - exp (- (k1 * t))))) by (rewrite !ln_mult by (apply P; lra); lra).
  apply ln_lt_inv in L2; [exact L2| |]; apply Rmult_lt_0_compat; apply P; lra.
Qed.
(** values proportional to 1 - exp(-k tau) for two different k *)
Lemma curves c c' k1 k2 s t : c <> 0 -> 0 < k1 -> 0 < k2 -> k1 <> k2 -> 0 < s -> 0 < t ->
  c * (1 - exp (- (k1 * s))) = c' * (1 - exp (- (k1 * t))) -> c * (1 - exp (- (k2 * s))) = c' * (1 - exp (- (k2 * t))) -> s = t /\ c = c'.
Proof.
  intros Hc P1 P2 N Hs Ht E1 E2.
  assert (X : (1 - exp (- (k1 * s))) * (1 - exp (- (k2 * t))) = (1 - exp (- (k2 * s))) * (1 - exp (- (k1 * t)))).
  { apply (Rmult_eq_reg_l c); [|exact Hc]. rewrite <- !Rmult_assoc, E1, E2. ring. }
  assert (S : s = t).
  { destruct (Rtotal_order s t) as [L|[L|L]]; [|exact L|]; exfalso; destruct (Rtotal_order k1 k2) as [M|[M|M]]; try (elim (N M)).
    - pose proof (ratio_lt k1 k2 s t ltac:(lra) ltac:(lra)). lra.
    - pose proof (ratio_lt k2 k1 s t ltac:(lra) ltac:(lra)). lra.
    - pose proof (ratio_lt k1 k2 t s ltac:(lra) ltac:(lra)). lra.
    - pose proof (ratio_lt k2 k1 t s ltac:(lra) ltac:(lra)). lra. }
  split; [exact S|]. subst t. pose proof (one_minus k1 s ltac:(apply Rmult_lt_0_compat; lra)). apply Rmult_eq_reg_r in E1; [exact E1|lra].
Qed.
Lemma slant_pos o : above o -> 0 < slant o.
Proof. intros [H0 H1]. unfold slant. apply Rinv_0_lt_compat in H0, H1. lra. Qed.

(** ** pairs of parameters *)
(** omega and NormBRDF are determined exactly if two observations differ in the ratio of volume and surface contribution *)
Theorem C192_omega_NormBRDF : forall obs : RT -> Prop,
  determine (model2 false false "omega" "NormBRDF") (fun _ _ => True) obs <->
  exists o1 o2, obs o1 /\ obs o2 /\ volume (set_omega o1 1) * surface (set_NormBRDF o2 1) <> volume (set_omega o2 1) * surface (set_NormBRDF o1 1).
Proof.
  intros obs. split.
  - intros H. apply NNPP. intros N.
    assert (Z : forall o1 o2, obs o1 -> obs o2 -> volume (set_omega o1 1) * surface (set_NormBRDF o2 1) = volume (set_omega o2 1) * surface (set_NormBRDF o1 1)).
    { intros o1 o2 H1 H2. apply NNPP. intros D. apply N. exists o1, o2. auto. }
    destruct (classic (exists o, obs o /\ (volume (set_omega o 1) <> 0 \/ surface (set_NormBRDF o 1) <> 0))) as [(o & Ho & Hn)|No].
    + destruct (H (surface (set_NormBRDF o 1)) (- volume (set_omega o 1)) 0 0 I I) as [A B]; [|destruct Hn as [Hn|Hn]; lra].
      intros o' Ho'. unfold model2, in_units. cbv zeta. rewrite !form_on. specialize (Z o o' Ho Ho'). lra.
    + destruct (H 1 1 0 0 I I) as [A _]; [|lra]. intros o' Ho'. unfold model2, in_units. cbv zeta. rewrite !form_on.
      assert (volume (set_omega o' 1) = 0) by (apply NNPP; intros D; apply No; exists o'; auto). assert (surface (set_NormBRDF o' 1) = 0) by (apply NNPP; intros D; apply No; exists o'; auto). rewrite H0, H1. ring.
  - intros (o1 & o2 & H1 & H2 & N) v w v' w' _ _ Eq. pose proof (Eq o1 H1) as E1. pose proof (Eq o2 H2) as E2. unfold model2, in_units in E1, E2. cbv zeta in E1, E2. rewrite !form_on in E1, E2.
    set (a1 := volume (set_omega o1 1)) in *. set (a2 := volume (set_omega o2 1)) in *. set (b1 := surface (set_NormBRDF o1 1)) in *. set (b2 := surface (set_NormBRDF o2 1)) in *. clearbody a1 a2 b1 b2.
    assert (D : a1 * b2 - a2 * b1 <> 0) by lra. split; apply (Rmult_eq_reg_l (a1 * b2 - a2 * b1)); try exact D.
    + transitivity (b2 * (v * a1 + w * b1) - b1 * (v * a2 + w * b2)); [ring|]. rewrite E1, E2. ring.
    + transitivity (a1 * (v * a2 + w * b2) - a2 * (v * a1 + w * b1)); [ring|]. rewrite E1, E2. ring.
Qed.
Print Assumptions C192_omega_NormBRDF.

(** ... two incidence angles suffice for a scene that scatters alike in both *)
Theorem C192_two_angles : forall (obs : RT -> Prop) o1 o2, obs o1 -> obs o2 -> above o1 -> above o2 -> t_ex o1 = t_0 o1 -> t_ex o2 = t_0 o2 ->
  cos (t_0 o1) <> cos (t_0 o2) -> I0 o1 = I0 o2 -> bsf o1 = bsf o2 -> tau (V o1) = tau (V o2) -> brdf_val o1 = brdf_val o2 -> p_val o1 = p_val o2 ->
  0 < I0 o1 * p_val o1 -> 0 < I0 o1 * brdf_val o1 -> 0 < tau (V o1) -> 0 <= bsf o1 < 1 ->
  determine (model2 false false "omega" "NormBRDF") (fun _ _ => True) obs.
Proof.
  assert (W : forall (obs : RT -> Prop) o1 o2, obs o1 -> obs o2 -> above o1 -> above o2 -> t_ex o1 = t_0 o1 -> t_ex o2 = t_0 o2 ->
    cos (t_0 o1) < cos (t_0 o2) -> I0 o1 = I0 o2 -> bsf o1 = bsf o2 -> tau (V o1) = tau (V o2) -> brdf_val o1 = brdf_val o2 -> p_val o1 = p_val o2 ->
    0 < I0 o1 * p_val o1 -> 0 < I0 o1 * brdf_val o1 -> 0 < tau (V o1) -> 0 <= bsf o1 < 1 -> determine (model2 false false "omega" "NormBRDF") (fun _ _ => True) obs).
  { intros obs o1 o2 H1 H2 A1 A2 M1 M2 Lc EI Eb Et Er Ep Pp Pr Pt Pb. apply C192_omega_NormBRDF. exists o1, o2. split; [exact H1|]. split; [exact H2|].
    rewrite !surface_form, !volume_form. change (att (set_omega o1 1)) with (att o1). change (att (set_omega o2 1)) with (att o2). change (att (set_NormBRDF o1 1)) with (att o1). change (att (set_NormBRDF o2 1)) with (att o2).
    change (bsf (set_omega o1 1)) with (bsf o1). change (bsf (set_omega o2 1)) with (bsf o2). change (bsf (set_NormBRDF o1 1)) with (bsf o1). change (bsf (set_NormBRDF o2 1)) with (bsf o2).
    change (half_space (set_omega o1 1)) with (I0 o1 * 1 * cos (t_0 o1) / (cos (t_0 o1) + cos (t_ex o1)) * p_val o1). change (half_space (set_omega o2 1)) with (I0 o2 * 1 * cos (t_0 o2) / (cos (t_0 o2) + cos (t_ex o2)) * p_val o2).
    change (bare_surface (set_NormBRDF o1 1)) with (1 * (I0 o1 * cos (t_0 o1) * brdf_val o1)). change (bare_surface (set_NormBRDF o2 1)) with (1 * (I0 o2 * cos (t_0 o2) * brdf_val o2)).
    rewrite !att_E, M1, M2, <- EI, <- Eb, <- Et, <- Er, <- Ep. unfold E, slant. rewrite M1, M2. destruct A1 as [A1 _], A2 as [A2 _].
    set (x := cos (t_0 o1)) in *. set (y := cos (t_0 o2)) in *. set (t := tau (V o1)) in *. set (b := bsf o1) in *. set (p := p_val o1) in *. set (r := brdf_val o1) in *. set (i := I0 o1) in *. clearbody x y t b p r i.
    assert (L1 : exp (- (t * (/ x + / x))) < exp (- (t * (/ y + / y)))). { apply exp_increasing. assert (/ y < / x) by (apply Rinv_lt_contravar; [apply Rmult_lt_0_compat; lra|lra]). assert (t * / y < t * / x) by (apply Rmult_lt_compat_l; lra). lra. }
    assert (P1 := exp_pos (- (t * (/ x + / x)))). assert (L2 : exp (- (t * (/ y + / y))) < 1). { rewrite <- exp_0. apply exp_increasing. assert (0 < / y) by (apply Rinv_0_lt_compat; lra). assert (0 < t * / y) by (apply Rmult_lt_0_compat; lra). lra. }
    set (u := exp (- (t * (/ x + / x)))) in *. set (z := exp (- (t * (/ y + / y)))) in *. clearbody u z.
    intros Q. replace (i * 1 * x / (x + x) * p) with (i * p / 2) in Q by (field; lra). replace (i * 1 * y / (y + y) * p) with (i * p / 2) in Q by (field; lra).
    set (ip := i * p) in *. assert (Ey : i * y * r = (i * r) * y) by ring. assert (Ex : i * x * r = (i * r) * x) by ring. rewrite Ey, Ex in Q. set (ir := i * r) in *. clearbody ip ir.
    assert (R1 : (1 - b) * (1 - z) * ((b + (1 - b) * u) * x) < (1 - b) * (1 - u) * ((b + (1 - b) * z) * y)).
    { assert ((1 - b) * (1 - z) < (1 - b) * (1 - u)) by (apply Rmult_lt_compat_l; lra). assert (0 < (1 - b) * (1 - z)) by (apply Rmult_lt_0_compat; lra).
      assert (B1 : (1 - b) * u < (1 - b) * z) by (apply Rmult_lt_compat_l; lra). assert (0 < (1 - b) * u) by (apply Rmult_lt_0_compat; lra).
      assert ((b + (1 - b) * u) * x < (b + (1 - b) * z) * y) by (apply Rmult_le_0_lt_compat; lra).
      apply Rmult_le_0_lt_compat; try lra. apply Rmult_le_pos; lra. }
    assert (R2 : ip / 2 * ir * ((1 - b) * (1 - z) * ((b + (1 - b) * u) * x)) < ip / 2 * ir * ((1 - b) * (1 - u) * ((b + (1 - b) * z) * y))) by (apply Rmult_lt_compat_l; [apply Rmult_lt_0_compat; lra|exact R1]).
    lra. }
  intros obs o1 o2 H1 H2 A1 A2 M1 M2 Nc EI Eb Et Er Ep Pp Pr Pt Pb. destruct (Rtotal_order (cos (t_0 o1)) (cos (t_0 o2))) as [L|[L|L]]; [|elim (Nc L)|].
  - apply (W obs o1 o2); assumption.
  - apply (W obs o2 o1); try assumption; try (symmetry; assumption); try (rewrite <- ?EI, <- ?Ep, <- ?Er, <- ?Et, <- ?Eb; assumption).
Qed.
Print Assumptions C192_two_angles.

(** no volume contribution and no bare soil: optical depth and NormBRDF are determined exactly by two path lengths *)
Theorem C192_tau_NormBRDF : forall obs : RT -> Prop, (exists o, obs o) -> (forall o, obs o -> above o /\ half_space o = 0 /\ bsf o = 0 /\ I0 o * brdf_val o <> 0) ->
  (determine (model2 false false "tau" "NormBRDF") (fun t n => 0 < t /\ n <> 0) obs <-> exists o1 o2, obs o1 /\ obs o2 /\ slant o1 <> slant o2).
Proof.
  intros obs (o & Ho) Hs. assert (F : forall o' v w, obs o' -> model2 false false "tau" "NormBRDF" [Some v; Some w] o' = E o' v * w * soil o').
  { intros o' v w Ho'. destruct (Hs o' Ho') as (A & Hh & Hb & Hn). unfold model2, in_units. cbv zeta. rewrite form_tn, Hh, Hb. ring. }
  assert (Ns : forall o', obs o' -> soil o' <> 0). { intros o' Ho'. destruct (Hs o' Ho') as ((A & _) & _ & _ & Hn). unfold soil. intros Z. apply Hn. apply (Rmult_eq_reg_l (cos (t_0 o'))); [|lra]. lra. }
  split.
  - intros H. apply NNPP. intros N. assert (Z : forall o', obs o' -> slant o' = slant o) by (intros o' Ho'; apply NNPP; intros D; apply N; exists o', o; auto).
    destruct (H 1 1 2 (exp (slant o))) as [A _]; [lra|split; [lra|pose proof (exp_pos (slant o)); lra]| |lra]. intros o' Ho'. rewrite !F by exact Ho'. unfold E. rewrite Z by exact Ho'. f_equal. rewrite <- exp_plus, Rmult_1_r. f_equal. ring.
  - intros (o1 & o2 & H1 & H2 & N) v w v' w' [Pv Nw] [Pv' Nw'] Eq. pose proof (Eq o1 H1) as E1. pose proof (Eq o2 H2) as E2. rewrite !F in E1, E2 by assumption.
    apply Rmult_eq_reg_r in E1; [|apply Ns; exact H1]. apply Rmult_eq_reg_r in E2; [|apply Ns; exact H2]. unfold E in *.
    assert (X : exp (- (v * slant o1)) * exp (- (v' * slant o2)) = exp (- (v * slant o2)) * exp (- (v' * slant o1))).
    { apply (Rmult_eq_reg_r (w * w')); [|intros Z; apply Rmult_integral in Z; tauto].
      transitivity (exp (- (v * slant o1)) * w * (exp (- (v' * slant o2)) * w')); [ring|]. rewrite E1, <- E2. ring. }
    rewrite <- !exp_plus in X. apply exp_inv in X. assert (D : (v - v') * (slant o1 - slant o2) = 0) by lra. apply Rmult_integral in D. destruct D as [D|D]; [|elim N; lra].
    assert (v = v') by lra. subst v'. split; [reflexivity|]. pose proof (exp_pos (- (v * slant o1))). apply Rmult_eq_reg_l in E1; lra.
Qed.
Print Assumptions C192_tau_NormBRDF.

Lemma two_paths (model : list (option R) -> RT -> R) (A K : RT -> R) (c : R -> R) (obs : RT -> Prop) :
  (exists o, obs o) -> (forall o, obs o -> above o /\ K o <> 0) -> (forall o v w, obs o -> model [Some v; Some w] o = A o + c w * (1 - E o v) * K o) ->
  (forall w w', c w = c w' -> w = w') -> (forall x, exists w, c w = x) ->
  (determine model (fun t w => 0 < t /\ c w <> 0) obs <-> exists o1 o2, obs o1 /\ obs o2 /\ slant o1 <> slant o2).
Proof.
  intros (o & Ho) Hs F Hi Hj. split.
  - intros H. apply NNPP. intros N. assert (Z : forall o', obs o' -> slant o' = slant o) by (intros o' Ho'; apply NNPP; intros D; apply N; exists o', o; auto).
    pose proof (slant_pos o (proj1 (Hs o Ho))) as Ps. pose proof (one_minus (slant o) 1 ltac:(lra)) as G1. pose proof (one_minus (slant o) 2 ltac:(lra)) as G2.
    destruct (Hj 1) as [w1 W1]. destruct (Hj ((1 - exp (- (slant o * 1))) / (1 - exp (- (slant o * 2))))) as [w2 W2].
    destruct (H 1 w1 2 w2) as [X _]; [rewrite W1; lra| |  |lra].
    { split; [lra|]. rewrite W2. apply Rgt_not_eq, Rdiv_lt_0_compat; lra. }
    intros o' Ho'. rewrite !F by exact Ho'. f_equal. f_equal. unfold E. rewrite Z by exact Ho'. rewrite W1, W2, (Rmult_comm 1 (slant o)), (Rmult_comm 2 (slant o)). field. lra.
  - intros (o1 & o2 & H1 & H2 & N) v w v' w' [Pv Nw] [Pv' Nw'] Eq. destruct (Hs o1 H1) as [A1 K1], (Hs o2 H2) as [A2 K2].
    pose proof (Eq o1 H1) as E1. pose proof (Eq o2 H2) as E2. rewrite !F in E1, E2 by assumption. apply Rplus_eq_reg_l in E1, E2. apply Rmult_eq_reg_r in E1, E2; try assumption. unfold E in *.
    rewrite (Rmult_comm v), (Rmult_comm v') in E1, E2.
    destruct (curves (c w) (c w') (slant o1) (slant o2) v v' Nw (slant_pos _ A1) (slant_pos _ A2) N Pv Pv' E1 E2) as [X Y]. split; [exact X|apply Hi; exact Y].
Qed.
(** no contribution of the surface: optical depth and omega *)
Theorem C192_tau_omega : forall obs : RT -> Prop, (exists o, obs o) -> (forall o, obs o -> above o /\ bare_surface o = 0 /\ bsf o <> 1 /\ I0 o * p_val o <> 0) ->
  (determine (model2 false false "tau" "omega") (fun t w => 0 < t /\ w <> 0) obs <-> exists o1 o2, obs o1 /\ obs o2 /\ slant o1 <> slant o2).
Proof.
  intros obs He Hs. apply (two_paths _ (fun _ => 0) (fun o => (1 - bsf o) * leaf o) (fun w => w) obs He); [| |auto|intros x; exists x; reflexivity].
  - intros o Ho. destruct (Hs o Ho) as (A & _ & Hb & Hn). split; [exact A|]. destruct A as [A0 A1]. intros Z. apply Rmult_integral in Z. destruct Z as [Z|Z]; [apply Hb; lra|].
    apply Hn. unfold leaf in Z. assert (D : cos (t_0 o) / (cos (t_0 o) + cos (t_ex o)) <> 0) by (apply Rgt_not_eq, Rdiv_lt_0_compat; lra).
    apply (Rmult_eq_reg_l (cos (t_0 o) / (cos (t_0 o) + cos (t_ex o)))); [|exact D]. rewrite Rmult_0_r, <- Z. unfold Rdiv. ring.
  - intros o v w Ho. destruct (Hs o Ho) as (_ & Hr & _). unfold model2, in_units. cbv zeta. rewrite form_to, Hr. ring.
Qed.
Print Assumptions C192_tau_omega.
(** optical depth and bare-soil fraction of a known soil and canopy *)
Theorem C192_tau_bsf : forall obs : RT -> Prop, (exists o, obs o) -> (forall o, obs o -> above o /\ bare_surface o <> half_space o) ->
  (determine (model2 false false "tau" "bsf") (fun t b => 0 < t /\ 1 - b <> 0) obs <-> exists o1 o2, obs o1 /\ obs o2 /\ slant o1 <> slant o2).
Proof.
  intros obs He Hs. apply (two_paths _ bare_surface (fun o => half_space o - bare_surface o) (fun w => 1 - w) obs He).
  - intros o Ho. destruct (Hs o Ho) as (A & Hb). split; [exact A|lra].
  - intros o v w Ho. unfold model2, in_units. cbv zeta. rewrite form_tb. ring.
  - intros w w' X. lra.
  - intros x. exists (1 - x). ring.
Qed.
Print Assumptions C192_tau_bsf.

(** ** bare soil between the vegetation *)
Definition gap (b k t : R) : R := b + (1 - b) * exp (- (t * k)).
Lemma gap_pos b k t : 0 <= b < 1 -> 0 < gap b k t.
Proof. intros H. unfold gap. pose proof (exp_pos (- (t * k))). assert (0 < (1 - b) * exp (- (t * k))) by (apply Rmult_lt_0_compat; lra). lra. Qed.
Lemma gap_cont b k t : continuity_pt (gap b k) t.
Proof.
  unfold gap. apply (derivable_continuous_pt (fun t => b + (1 - b) * exp (- (t * k)))). exists (- k * (1 - b) * exp (- (t * k))). apply is_derive_Reals. auto_derive; [exact I|ring].
Qed.
Lemma small_exp k e : 0 < k -> 0 < e -> exists T, 1 < T /\ forall T', T <= T' -> exp (- (T' * k)) < e.
Proof.
  intros Hk He. exists (2 + Rabs (ln e) / k). assert (0 <= Rabs (ln e) / k) by (apply Rmult_le_pos; [apply Rabs_pos|apply Rlt_le, Rinv_0_lt_compat; exact Hk]). split; [lra|].
  intros T' HT. rewrite <- (exp_ln e He). apply exp_increasing. assert ((2 + Rabs (ln e) / k) * k <= T' * k) by (apply Rmult_le_compat_r; lra).
  assert ((2 + Rabs (ln e) / k) * k = 2 * k + Rabs (ln e)) by (field; lra). pose proof (Rle_abs (- ln e)). rewrite Rabs_Ropp in H2. lra.
Qed.
Lemma same_ratio b k1 k2 : 0 < b < 1 -> 0 < k1 -> 0 < k2 -> k1 <> k2 -> exists s t, 0 < s /\ s < t /\ gap b k1 s / gap b k2 s = gap b k1 t / gap b k2 t.
Proof.
  intros Hb H1 H2 N. set (f := fun t => gap b k1 t / gap b k2 t).
  assert (P : forall k t, 0 < gap b k t) by (intros; apply gap_pos; lra).
  assert (C : forall t, continuity_pt f t). { intros t. unfold f. apply (continuity_pt_div (gap b k1) (gap b k2)); try apply gap_cont. apply Rgt_not_eq, P. }
  assert (F0 : f 0 = 1). { unfold f, gap. rewrite !Rmult_0_l, Ropp_0, exp_0. field. lra. }
  assert (F1 : f 1 <> 1). { unfold f. intros Z. apply N. assert (X : gap b k1 1 = gap b k2 1) by (apply (Rmult_eq_reg_r (/ gap b k2 1)); [rewrite Rinv_r; [exact Z|apply Rgt_not_eq, P]|apply Rgt_not_eq, Rinv_0_lt_compat, P]).
    unfold gap in X. apply Rplus_eq_reg_l, Rmult_eq_reg_l in X; [|lra]. apply exp_inv in X. lra. }
  set (m := (1 + f 1) / 2). set (e := Rabs (f 1 - 1) / 2 * b). assert (Pa : 0 < Rabs (f 1 - 1)) by (apply Rabs_pos_lt; lra). assert (Pe : 0 < e) by (unfold e; apply Rmult_lt_0_compat; lra).
  destruct (small_exp k1 e H1 Pe) as (T1 & G1 & S1). destruct (small_exp k2 e H2 Pe) as (T2 & G2 & S2). set (T := Rmax T1 T2).
  assert (HT : 1 < T) by (unfold T; pose proof (Rmax_l T1 T2); lra). specialize (S1 T (Rmax_l _ _)). specialize (S2 T (Rmax_r _ _)).
  assert (FT : Rabs (f T - 1) < Rabs (f 1 - 1) / 2).
  { unfold f at 1. replace (gap b k1 T / gap b k2 T - 1) with ((1 - b) * (exp (- (T * k1)) - exp (- (T * k2))) / gap b k2 T) by (unfold gap; field; apply Rgt_not_eq, (P k2 T)).
    unfold Rdiv at 1. rewrite !Rabs_mult, (Rabs_right (1 - b)), (Rabs_right (/ gap b k2 T)) by (try lra; apply Rgt_ge, Rinv_0_lt_compat, P).
    pose proof (exp_pos (- (T * k1))). pose proof (exp_pos (- (T * k2))). assert (D : Rabs (exp (- (T * k1)) - exp (- (T * k2))) < e) by (apply Rabs_def1; lra).
    assert (L : / gap b k2 T < / b) by (apply Rinv_lt_contravar; [apply Rmult_lt_0_compat; [lra|apply P]|unfold gap; assert (0 < (1 - b) * exp (- (T * k2))) by (apply Rmult_lt_0_compat; lra); lra]).
    assert (X : (1 - b) * Rabs (exp (- (T * k1)) - exp (- (T * k2))) < e) by (pose proof (Rabs_pos (exp (- (T * k1)) - exp (- (T * k2)))); nra).
    apply Rlt_trans with (e * / gap b k2 T); [apply Rmult_lt_compat_r; [apply Rinv_0_lt_compat, P|exact X]|].
    apply Rlt_le_trans with (e * / b); [apply Rmult_lt_compat_l; assumption|]. unfold e. right. field. lra. }
  destruct (crossing f m 0 1 Rlt_0_1) as (s & Hs & Es); [intros; apply C| |].
  { rewrite F0. unfold m. assert (0 < (f 1 - 1) * (f 1 - 1)) by (apply Rsqr_pos_lt; lra). lra. }
  destruct (crossing f m 1 T HT) as (t & Ht & Et); [intros; apply C| |].
  { unfold m. unfold Rabs in FT. destruct (Rcase_abs (f T - 1)), (Rcase_abs (f 1 - 1)); nra. }
  exists s, t. assert (Sm : m <> f 0) by (rewrite F0; unfold m; lra). assert (Sn : m <> f 1) by (unfold m; lra).
  assert (s <> 0) by (intros ->; apply Sm; auto). assert (s <> 1) by (intros ->; apply Sn; auto). split; [lra|]. split; [lra|]. fold (f s). fold (f t). congruence.
Qed.
(** with bare soil two path lengths do not suffice: two different canopies over different soils look the same in both *)
Theorem C192_bsf_refuted : forall o1 o2, above o1 -> above o2 -> half_space o1 = 0 -> half_space o2 = 0 -> bsf o2 = bsf o1 -> 0 < bsf o1 < 1 -> slant o1 <> slant o2 ->
  ~ determine (model2 false false "tau" "NormBRDF") (fun t n => 0 < t /\ 0 < n) (fun o => o = o1 \/ o = o2).
Proof.
  intros o1 o2 A1 A2 Z1 Z2 Eb Hb N H. destruct (same_ratio (bsf o1) (slant o1) (slant o2) Hb (slant_pos _ A1) (slant_pos _ A2) N) as (s & t & Hs & Ht & Er).
  assert (P : forall k t, 0 < gap (bsf o1) k t) by (intros; apply gap_pos; lra).
  destruct (H s 1 t (gap (bsf o1) (slant o1) s / gap (bsf o1) (slant o1) t)) as [X _]; [lra|split; [lra|apply Rdiv_lt_0_compat; apply P]| |lra].
  intros o [-> | ->]; unfold model2, in_units; cbv zeta; rewrite !form_tn, ?Z1, ?Z2, ?Eb.
  - change (gap (bsf o1) (slant o1) s * (1 * soil o1) + (1 - bsf o1) * (1 - E o1 s) * 0 = gap (bsf o1) (slant o1) t * (gap (bsf o1) (slant o1) s / gap (bsf o1) (slant o1) t * soil o1) + (1 - bsf o1) * (1 - E o1 t) * 0). field. apply Rgt_not_eq, P.
  - change (gap (bsf o1) (slant o2) s * (1 * soil o2) + (1 - bsf o1) * (1 - E o2 s) * 0 = gap (bsf o1) (slant o2) t * (gap (bsf o1) (slant o1) s / gap (bsf o1) (slant o1) t * soil o2) + (1 - bsf o1) * (1 - E o2 t) * 0).
    assert (X : gap (bsf o1) (slant o1) s = gap (bsf o1) (slant o2) s * (gap (bsf o1) (slant o1) t / gap (bsf o1) (slant o2) t)) by (rewrite <- Er; field; apply Rgt_not_eq, P).
    rewrite X. field. split; apply Rgt_not_eq, P.
Qed.
Print Assumptions C192_bsf_refuted.

Lemma three_zeros c0 c1 c2 s t x y z : c1 <> 0 -> 0 < s -> 0 < t -> x < y -> y < z ->
  (forall k, In k [x; y; z] -> c0 + c1 * exp (- (s * k)) + c2 * exp (- (t * k)) = 0) -> s = t.
Proof.
  intros Nc Hs Ht Hxy Hyz H. set (f := fun k => c0 + c1 * exp (- (s * k)) + c2 * exp (- (t * k))). set (f' := fun k => - (c1 * s) * exp (- (s * k)) - c2 * t * exp (- (t * k))).
  assert (D : forall k, derivable_pt_lim f k (f' k)). { intros k. apply is_derive_Reals. unfold f, f'. auto_derive; [exact I|ring]. }
  assert (Zx : f x = 0) by (apply H; cbn; auto). assert (Zy : f y = 0) by (apply H; cbn; auto). assert (Zz : f z = 0) by (apply H; cbn; auto).
  assert (Z : forall a b, a < b -> f a = 0 -> f b = 0 -> exists c, f' c = 0 /\ a < c < b).
  { intros a b L Ea Eb. destruct (MVT_cor2 f f' a b L (fun c _ => D c)) as (c & Ec & Hc). exists c. split; [|exact Hc]. rewrite Ea, Eb in Ec. apply (Rmult_eq_reg_r (b - a)); lra. }
  destruct (Z x y Hxy Zx Zy) as (u & Eu & Hu). destruct (Z y z Hyz Zy Zz) as (v & Ev & Hv). unfold f' in Eu, Ev.
  assert (Ncs : c1 * s <> 0) by (intros W; apply Rmult_integral in W; destruct W; lra).
  assert (X : exp (- (s * u)) * exp (- (t * v)) = exp (- (s * v)) * exp (- (t * u))).
  { apply (Rmult_eq_reg_l (c1 * s)); [|exact Ncs]. transitivity (- (c2 * t * exp (- (t * u))) * exp (- (t * v))); [rewrite <- Rmult_assoc; f_equal; lra|].
    transitivity (- (c2 * t * exp (- (t * v))) * exp (- (t * u))); [ring|]. rewrite <- Rmult_assoc. f_equal. lra. }
  rewrite <- !exp_plus in X. apply exp_inv in X. assert (W : (s - t) * (u - v) = 0) by lra. apply Rmult_integral in W. destruct W; lra.
Qed.
(** ... but three path lengths do *)
Theorem C192_three_paths : forall (obs : RT -> Prop) o1 o2 o3 b, obs o1 -> obs o2 -> obs o3 -> 0 <= b < 1 ->
  (forall o, In o [o1; o2; o3] -> half_space o = 0 /\ bsf o = b /\ 0 < cos (t_0 o) /\ I0 o * brdf_val o <> 0) ->
  slant o1 <> slant o2 -> slant o1 <> slant o3 -> slant o2 <> slant o3 ->
  determine (model2 false false "tau" "NormBRDF") (fun t n => 0 < t /\ n <> 0) obs.
Proof.
  intros obs o1 o2 o3 b H1 H2 H3 Hb Hs N12 N13 N23 v w v' w' [Pv Nw] [Pv' Nw'] Eq.
  assert (F : forall o, In o [o1; o2; o3] -> obs o -> gap b (slant o) v * w = gap b (slant o) v' * w').
  { intros o Io Ho. destruct (Hs o Io) as (Hh & Eb & Hc & Hn). specialize (Eq o Ho). unfold model2, in_units in Eq. cbv zeta in Eq. rewrite !form_tn, Hh, Eb in Eq. unfold E in Eq. fold (gap b (slant o) v) in Eq. fold (gap b (slant o) v') in Eq.
    assert (Ns : soil o <> 0). { unfold soil. intros Z. apply Hn. apply (Rmult_eq_reg_l (cos (t_0 o))); lra. }
    apply (Rmult_eq_reg_r (soil o)); [lra|exact Ns]. }
  assert (F1 := F o1 ltac:(cbn; auto) H1). assert (F2 := F o2 ltac:(cbn; auto) H2). assert (F3 := F o3 ltac:(cbn; auto) H3).
  assert (S : forall x y z, x < y -> y < z -> gap b x v * w = gap b x v' * w' -> gap b y v * w = gap b y v' * w' -> gap b z v * w = gap b z v' * w' -> v = v').
  { intros x y z L1 L2 Gx Gy Gz. apply (three_zeros (b * w - b * w') ((1 - b) * w) (- ((1 - b) * w')) v v' x y z); try assumption.
    - intros Z. apply Rmult_integral in Z. destruct Z; lra.
    - unfold gap in *. intros k [<-|[<-|[<-|[]]]]; lra. }
  assert (V : v = v').
  { destruct (Rtotal_order (slant o1) (slant o2)) as [L12|[L12|L12]]; [|elim (N12 L12)|]; (destruct (Rtotal_order (slant o1) (slant o3)) as [L13|[L13|L13]]; [|elim (N13 L13)|]);
      (destruct (Rtotal_order (slant o2) (slant o3)) as [L23|[L23|L23]]; [|elim (N23 L23)|]); try lra.
    - exact (S _ _ _ L12 L23 F1 F2 F3).
    - exact (S _ _ _ L13 L23 F1 F3 F2).
    - exact (S _ _ _ L13 L12 F3 F1 F2).
    - exact (S _ _ _ L12 L13 F2 F1 F3).
    - exact (S _ _ _ L23 L13 F2 F3 F1).
    - exact (S _ _ _ L23 L12 F3 F2 F1). }
  split; [exact V|]. subst v'. pose proof (gap_pos b (slant o1) v Hb). apply Rmult_eq_reg_l in F1; lra.
Qed.
Print Assumptions C192_three_paths.

(** one measurement (or several ones of the same scene under the same angles) never determines two parameters *)
Theorem C192_one_measurement : forall o, above o ->
  ~ determine (model2 false false "omega" "NormBRDF") (fun _ _ => True) (eq o) /\
  (half_space o = 0 -> bsf o = 0 -> I0 o * brdf_val o <> 0 -> ~ determine (model2 false false "tau" "NormBRDF") (fun t n => 0 < t /\ n <> 0) (eq o)) /\
  (bare_surface o = 0 -> bsf o <> 1 -> I0 o * p_val o <> 0 -> ~ determine (model2 false false "tau" "omega") (fun t w => 0 < t /\ w <> 0) (eq o)) /\
  (bare_surface o <> half_space o -> ~ determine (model2 false false "tau" "bsf") (fun t b => 0 < t /\ 1 - b <> 0) (eq o)).
Proof.
  intros o A. assert (X : exists o', o = o') by (exists o; reflexivity). split; [|split; [|split]].
  - intros H. apply C192_omega_NormBRDF in H. destruct H as (o1 & o2 & <- & <- & N). apply N. reflexivity.
  - intros H1 H2 H3 H. apply C192_tau_NormBRDF in H; [|exact X|intros o' <-; auto]. destruct H as (o1 & o2 & <- & <- & N). apply N. reflexivity.
  - intros H1 H2 H3 H. apply C192_tau_omega in H; [|exact X|intros o' <-; auto]. destruct H as (o1 & o2 & <- & <- & N). apply N. reflexivity.
  - intros H1 H. apply C192_tau_bsf in H; [|exact X|intros o' <-; auto]. destruct H as (o1 & o2 & <- & <- & N). apply N. reflexivity.
Qed.
Print Assumptions C192_one_measurement.

(** a layer seen from nadir, at 60 degrees, and down from nadir and up at 60 degrees *)
Definition view (g : string) (t0 tex om n b : R) : RT := mkRT 1 g t0 0 tex 0 (mkV (1/2) om (fun _ _ _ _ _ => 1 / (4 * PI))) (mkSRF n (fun _ _ _ _ _ => 1 / PI)) b [] 1 None None.
Lemma view_slant om n b :
  (above (view "mono" 0 0 om n b) /\ above (view "mono" (PI/3) 0 om n b) /\ above (view "bist" 0 (PI/3) om n b)) /\
  slant (view "mono" 0 0 om n b) = 2 /\ slant (view "mono" (PI/3) 0 om n b) = 4 /\ slant (view "bist" 0 (PI/3) om n b) = 3.
Proof.
  unfold above, slant. change (t_0 (view "mono" 0 0 om n b)) with 0. change (t_ex (view "mono" 0 0 om n b)) with 0. change (t_0 (view "mono" (PI/3) 0 om n b)) with (PI/3). change (t_ex (view "mono" (PI/3) 0 om n b)) with (PI/3).
  change (t_0 (view "bist" 0 (PI/3) om n b)) with 0. change (t_ex (view "bist" 0 (PI/3) om n b)) with (PI/3). rewrite cos_0, cos_PI3. repeat split; lra.
Qed.
Example C192_example :
  let o1 := view "mono" 0 0 (1/5) (1/2) 0 in let o2 := view "mono" (PI/3) 0 (1/5) (1/2) 0 in
  let s1 := view "mono" 0 0 0 (1/2) 0 in let s2 := view "mono" (PI/3) 0 0 (1/2) 0 in
  let v1 := view "mono" 0 0 (1/5) 0 0 in let v2 := view "mono" (PI/3) 0 (1/5) 0 0 in
  let b1 := view "mono" 0 0 0 (1/2) (1/4) in let b2 := view "mono" (PI/3) 0 0 (1/2) (1/4) in let b3 := view "bist" 0 (PI/3) 0 (1/2) (1/4) in
  determine (model2 false false "omega" "NormBRDF") (fun _ _ => True) (fun o => o = o1 \/ o = o2) /\
  determine (model2 false false "tau" "bsf") (fun t b => 0 < t /\ 1 - b <> 0) (fun o => o = o1 \/ o = o2) /\
  determine (model2 false false "tau" "NormBRDF") (fun t n => 0 < t /\ n <> 0) (fun o => o = s1 \/ o = s2) /\
  determine (model2 false false "tau" "omega") (fun t w => 0 < t /\ w <> 0) (fun o => o = v1 \/ o = v2) /\
  ~ determine (model2 false false "tau" "NormBRDF") (fun t n => 0 < t /\ 0 < n) (fun o => o = b1 \/ o = b2) /\
  determine (model2 false false "tau" "NormBRDF") (fun t n => 0 < t /\ n <> 0) (fun o => In o [b1; b2; b3]) /\
  (forall g, In g [1; 1]%Z -> determine (model2 false false "omega" "NormBRDF") (fun _ _ => True) (in_group [o1; o2] o1 None [1; 1]%Z g)).
Proof.
  intros o1 o2 s1 s2 v1 v2 b1 b2 b3. pose proof PI_RGT_0 as HP. assert (HI : 0 < / PI) by (apply Rinv_0_lt_compat; exact HP). assert (H4 : 0 < / (4 * PI)) by (apply Rinv_0_lt_compat; lra).
  assert (D : forall obs : RT -> Prop, obs o1 -> obs o2 -> determine (model2 false false "omega" "NormBRDF") (fun _ _ => True) obs).
  { intros obs Q1 Q2. destruct (view_slant (1/5) (1/2) 0) as ((A1 & A2 & _) & _). apply (C192_two_angles obs o1 o2); try assumption; try reflexivity; try (cbn; lra).
    change (cos 0 <> cos (PI/3)). rewrite cos_0, cos_PI3. lra. }


  split; [apply D; auto|]. split; [|split; [|split; [|split; [|split]]]].
  - destruct (view_slant (1/5) (1/2) 0) as ((A1 & A2 & _) & S1 & S2 & _). apply C192_tau_bsf; [exists o1; auto| |exists o1, o2; split; [auto|split; [auto|rewrite (S1 : slant o1 = 2), (S2 : slant o2 = 4); lra]]].
    intros o [-> | ->]; (split; [assumption|]); unfold bare_surface, half_space.
    + change (1/2 * (1 * cos 0 * (1 / PI)) <> 1 * (1/5) * cos 0 / (cos 0 + cos 0) * (1 / (4 * PI))). rewrite cos_0. intros Z. assert (Y : 1 * (1 / 5) * 1 / (1 + 1) * (1 / (4 * PI)) = 1/40 * / PI) by (field; lra). rewrite Y in Z. lra.
    + change (1/2 * (1 * cos (PI/3) * (1 / PI)) <> 1 * (1/5) * cos (PI/3) / (cos (PI/3) + cos (PI/3)) * (1 / (4 * PI))). rewrite cos_PI3. intros Z. assert (Y : 1 * (1 / 5) * (1/2) / (1/2 + 1/2) * (1 / (4 * PI)) = 1/40 * / PI) by (field; lra). rewrite Y in Z. lra.
  - destruct (view_slant 0 (1/2) 0) as ((A1 & A2 & _) & S1 & S2 & _). apply C192_tau_NormBRDF; [exists s1; auto| |exists s1, s2; split; [auto|split; [auto|rewrite (S1 : slant s1 = 2), (S2 : slant s2 = 4); lra]]].
    intros o [-> | ->]; (split; [assumption|]); (split; [unfold half_space; cbn [I0 omega V view s1 s2]; unfold Rdiv; ring|]); (split; [reflexivity|]); [change (1 * (1 / PI) <> 0)|change (1 * (1 / PI) <> 0)]; lra.
  - destruct (view_slant (1/5) 0 0) as ((A1 & A2 & _) & S1 & S2 & _). apply C192_tau_omega; [exists v1; auto| |exists v1, v2; split; [auto|split; [auto|rewrite (S1 : slant v1 = 2), (S2 : slant v2 = 4); lra]]].
    intros o [-> | ->]; (split; [assumption|]); (split; [unfold bare_surface; cbn [NormBRDF SRF view v1 v2]; ring|]); (split; [cbn; lra|]); [change (1 * (1 / (4 * PI)) <> 0)|change (1 * (1 / (4 * PI)) <> 0)]; lra.
  - destruct (view_slant 0 (1/2) (1/4)) as ((A1 & A2 & _) & S1 & S2 & _). apply C192_bsf_refuted; try assumption; try reflexivity; try (cbn; lra); try (unfold half_space; cbn [I0 omega V view b1 b2]; unfold Rdiv; ring).
    rewrite (S1 : slant b1 = 2), (S2 : slant b2 = 4). lra.
  - destruct (view_slant 0 (1/2) (1/4)) as ((A1 & A2 & A3) & S1 & S2 & S3). apply (C192_three_paths _ b1 b2 b3 (1/4)); try (cbn; auto; fail); try lra.
    + intros o [<-|[<-|[<-|[]]]]; (split; [unfold half_space; cbn [I0 omega V view b1 b2 b3]; unfold Rdiv; ring|]); (split; [reflexivity|]); (split; [apply A1 || apply A2 || apply A3|]); change (1 * (1 / PI) <> 0); lra.
    + rewrite (S1 : slant b1 = 2), (S2 : slant b2 = 4). lra.
    + rewrite (S1 : slant b1 = 2), (S3 : slant b3 = 3). lra.
    + rewrite (S2 : slant b2 = 4), (S3 : slant b3 = 3). lra.
  - intros g [<-|[<-|[]]]; apply D; [exists 0%nat|exists 1%nat|exists 0%nat|exists 1%nat]; cbn; repeat split; try lia; lra.
Qed.
