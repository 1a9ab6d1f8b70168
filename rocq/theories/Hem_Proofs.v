(** Lemmas about the numerical evaluation of the hemispherical reflectance. *)
From Coq Require Import Reals Lra Lia Bool Arith List.
From Coquelicot Require Import Coquelicot.
From Verif Require Import Hem_Model Hem_Spec.
Import ListNotations.
Local Open Scope R_scope.

(** ** quadrature rules with positive weights *)
Definition rule := (R -> R) -> R.
(** the rule is a linear functional that depends on values in [a, b] only, is
    bounded by the length, and has a local error *)
Definition good (Q : rule) (a b d : R) : Prop :=
  a <= b /\
  (forall f g, (forall u, a <= u <= b -> f u = g u) -> Q f = Q g) /\
  (forall f g, Q (fun u => f u - g u) = Q f - Q g) /\
  (forall f M, (forall u, a <= u <= b -> Rabs (f u) <= M) -> Rabs (Q f) <= M * (b - a)) /\
  (forall f w, ex_RInt f a b ->
     (forall u v, a <= u <= b -> a <= v <= b -> Rabs (u - v) <= d -> Rabs (f u - f v) <= w) ->
     Rabs (Q f - RInt f a b) <= w * (b - a)).

Lemma ex_RInt_sub (f : R -> R) a b c : a <= b <= c -> ex_RInt f a c -> ex_RInt f a b /\ ex_RInt f b c.
Proof.
  intros H E. split.
  - apply (ex_RInt_Chasles_1 f a b c H E).
  - apply (ex_RInt_Chasles_2 f a b c H E).
Qed.

Lemma good_add Q1 Q2 a b c d : good Q1 a b d -> good Q2 b c d -> good (fun f => Q1 f + Q2 f) a c d.
Proof.
  intros (A1 & A2 & A3 & A4 & A5) (B1 & B2 & B3 & B4 & B5). split; [lra|]. split; [|split; [|split]].
  - intros f g H. rewrite (A2 f g), (B2 f g); [reflexivity|intros u Hu; apply H; lra|intros u Hu; apply H; lra].
  - intros f g. rewrite A3, B3. ring.
  - intros f M H. assert (HA := A4 f M (fun u Hu => H u (conj (proj1 Hu) (Rle_trans _ _ _ (proj2 Hu) B1)))).
    assert (HB := B4 f M (fun u Hu => H u (conj (Rle_trans _ _ _ A1 (proj1 Hu)) (proj2 Hu)))).
    eapply Rle_trans; [apply Rabs_triang|]. lra.
  - intros f w E H. destruct (ex_RInt_sub f a b c) as [E1 E2]; [lra|exact E|].
    assert (HA := A5 f w E1 (fun u v Hu Hv => H u v (conj (proj1 Hu) (Rle_trans _ _ _ (proj2 Hu) B1)) (conj (proj1 Hv) (Rle_trans _ _ _ (proj2 Hv) B1)))).
    assert (HB := B5 f w E2 (fun u v Hu Hv => H u v (conj (Rle_trans _ _ _ A1 (proj1 Hu)) (proj2 Hu)) (conj (Rle_trans _ _ _ A1 (proj1 Hv)) (proj2 Hv)))).
    assert (C := RInt_Chasles f a b c E1 E2). unfold plus in C; simpl in C. rewrite <- C.
    replace (Q1 f + Q2 f - (RInt f a b + RInt f b c)) with ((Q1 f - RInt f a b) + (Q2 f - RInt f b c)) by ring.
    eapply Rle_trans; [apply Rabs_triang|]. lra.
Qed.

Lemma good_avg Q1 Q2 a b d : good Q1 a b d -> good Q2 a b d -> good (fun f => (Q1 f + Q2 f) / 2) a b d.
Proof.
  intros (A1 & A2 & A3 & A4 & A5) (B1 & B2 & B3 & B4 & B5). split; [exact A1|]. split; [|split; [|split]].
  - intros f g H. rewrite (A2 f g H), (B2 f g H). reflexivity.
  - intros f g. rewrite A3, B3. field.
  - intros f M H. specialize (A4 f M H). specialize (B4 f M H).
    apply Rabs_le_between in A4. apply Rabs_le_between in B4. apply Rabs_le_between. lra.
  - intros f w E H. specialize (A5 f w E H). specialize (B5 f w E H).
    apply Rabs_le_between in A5. apply Rabs_le_between in B5. apply Rabs_le_between. lra.
Qed.

Lemma good_ext Q1 Q2 a b d : (forall f, Q1 f = Q2 f) -> good Q1 a b d -> good Q2 a b d.
Proof.
  intros E (A1 & A2 & A3 & A4 & A5). split; [exact A1|]. split; [|split; [|split]]; intros; rewrite <- !E; auto.
Qed.

Lemma good_nil a d : good (fun _ => 0) a a d.
Proof.
  split; [lra|]. split; [reflexivity|]. split; [intros; lra|]. split.
  - intros f M _. rewrite Rabs_R0. lra.
  - intros f w _ _. rewrite RInt_point. unfold zero; simpl. rewrite Rminus_0_r, Rabs_R0. lra.
Qed.

(** one sample against the integral *)
Lemma sample_error (f : R -> R) a b x w : a <= b -> a <= x <= b -> ex_RInt f a b ->
  (forall v, a <= v <= b -> Rabs (f x - f v) <= w) -> Rabs ((b - a) * f x - RInt f a b) <= w * (b - a).
Proof.
  intros Hab Hx E H.
  assert (C : is_RInt (fun _ => f x) a b ((b - a) * f x)) by (apply (is_RInt_const a b (f x))).
  assert (D : is_RInt (fun v => f x - f v) a b ((b - a) * f x - RInt f a b)).
  { apply (is_RInt_minus (fun _ => f x) f a b _ _ C). apply (@RInt_correct R_CompleteNormedModule), E. }
  rewrite (Rmult_comm w). apply (norm_RInt_le_const (fun v => f x - f v) a b _ w Hab H D).
Qed.

(** a panel of two or three samples *)
Lemma good_panel a b d (x0 x1 x2 w0 w1 w2 : R) : a <= b -> b - a <= d ->
  a <= x0 <= b -> a <= x1 <= b -> a <= x2 <= b -> 0 <= w0 -> 0 <= w1 -> 0 <= w2 -> w0 + w1 + w2 = 1 ->
  good (fun f => (b - a) * (w0 * f x0 + w1 * f x1 + w2 * f x2)) a b d.
Proof.
  intros Hab Hd H0 H1 H2 W0 W1 W2 W. split; [exact Hab|]. split; [|split; [|split]].
  - intros f g H. rewrite (H x0 H0), (H x1 H1), (H x2 H2). reflexivity.
  - intros f g. ring.
  - intros f M H. assert (A := H x0 H0). assert (B := H x1 H1). assert (C := H x2 H2).
    rewrite Rabs_mult, (Rabs_pos_eq (b - a)) by lra. rewrite (Rmult_comm M). apply Rmult_le_compat_l; [lra|].
    apply Rabs_le_between in A. apply Rabs_le_between in B. apply Rabs_le_between in C. apply Rabs_le_between.
    replace w2 with (1 - w0 - w1) in * by lra. split; nra.
  - intros f w E H.
    assert (S : forall x, a <= x <= b -> Rabs ((b - a) * f x - RInt f a b) <= w * (b - a)).
    { intros x Hx. apply sample_error; auto. intros v Hv. apply H; auto. apply Rabs_le_between. lra. }
    assert (A := S x0 H0). assert (B := S x1 H1). assert (C := S x2 H2).
    apply Rabs_le_between in A. apply Rabs_le_between in B. apply Rabs_le_between in C. apply Rabs_le_between.
    set (I := RInt f a b) in *.
    replace ((b - a) * (w0 * f x0 + w1 * f x1 + w2 * f x2) - I)
      with (w0 * ((b - a) * f x0 - I) + w1 * ((b - a) * f x1 - I) + w2 * ((b - a) * f x2 - I))
      by (replace w2 with (1 - w0 - w1) by lra; ring).
    set (p := (b - a) * f x0 - I) in *. set (q := (b - a) * f x1 - I) in *. set (r := (b - a) * f x2 - I) in *.
    set (e := w * (b - a)) in *. replace w2 with (1 - w0 - w1) in * by lra. split; nra.
Qed.

(** ** the samples *)
Definition nodes (a h : R) (n : nat) : list R := map (fun i => a + INR i * h) (seq 0 n).
Definition samples (f : R -> R) (l : list R) : list (R * R) := map (fun x => (x, f x)) l.

Lemma nodes_S a h n : nodes a h (S n) = a :: nodes (a + h) h n.
Proof.
  unfold nodes. cbn [seq map]. f_equal; [simpl; ring|]. rewrite <- seq_shift, map_map. apply map_ext.
  intros i. rewrite S_INR. ring.
Qed.
Lemma nodes_last a h n : nodes a h (S n) = nodes a h n ++ [a + INR n * h].
Proof. unfold nodes. rewrite seq_S, map_app. reflexivity. Qed.
Lemma nodes_length a h n : length (nodes a h n) = n.
Proof. unfold nodes. rewrite map_length, seq_length. reflexivity. Qed.
Lemma linspace_nodes a b n : linspace a b n = nodes a ((b - a) / INR (n - 1)) n.
Proof. reflexivity. Qed.

Lemma simpson_panel f a h l : h <> 0 ->
  simpson ((a, f a) :: (a + h, f (a + h)) :: (a + h + h, f (a + h + h)) :: l) =
  h / 3 * (f a + 4 * f (a + h) + f (a + h + h)) + simpson ((a + h + h, f (a + h + h)) :: l).
Proof.
  intros Hh. cbn [simpson]. f_equal. replace (a + h - a) with h by ring. replace (a + h + h - (a + h)) with h by ring. field. exact Hh.
Qed.

Lemma simpson_S f a h k : h <> 0 ->
  simpson (samples f (nodes a h (S (2 * S k)))) =
  h / 3 * (f a + 4 * f (a + h) + f (a + h + h)) + simpson (samples f (nodes (a + h + h) h (S (2 * k)))).
Proof.
  intros Hh. replace (2 * S k)%nat with (S (S (2 * k))) by lia. rewrite (nodes_S a), (nodes_S (a + h)).
  rewrite (nodes_S (a + h + h)). unfold samples. cbn [map]. rewrite simpson_panel by exact Hh. reflexivity.
Qed.

Lemma simpson_good a h d k : 0 < h -> 2 * h <= d ->
  good (fun f => simpson (samples f (nodes a h (S (2 * k))))) a (a + INR (2 * k) * h) d.
Proof.
  intros Hh Hd. revert a. induction k as [|k IH]; intros a.
  - replace (a + INR (2 * 0) * h) with a by (simpl; ring). apply (good_ext (fun _ => 0)); [reflexivity|apply good_nil].
  - replace (a + INR (2 * S k) * h) with (a + h + h + INR (2 * k) * h)
      by (replace (2 * S k)%nat with (S (S (2 * k))) by lia; rewrite !S_INR; ring).
    apply (good_ext (fun f => h / 3 * (f a + 4 * f (a + h) + f (a + h + h)) + simpson (samples f (nodes (a + h + h) h (S (2 * k)))))).
    + intros f. symmetry. apply simpson_S. lra.
    + apply good_add with (b := a + h + h); [|apply IH].
      apply (good_ext (fun f => (a + h + h - a) * (1 / 6 * f a + 4 / 6 * f (a + h) + 1 / 6 * f (a + h + h)))).
      * intros f. field.
      * apply good_panel; lra.
Qed.

Lemma trap_good a h d : 0 < h -> h <= d -> good (fun f => trap (a, f a) (a + h, f (a + h))) a (a + h) d.
Proof.
  intros Hh Hd. apply (good_ext (fun f => (a + h - a) * (1 / 2 * f a + 1 / 2 * f (a + h) + 0 * f a))).
  - intros f. unfold trap. cbn [fst snd]. field.
  - apply good_panel; lra.
Qed.

Lemma simps_odd f a h k : simps (samples f (nodes a h (S (2 * k)))) = simpson (samples f (nodes a h (S (2 * k)))).
Proof.
  unfold simps. unfold samples at 1. rewrite map_length, nodes_length.
  replace (Nat.odd (S (2 * k))) with true; [reflexivity|]. symmetry. apply Nat.odd_spec. exists k. lia.
Qed.

Lemma simps_form l p q r z y t : Nat.odd (length l) = false -> l = p :: q :: r -> rev l = z :: y :: t ->
  simps l = (trap y z + trap p q) / 2 + (simpson (removelast l) + simpson (tl l)) / 2.
Proof. intros Lo -> R. unfold simps. rewrite Lo, R. reflexivity. Qed.

Lemma simps_even f a h k :
  simps (samples f (nodes a h (S (S (2 * k))))) =
  ((simpson (samples f (nodes a h (S (2 * k)))) +
    trap (a + INR (2 * k) * h, f (a + INR (2 * k) * h)) (a + INR (2 * k) * h + h, f (a + INR (2 * k) * h + h))) +
   (trap (a, f a) (a + h, f (a + h)) + simpson (samples f (nodes (a + h) h (S (2 * k)))))) / 2.
Proof.
  set (l := samples f (nodes a h (S (S (2 * k))))).
  assert (Lo : Nat.odd (length l) = false).
  { unfold l, samples. rewrite map_length, nodes_length. rewrite <- Nat.negb_even, negb_false_iff. apply Nat.even_spec. exists (S k). lia. }
  assert (L1 : l = (a, f a) :: samples f (nodes (a + h) h (S (2 * k)))).
  { unfold l. rewrite nodes_S. reflexivity. }
  assert (L2 : l = samples f (nodes a h (S (2 * k))) ++ [(a + INR (2 * k) * h + h, f (a + INR (2 * k) * h + h))]).
  { unfold l. rewrite nodes_last. unfold samples. rewrite map_app. cbn [map]. rewrite S_INR.
    replace (a + (INR (2 * k) + 1) * h) with (a + INR (2 * k) * h + h) by ring. reflexivity. }
  assert (R : rev l = (a + INR (2 * k) * h + h, f (a + INR (2 * k) * h + h)) :: (a + INR (2 * k) * h, f (a + INR (2 * k) * h))
                      :: rev (samples f (nodes a h (2 * k)))).
  { rewrite L2, rev_app_distr. cbn [rev app]. f_equal. rewrite nodes_last. unfold samples. rewrite map_app, rev_app_distr. reflexivity. }
  assert (RL : removelast l = samples f (nodes a h (S (2 * k)))).
  { rewrite L2. apply removelast_last. }
  assert (TL : tl l = samples f (nodes (a + h) h (S (2 * k)))) by (rewrite L1; reflexivity).
  assert (L3 : exists r, l = (a, f a) :: (a + h, f (a + h)) :: r).
  { rewrite L1, nodes_S. eexists. reflexivity. }
  destruct L3 as [r L3]. rewrite (simps_form l _ _ _ _ _ _ Lo L3 R), RL, TL. field.
Qed.

Lemma simps_good a b d n : a < b -> (2 <= n)%nat -> 2 * ((b - a) / INR (n - 1)) <= d ->
  good (fun f => simps (samples f (linspace a b n))) a b d.
Proof.
  intros Hab Hn Hd. assert (Hi : 0 < INR (n - 1)) by (apply lt_0_INR; lia).
  rewrite linspace_nodes. set (h := (b - a) / INR (n - 1)) in *.
  assert (Hh : 0 < h) by (unfold h; apply Rdiv_lt_0_compat; lra).
  assert (Hb : b = a + INR (n - 1) * h) by (unfold h; field; lra).
  destruct (Nat.Even_or_Odd n) as [[k Hk]|[k Hk]].
  - destruct k as [|k]; [lia|]. replace n with (S (S (2 * k))) by lia.
    assert (Hb' : b = a + INR (2 * k) * h + h).
    { rewrite Hb. replace (n - 1)%nat with (S (2 * k)) by lia. rewrite S_INR. ring. }
    eapply good_ext; [intros f; symmetry; apply simps_even|].
    apply (good_avg (fun f => simpson (samples f (nodes a h (S (2 * k)))) +
        trap (a + INR (2 * k) * h, f (a + INR (2 * k) * h)) (a + INR (2 * k) * h + h, f (a + INR (2 * k) * h + h)))
      (fun f => trap (a, f a) (a + h, f (a + h)) + simpson (samples f (nodes (a + h) h (S (2 * k)))))).
    + apply good_add with (b := a + INR (2 * k) * h); [apply simpson_good; lra|]. rewrite Hb'. apply trap_good; lra.
    + apply good_add with (b := a + h); [apply trap_good; lra|].
      replace b with (a + h + INR (2 * k) * h) by lra. apply simpson_good; lra.
  - replace n with (S (2 * k)) by lia. eapply good_ext; [intros f; symmetry; apply simps_odd|].
    replace b with (a + INR (2 * k) * h); [apply simpson_good; lra|].
    rewrite Hb. replace (n - 1)%nat with (2 * k)%nat by lia. reflexivity.
Qed.

(** ** the double integral *)
Section Double.
Variable f : R -> R -> R.
Hypothesis Cf : forall x y, continuity_2d_pt f x y.

Lemma slice_cont x y : continuous (f x) y.
Proof.
  apply continuity_pt_filterlim. intros e He. destruct (Cf x y (mkposreal e He)) as [d Hd].
  exists d. split; [apply d|]. intros v [_ Hv]. apply (Hd x v); [rewrite Rminus_eq_0, Rabs_R0; apply d|exact Hv].
Qed.
Lemma slice_ex x a b : ex_RInt (f x) a b.
Proof. apply (@ex_RInt_continuous R_CompleteNormedModule). intros z _. apply slice_cont. Qed.

(** the inner integral depends continuously on x *)
Lemma inner_diff x u c d e : c <= d ->
  (forall y, c <= y <= d -> Rabs (f u y - f x y) <= e) -> Rabs (RInt (f u) c d - RInt (f x) c d) <= e * (d - c).
Proof.
  intros Hcd H.
  assert (D : is_RInt (fun y => f u y - f x y) c d (RInt (f u) c d - RInt (f x) c d)).
  { apply (is_RInt_minus (f u) (f x)); apply (@RInt_correct R_CompleteNormedModule), slice_ex. }
  rewrite (Rmult_comm e). apply (norm_RInt_le_const (fun y => f u y - f x y) c d _ e Hcd H D).
Qed.

Lemma inner_cont c d x : c < d -> continuous (fun x => RInt (f x) c d) x.
Proof.
  intros Hcd. apply continuity_pt_filterlim. intros e He.
  assert (He' : 0 < e / (2 * (d - c))) by (apply Rdiv_lt_0_compat; lra).
  destruct (uniform_continuity_2d f (x - 1) (x + 1) c d (fun u v _ _ => Cf u v) (mkposreal _ He')) as [dl Hdl].
  exists (Rmin dl 1). split; [apply Rmin_pos; [apply dl|lra]|]. intros u [_ Hu]. simpl in Hu. unfold R_dist in Hu.
  assert (Hu1 : Rabs (u - x) < dl) by (eapply Rlt_le_trans; [exact Hu|apply Rmin_l]).
  assert (Hu2 : Rabs (u - x) < 1) by (eapply Rlt_le_trans; [exact Hu|apply Rmin_r]).
  apply Rabs_def2 in Hu2. simpl. unfold R_dist.
  eapply Rle_lt_trans.
  - apply inner_diff with (e := e / (2 * (d - c))); [lra|]. intros y Hy. apply Rlt_le.
    apply (Hdl x y u y); try lra. rewrite Rminus_eq_0, Rabs_R0. apply dl.
  - replace (e / (2 * (d - c)) * (d - c)) with (e / 2) by (field; lra). lra.
Qed.

Lemma double_error a b c d Qx Qy dl e : a < b -> c < d -> 0 <= e -> good Qx a b dl -> good Qy c d dl ->
  (forall x y u v, a <= x <= b -> c <= y <= d -> a <= u <= b -> c <= v <= d ->
     Rabs (u - x) <= dl -> Rabs (v - y) <= dl -> Rabs (f u v - f x y) <= e) -> 0 <= dl ->
  Rabs (Qx (fun x => Qy (f x)) - RInt (fun x => RInt (f x) c d) a b) <= 2 * e * ((b - a) * (d - c)).
Proof.
  intros Hab Hcd He (_ & _ & X3 & X4 & X5) (_ & _ & _ & _ & Y5) U Hdl.
  set (F := fun x => RInt (f x) c d). set (G := fun x => Qy (f x)).
  assert (GF : forall x, a <= x <= b -> Rabs (G x - F x) <= e * (d - c)).
  { intros x Hx. apply Y5; [apply slice_ex|]. intros u v Hu Hv Huv. apply U; auto; try lra. rewrite Rminus_eq_0, Rabs_R0. exact Hdl. }
  assert (FF : Rabs (Qx F - RInt F a b) <= e * (d - c) * (b - a)).
  { apply X5.
    - apply (@ex_RInt_continuous R_CompleteNormedModule). intros z _. apply inner_cont, Hcd.
    - intros u v Hu Hv Huv. apply inner_diff; [lra|]. intros y Hy. apply U; auto. rewrite Rminus_eq_0, Rabs_R0. exact Hdl. }
  assert (GG : Rabs (Qx G - Qx F) <= e * (d - c) * (b - a)).
  { rewrite <- X3. apply X4. exact GF. }
  replace (Qx G - RInt F a b) with ((Qx G - Qx F) + (Qx F - RInt F a b)) by ring.
  eapply Rle_trans; [apply Rabs_triang|]. lra.
Qed.
End Double.
