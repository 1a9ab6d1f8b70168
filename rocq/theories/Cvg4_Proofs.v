(** Truncated and exact values of the shipped scattering functions. *)
From Coq Require Import Reals List ZArith Arith Lra Lia Psatz.
From Coquelicot Require Import Coquelicot.
From Verif Require Import Base RT_Model Sca_Model Sca_Spec Leg_Proofs Sca_Proofs Sca2_Proofs Sca3_Proofs Int_Model Int_Spec Int2_Proofs Hem2_Proofs
  Shp_Model Shp_Spec Shp_Proofs Cvg_Model Cvg_Spec Cvg_Proofs Cvg2_Proofs Cvg3_Proofs.
Import ListNotations.
Local Open Scope R_scope.

Lemma v_adm_weights pd e : v_adm pd e -> unit_weights (velem_a e).
Proof. destruct e; simpl; tauto. Qed.
Lemma s_adm_weights pd e : s_adm pd e -> unit_weights (selem_a e).
Proof. destruct e; simpl; tauto. Qed.

Lemma vfun_sumR pd v t0 tx p0 px : vfun_func v pd t0 tx p0 px =
  sumR (map (fun c => pnum pd (fst c) * velem_x pd (snd c) (scat_angle t0 tx p0 px (velem_a (snd c)))) (v_elems v)).
Proof.
  destruct v as [e|cs]; simpl.
  - unfold velem_func, pnum; simpl. ring.
  - rewrite (fold_left_sum (fun c => velem_func pd (snd c) t0 tx p0 px * pnum pd (fst c))), Rplus_0_l. f_equal.
    apply map_ext. intros c. unfold velem_func. ring.
Qed.
Lemma sfun_sumR pd s t0 tx p0 px : sfun_func s pd t0 tx p0 px =
  sumR (map (fun c => pnum pd (fst c) * selem_x pd (snd c) (scat_angle t0 tx p0 px (selem_a (snd c)))) (s_elems s)).
Proof.
  destruct s as [e|cs]; simpl.
  - unfold selem_func, pnum; simpl. ring.
  - rewrite (fold_left_sum (fun c => selem_func pd (snd c) t0 tx p0 px * pnum pd (fst c))), Rplus_0_l. f_equal.
    apply map_ext. intros c. unfold selem_func. ring.
Qed.

Lemma same_a_max cs c : In c cs -> (ch_ncoefs c <= max_ncoefs (same_a cs (ch_a c)))%nat.
Proof. intros H. apply Sca3_Proofs.max_ncoefs_le. unfold same_a. apply filter_In. split; [exact H|]. apply avec_eqb_iff. reflexivity. Qed.

(** the objects have their elements' expansions, with at least their numbers of coefficients *)
Lemma v_obj_value pd N v : exists m : par * velem -> nat,
  (forall c, In c (v_elems v) -> (velem_ncoefs N (snd c) <= m c)%nat) /\
  forall t0 p0 ts ps, V_value (v_obj pd N v) t0 p0 ts ps =
    sumR (map (fun c => pnum pd (fst c) * leg_sum (velem_coefs pd (snd c)) (m c) (scat_angle t0 (PI - ts) p0 ps (velem_a (snd c)))) (v_elems v)).
Proof.
  destruct v as [e|cs].
  - exists (fun c => velem_ncoefs N (snd c)). split; [auto|]. intros. unfold V_value; simpl. unfold legexpansion_V.
    rewrite scat_refl_s. unfold pnum; simpl. ring.
  - exists (fun c => max_ncoefs (same_a (map (vchoice pd N) cs) (velem_a (snd c)))). split.
    + intros c Hc. simpl in Hc. apply (in_map (vchoice pd N)) in Hc. apply same_a_max in Hc. exact Hc.
    + intros. cbn [v_obj v_elems]. rewrite comb_V_value. unfold comb_legexpansion_V. rewrite comb_leg_sum, map_map. f_equal.
      apply map_ext. intros c. cbv beta. cbn [vchoice ch_frac ch_coefs ch_a]. rewrite scat_refl_s. reflexivity.
Qed.
Lemma s_obj_value pd N s : exists m : par * selem -> nat,
  (forall c, In c (s_elems s) -> (selem_ncoefs N (snd c) <= m c)%nat) /\
  forall ts ps tx px, S_value (s_obj pd N s) ts ps tx px =
    sumR (map (fun c => pnum pd (fst c) * leg_sum (selem_coefs pd (snd c)) (m c) (scat_angle ts tx ps px (selem_a (snd c)))) (s_elems s)).
Proof.
  destruct s as [e|cs].
  - exists (fun c => selem_ncoefs N (snd c)). split; [auto|]. intros. unfold S_value; simpl. unfold legexpansion_S.
    unfold pnum; simpl. ring.
  - exists (fun c => max_ncoefs (same_a (map (schoice pd N) cs) (selem_a (snd c)))). split.
    + intros c Hc. simpl in Hc. apply (in_map (schoice pd N)) in Hc. apply same_a_max in Hc. exact Hc.
    + intros. cbn [s_obj s_elems]. rewrite comb_S_value. unfold comb_legexpansion_S. rewrite comb_leg_sum, map_map. f_equal.
Qed.

Lemma velem_ncoefs_1 N e : (1 <= N)%nat -> (1 <= velem_ncoefs N e)%nat.
Proof. destruct e; simpl; unfold rayleigh_ncoefs; lia. Qed.
Lemma selem_ncoefs_1 N e : (1 <= N)%nat -> (1 <= selem_ncoefs N e)%nat.
Proof. destruct e; simpl; unfold iso_ncoefs; lia. Qed.

Lemma v_obj_bounded pd N v : v_elems v <> [] -> (1 <= N)%nat -> bounded_obj (v_obj pd N v).
Proof.
  intros H HN. destruct v as [e|cs]; simpl in *; [apply plain_bounded, velem_ncoefs_1, HN|].
  apply comb_bounded. destruct cs as [|c cs]; [congruence|]. left. apply velem_ncoefs_1, HN.
Qed.
Lemma s_obj_bounded pd N s : s_elems s <> [] -> (1 <= N)%nat -> bounded_obj (s_obj pd N s).
Proof.
  intros H HN. destruct s as [e|cs]; simpl in *; [apply plain_bounded, selem_ncoefs_1, HN|].
  apply comb_bounded. destruct cs as [|c cs]; [congruence|]. left. apply selem_ncoefs_1, HN.
Qed.

Lemma sumR_cont {A} (f : A -> R -> R) l x : (forall a, In a l -> continuous (f a) x) ->
  continuous (fun y => sumR (map (fun a => f a y) l)) x.
Proof.
  induction l as [|a l IH]; intros H.
  - apply continuous_ext with (fun _ => 0); [reflexivity|apply contC].
  - apply continuous_ext with (fun y => f a y + sumR (map (fun a => f a y) l)); [reflexivity|].
    apply contP; [apply H; left; reflexivity|apply IH; intros; apply H; right; assumption].
Qed.

Lemma v_inside pd e : v_adm pd e -> continuous_inside (velem_x pd e).
Proof.
  intros H x Hx. destruct e as [a|q a|q a]; simpl in *.
  - apply rayleigh_cont.
  - apply hgV_cont; [apply asym_num, H|exact Hx].
  - apply hgray_cont; [apply asym_num, H|exact Hx].
Qed.
Lemma s_inside pd e : s_adm pd e -> continuous_inside (selem_x pd e).
Proof.
  intros H x Hx. destruct e as [a|i a|q a|q a]; simpl in *.
  - apply continuous_ext with (fun _ => iso_func 0); [reflexivity|apply contC].
  - apply Hem2_Proofs.coslobe_cont.
  - apply hgS_cont; [apply asym_num, H|exact Hx].
  - destruct H as [H _]. assert (H' : has asym pd q) by (destruct H as [y [E [Q _]]]; exists y; split; [exact E|exact Q]). apply asym_num in H'.
    apply continuous_ext with (fun y => / nadir_hemreflect (pnum pd q) a * hgS_func (pnum pd q) y).
    + intros y. match goal with |- ?a = ?b => change (@eq R a b) end. unfold selem_x, hgnadir_func, hgS_func, Rdiv. rewrite ?Rinv_mult. ring.
    + apply contM; [apply contC|apply hgS_cont; assumption].
Qed.

Lemma v_close pd v : v_ok pd v -> exists e B, is_lim_seq e 0 /\
  (forall N, within (e N) (V_value (v_obj pd N v)) (exact_phase pd v)) /\ bounded_by B (exact_phase pd v) /\
  (forall t1 p1 ts x, continuous (fun ps => exact_phase pd v t1 p1 ts ps) x).
Proof.
  intros H.
  assert (X : forall t0 p0 ts ps, exact_phase pd v t0 p0 ts ps =
    sumR (map (fun c => pnum pd (fst c) * velem_x pd (snd c) (scat_angle t0 (PI - ts) p0 ps (velem_a (snd c)))) (v_elems v))).
  { intros. unfold exact_phase. rewrite <- vfun_value by exact H. apply vfun_sumR. }
  assert (E : forall c, In c (v_elems v) -> expandable (fun c => velem_coefs pd (snd c)) (fun c => velem_x pd (snd c)) (fun c N => velem_ncoefs N (snd c)) c).
  { intros [w e] Hc. exact (v_expandable pd e (proj2 (H w e Hc))). }
  assert (Hx : forall t0 p0 ts ps c, In c (v_elems v) -> -1 <= scat_angle t0 (PI - ts) p0 ps (velem_a (snd c)) <= 1).
  { intros t0 p0 ts ps [w e] Hc. apply scat_bound. exact (v_adm_weights pd e (proj2 (H w e Hc))). }
  destruct (sum_expands (fun c => pnum pd (fst c)) _ _ _ (v_elems v) E) as [e [Le He]].
  destruct (sum_bounded (fun c => pnum pd (fst c)) _ _ _ (v_elems v) E) as [B HB].
  exists e, B. split; [exact Le|]. split; [|split].
  - intros N t0 p0 ts ps. destruct (v_obj_value pd N v) as [m [Hm Ev]]. rewrite Ev, X.
    apply (He N m (fun c => scat_angle t0 (PI - ts) p0 ps (velem_a (snd c)))); [exact Hm|apply Hx].
  - intros t0 p0 ts ps. rewrite X. apply (HB (fun c => scat_angle t0 (PI - ts) p0 ps (velem_a (snd c)))). apply Hx.
  - intros t1 p1 ts x. eapply continuous_ext; [intros; symmetry; apply X|]. 
    apply (sumR_cont (fun c ps => pnum pd (fst c) * velem_x pd (snd c) (scat_angle t1 (PI - ts) p1 ps (velem_a (snd c))))).
    intros [w el] Hc. pose proof (proj2 (H w el Hc)) as Ha. cbn [fst snd]. apply contM; [apply contC|].
    apply (phase_cont (velem_x pd el) (velem_a el) t1 p1 ts x); [apply (v_adm_weights pd), Ha|apply v_inside, Ha].
Qed.
Lemma s_close pd s : s_ok pd s -> proper_lobes s -> exists e B, is_lim_seq e 0 /\
  (forall N, within (e N) (S_value (s_obj pd N s)) (exact_brdf pd s)) /\ bounded_by B (exact_brdf pd s) /\
  (forall ts t2 p2 x, continuous (fun ps => exact_brdf pd s ts ps t2 p2) x).
Proof.
  intros H HL.
  assert (X : forall ts ps tx px, exact_brdf pd s ts ps tx px =
    sumR (map (fun c => pnum pd (fst c) * selem_x pd (snd c) (scat_angle ts tx ps px (selem_a (snd c)))) (s_elems s))).
  { intros. unfold exact_brdf. rewrite <- sfun_value by exact H. apply sfun_sumR. }
  assert (E : forall c, In c (s_elems s) -> expandable (fun c => selem_coefs pd (snd c)) (fun c => selem_x pd (snd c)) (fun c N => selem_ncoefs N (snd c)) c).
  { intros [w e] Hc. refine (s_expandable pd e (proj2 (H w e Hc)) _). intros i a ->. apply (HL w i a Hc). }
  assert (Hx : forall ts ps tx px c, In c (s_elems s) -> -1 <= scat_angle ts tx ps px (selem_a (snd c)) <= 1).
  { intros ts ps tx px [w e] Hc. apply scat_bound. exact (s_adm_weights pd e (proj2 (H w e Hc))). }
  destruct (sum_expands (fun c => pnum pd (fst c)) _ _ _ (s_elems s) E) as [e [Le He]].
  destruct (sum_bounded (fun c => pnum pd (fst c)) _ _ _ (s_elems s) E) as [B HB].
  exists e, B. split; [exact Le|]. split; [|split].
  - intros N ts ps tx px. destruct (s_obj_value pd N s) as [m [Hm Ev]]. rewrite Ev, X.
    apply (He N m (fun c => scat_angle ts tx ps px (selem_a (snd c)))); [exact Hm|apply Hx].
  - intros ts ps tx px. rewrite X. apply (HB (fun c => scat_angle ts tx ps px (selem_a (snd c)))). apply Hx.
  - intros ts t2 p2 x. eapply continuous_ext; [intros; symmetry; apply X|]. 
    apply (sumR_cont (fun c ps => pnum pd (fst c) * selem_x pd (snd c) (scat_angle ts t2 ps p2 (selem_a (snd c))))).
    intros [w el] Hc. pose proof (proj2 (H w el Hc)) as Ha. cbn [fst snd]. apply contM; [apply contC|].
    apply (brdf_cont (selem_x pd el) (selem_a el) ts t2 p2 x); [apply (s_adm_weights pd), Ha|apply s_inside, Ha].
Qed.
