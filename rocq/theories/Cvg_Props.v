(** Property theorems for the number of Legendre coefficients (C141-C143) and the series of the
    cosine lobes (C70). *)
From Coq Require Import Reals List String Lra Lia.
From Coquelicot Require Import Coquelicot.
From Verif Require Import Base RT_Model Sca_Model Sca_Spec Sca_Proofs Sca3_Proofs Int_Model Int_Spec Int2_Proofs Int_Props
  Shp_Model Shp_Spec Shp_Props Cvg_Model Cvg_Spec Cvg_Proofs Cvg2_Proofs Cvg3_Proofs Cvg4_Proofs.
Import ListNotations.
Local Open Scope R_scope.

(** ** C70: the series of a cosine lobe converges to the lobe, uniformly *)
Theorem C70_coslobe_series : forall i, (1 <= i)%nat ->
  exists tail, vanishing tail /\ expands (coslobe_coefs i) (coslobe_func i) tail.
Proof.
  intros i Hi. exists (abs_tail (coslobe_coefs i)). split; [apply abs_tail_vanishing, coslobe_summable, Hi|].
  apply expands_abs; [apply coslobe_summable, Hi|]. intros x Hx. apply coslobe_complete; assumption.
Qed.
Print Assumptions C70_coslobe_series.

Example C70_series_example : (1 <= 5)%nat /\ coslobe_func 5 1 = / PI.
Proof.
  split; [lia|]. unfold coslobe_func, sgn. destruct (Rlt_dec 0 1) as [_|N]; [|lra]. pose proof PI_pos. field. lra.
Qed.

(** ** C141: error of the interaction term caused by expansions of finite length *)
Theorem C141_error : forall expi expn V S p f eV eS BV BS I0 omega tau NormBRDF bsf t_0 p_0 t_ex p_ex,
  is_expi expi -> is_expn expn -> bounded_obj V -> bounded_obj S ->
  azimuth_integrable p f -> within eV (V_value V) p -> within eS (S_value S) f -> bounded_by BV p -> bounded_by BS f ->
  0 < tau -> 0 < cos t_0 < 1 -> 0 < cos t_ex < 1 ->
  exists v, interaction expi expn V S all_variable I0 omega tau NormBRDF bsf t_0 p_0 t_ex p_ex = Ok (Fin v) /\
    forall w, is_interaction p f I0 omega tau NormBRDF bsf t_0 p_0 t_ex p_ex w ->
      Rabs (v - w) <= strength I0 omega tau NormBRDF bsf t_0 t_ex * (PI / tau) * (eV * (BS + eS) + BV * eS).
Proof.
  intros expi expn V S p f eV eS BV BS I0 omega tau NormBRDF bsf t_0 p_0 t_ex p_ex He Hn HV HS Hpf WV WS B1 B2 Ht H0 H1.
  destruct (C74_interaction expi expn V S I0 omega tau NormBRDF bsf t_0 p_0 t_ex p_ex He Hn HV HS Ht H0 H1) as [v [E Iv]].
  exists v. split; [exact E|]. intros w Hw.
  exact (interaction_error V S p f eV eS BV BS I0 omega tau NormBRDF bsf t_0 p_0 t_ex p_ex v w HV HS Hpf WV WS B1 B2 Ht H0 H1 Iv Hw).
Qed.
Print Assumptions C141_error.

(** if the expansions approach the functions, the interaction term of the functions exists and the
    computed terms approach it *)
Theorem C141_limit : forall expi expn (V S : nat -> sobj) p f (eV eS : nat -> R) BV BS I0 omega tau NormBRDF bsf t_0 p_0 t_ex p_ex,
  is_expi expi -> is_expn expn -> (forall n, bounded_obj (V n)) -> (forall n, bounded_obj (S n)) ->
  azimuth_integrable p f -> (forall n, within (eV n) (V_value (V n)) p) -> (forall n, within (eS n) (S_value (S n)) f) ->
  is_lim_seq eV 0 -> is_lim_seq eS 0 -> bounded_by BV p -> bounded_by BS f ->
  0 < tau -> 0 < cos t_0 < 1 -> 0 < cos t_ex < 1 ->
  exists (v : nat -> R) w,
    (forall n, interaction expi expn (V n) (S n) all_variable I0 omega tau NormBRDF bsf t_0 p_0 t_ex p_ex = Ok (Fin (v n))) /\
    is_interaction p f I0 omega tau NormBRDF bsf t_0 p_0 t_ex p_ex w /\ is_lim_seq v w.
Proof.
  intros expi expn V S p f eV eS BV BS I0 omega tau NormBRDF bsf t_0 p_0 t_ex p_ex He Hn HV HS Hpf WV WS LV LS B1 B2 Ht H0 H1.
  set (q := fun n => C74_interaction expi expn (V n) (S n) I0 omega tau NormBRDF bsf t_0 p_0 t_ex p_ex He Hn (HV n) (HS n) Ht H0 H1).
  set (v := fun n => match interaction expi expn (V n) (S n) all_variable I0 omega tau NormBRDF bsf t_0 p_0 t_ex p_ex with
                     | Ok (Fin x) => x | _ => 0 end).
  assert (E : forall n, interaction expi expn (V n) (S n) all_variable I0 omega tau NormBRDF bsf t_0 p_0 t_ex p_ex = Ok (Fin (v n)) /\
                        is_interaction (V_value (V n)) (S_value (S n)) I0 omega tau NormBRDF bsf t_0 p_0 t_ex p_ex (v n)).
  { intros n. destruct (q n) as [x [Ex Ix]]. unfold v. rewrite Ex. split; [reflexivity|exact Ix]. }
  destruct (interaction_exact_limit V S p f eV eS BV BS I0 omega tau NormBRDF bsf t_0 p_0 t_ex p_ex v HV HS Hpf WV WS LV LS B1 B2 Ht H0 H1
              (fun n => proj2 (E n))) as [w [Iw Lw]].
  exists v, w. split; [intros n; apply E|]. split; assumption.
Qed.
Print Assumptions C141_limit.

(** there is only one such value *)
Theorem C141_unique : forall p f I0 omega tau NormBRDF bsf t_0 p_0 t_ex p_ex w w',
  is_interaction p f I0 omega tau NormBRDF bsf t_0 p_0 t_ex p_ex w ->
  is_interaction p f I0 omega tau NormBRDF bsf t_0 p_0 t_ex p_ex w' -> w = w'.
Proof.
  intros p f I0 omega tau NormBRDF bsf t_0 p_0 t_ex p_ex w w' [F1 [F2 [A [B ->]]]] [G1 [G2 [C [D ->]]]].
  assert (F1 = G1) as -> by (rewrite <- (is_RInt_unique _ _ _ _ A), <- (is_RInt_unique _ _ _ _ C); reflexivity).
  assert (F2 = G2) as -> by (rewrite <- (is_RInt_unique _ _ _ _ B), <- (is_RInt_unique _ _ _ _ D); reflexivity).
  reflexivity.
Qed.
Print Assumptions C141_unique.

(** HG layer with 10 coefficients: the hypotheses on the phase function *)
Example C141_example : within (/ (4 * PI) * hg_tail (1 / 2) 10) (V_value (plain_obj 10 (hgV_coefs (1 / 2)) (A3 (-1) 1 1)))
    (phase (hgV_func (1 / 2)) (A3 (-1) 1 1)) /\
  bounded_by (/ (4 * PI) * hg_tail (1 / 2) 0) (phase (hgV_func (1 / 2)) (A3 (-1) 1 1)).
Proof.
  assert (Ha : unit_weights (A3 (-1) 1 1)) by (unfold unit_weights; simpl; repeat split; unfold Rabs; destruct (Rcase_abs _); lra).
  assert (E : expands (hgV_coefs (1 / 2)) (hgV_func (1 / 2)) (fun N => / (4 * PI) * hg_tail (1 / 2) N)) by (apply expands_hgV; lra).
  split; [exact (phase_within 10 _ _ (fun N => / (4 * PI) * hg_tail (1 / 2) N) _ Ha E)|].
  apply phase_bounded; [exact Ha|]. intros x Hx. exact (expands_total _ _ _ x E Hx).
Qed.

(** ** C142: rates *)
(** the tail really is the sum of the missing (2n+1) |t|^n *)
Theorem C142_tail : forall t N, -1 < t < 1 ->
  is_series (fun n => (2 * INR (N + n) + 1) * Rabs t ^ (N + n)) (hg_tail t N) /\
  hg_tail t 0 = hg_total t /\ vanishing (hg_tail t).
Proof.
  intros t N Ht. pose proof (abs_lt_1 t Ht) as H. split; [|split].
  - pose proof (proj1 (is_lim_seq_incr_n (hg_tail t) (S N) 0) (hg_tail_lim t H)) as L.
    assert (K : is_lim_seq (fun n => hg_tail t N - hg_tail t (n + S N)) (hg_tail t N)).
    { replace (Finite (hg_tail t N)) with (Finite (hg_tail t N - 0)) by (f_equal; ring).
      apply is_lim_seq_minus'; [apply is_lim_seq_const|exact L]. }
    unfold is_series. eapply filterlim_ext; [|exact K]. intros n. cbv beta. induction n as [|n IH].
    + rewrite sum_O. rewrite Nat.add_0_r, Nat.add_0_l. rewrite (hg_tail_step t N H).
      match goal with |- ?a = ?b => change (@eq R a b) end. ring.
    + rewrite sum_Sn, <- IH.
      replace (N + S n)%nat with (n + S N)%nat by lia.
      rewrite (hg_tail_step t (n + S N) H). replace (S n + S N)%nat with (S (n + S N)) by lia. 
      match goal with |- ?a = ?b => change (@eq R a b) end. unfold plus; simpl. ring.
  - apply hg_tail_0.
  - split; [intros n; apply hg_tail_anti, H|apply hg_tail_lim, H].
Qed.
Print Assumptions C142_tail.

(** expansions of the shipped peaked functions: error at most the tail, for every angle *)
Theorem C142_rates : forall t a, -1 < t < 1 ->
  expands (hgV_coefs t) (hgV_func t) (fun N => / (4 * PI) * hg_tail t N) /\
  expands (hgS_coefs t) (hgS_func t) (fun N => / PI * hg_tail t N) /\
  expands (hgnadir_coefs t a) (hgnadir_func t a) (fun N => Rabs (/ (nadir_hemreflect t a * PI)) * hg_tail t N) /\
  expands (hgray_coefs t) (hgray_func t) (fun N => 15 / (16 * PI) * hg_tail (Rmax (Rabs t) (/ 2)) N).
Proof.
  intros t a Ht. split; [apply expands_hgV, Ht|]. split; [apply expands_hgS, Ht|]. split; [apply expands_nadir, Ht|].
  apply expands_hgray, Ht.
Qed.
Print Assumptions C142_rates.

(** Henyey-Greenstein layer over a Henyey-Greenstein surface: what [ncoefs] means for the result *)
Theorem C142_hg_over_hg : forall expi expn t g a b N M I0 omega tau NormBRDF bsf t_0 p_0 t_ex p_ex,
  is_expi expi -> is_expn expn -> -1 < t < 1 -> -1 < g < 1 -> unit_weights a -> unit_weights b ->
  (1 <= N)%nat -> (1 <= M)%nat -> 0 < tau -> 0 < cos t_0 < 1 -> 0 < cos t_ex < 1 ->
  exists v w,
    interaction expi expn (plain_obj N (hgV_coefs t) a) (plain_obj M (hgS_coefs g) b) all_variable
      I0 omega tau NormBRDF bsf t_0 p_0 t_ex p_ex = Ok (Fin v) /\
    is_interaction (phase (hgV_func t) a) (brdf (hgS_func g) b) I0 omega tau NormBRDF bsf t_0 p_0 t_ex p_ex w /\
    Rabs (v - w) <= strength I0 omega tau NormBRDF bsf t_0 t_ex / (4 * PI * tau) *
      (hg_tail t N * (hg_total g + hg_tail g M) + hg_total t * hg_tail g M).
Proof.
  intros expi expn t g a b N M I0 omega tau NormBRDF bsf t_0 p_0 t_ex p_ex He Hn Ht Hg Ha Hb HN HM Htau H0 H1.
  destruct (C142_rates t a Ht) as [Et _]. destruct (C142_rates g b Hg) as [_ [Eg _]].
  pose proof PI_pos as Pp.
  assert (B1 : bounded_by (/ (4 * PI) * hg_total t) (phase (hgV_func t) a)).
  { apply phase_bounded; [exact Ha|]. intros x Hx. rewrite <- hg_tail_0. exact (expands_total _ _ _ x Et Hx). }
  assert (B2 : bounded_by (/ PI * hg_total g) (brdf (hgS_func g) b)).
  { apply brdf_bounded; [exact Hb|]. intros x Hx. rewrite <- hg_tail_0. exact (expands_total _ _ _ x Eg Hx). }
  assert (CI : azimuth_integrable (phase (hgV_func t) a) (brdf (hgS_func g) b)).
  { apply azimuth_continuous; intros.
    - apply phase_cont; [exact Ha|]. intros y Hy. apply hgV_cont; assumption.
    - apply brdf_cont; [exact Hb|]. intros y Hy. apply Hem2_Proofs.hgS_cont; assumption. }
  destruct (C141_error expi expn (plain_obj N (hgV_coefs t) a) (plain_obj M (hgS_coefs g) b) (phase (hgV_func t) a) (brdf (hgS_func g) b)
    (/ (4 * PI) * hg_tail t N) (/ PI * hg_tail g M) _ _ I0 omega tau NormBRDF bsf t_0 p_0 t_ex p_ex He Hn
    (plain_bounded _ _ _ HN) (plain_bounded _ _ _ HM) CI (phase_within N _ _ (fun N => / (4 * PI) * hg_tail t N) a Ha Et) (brdf_within M _ _ (fun M => / PI * hg_tail g M) b Hb Eg) B1 B2 Htau H0 H1)
    as [v [Ev Bv]].
  destruct (C141_limit expi expn (fun n => plain_obj (S n) (hgV_coefs t) a) (fun n => plain_obj (S n) (hgS_coefs g) b)
    (phase (hgV_func t) a) (brdf (hgS_func g) b) (fun n => / (4 * PI) * hg_tail t (S n)) (fun n => / PI * hg_tail g (S n)) (/ (4 * PI) * hg_total t) (/ PI * hg_total g)
    I0 omega tau NormBRDF bsf t_0 p_0 t_ex p_ex He Hn) as [_ [w [_ [Iw _]]]]; [..|exact B1|exact B2|exact Htau|exact H0|exact H1|].
  - intros n. apply plain_bounded. lia.
  - intros n. apply plain_bounded. lia.
  - exact CI.
  - intros n. exact (phase_within (S n) _ _ (fun N => / (4 * PI) * hg_tail t N) a Ha Et).
  - intros n. exact (brdf_within (S n) _ _ (fun M => / PI * hg_tail g M) b Hb Eg).
  - apply (is_lim_seq_incr_1 (fun n => / (4 * PI) * hg_tail t n)).
    apply (proj2 (hg_vanishing (/ (4 * PI)) t (Rlt_le _ _ (Rinv_0_lt_compat (4 * PI) ltac:(lra))) (abs_lt_1 t Ht))).
  - apply (is_lim_seq_incr_1 (fun n => / PI * hg_tail g n)).
    apply (proj2 (hg_vanishing (/ PI) g (Rlt_le _ _ (Rinv_0_lt_compat PI Pp)) (abs_lt_1 g Hg))).
  - exists v, w. split; [exact Ev|]. split; [exact Iw|]. eapply Rle_trans; [apply (Bv w Iw)|]. apply Req_le. field. split; lra.
Qed.
Print Assumptions C142_hg_over_hg.

(** 10 coefficients, t = 0.5: the tail is below 1 percent of the total *)
Example C142_example : -1 < 1 / 2 < 1 /\ hg_tail (1 / 2) 10 = 23 / 512 /\ hg_total (1 / 2) = 6 /\ unit_weights (A3 (-1) 1 1).
Proof.
  assert (E : Rabs (1 / 2) = / 2) by (rewrite Rabs_right; lra).
  split; [lra|]. split; [|split].
  - unfold hg_tail. rewrite E. simpl. field.
  - unfold hg_total. rewrite E. field.
  - unfold unit_weights; simpl. repeat split; rewrite ?Rabs_R1, ?Rabs_Ropp, ?Rabs_R1; try lra; unfold Rabs; destruct (Rcase_abs _); lra.
Qed.

(** ** C143: more coefficients lead to the exact interaction term, for everything that is shipped *)
Theorem C143_converges : forall expi expn pd v s I0 omega tau NormBRDF bsf t_0 p_0 t_ex p_ex,
  is_expi expi -> is_expn expn -> v_ok pd v -> s_ok pd s -> proper_lobes s -> v_elems v <> [] -> s_elems s <> [] ->
  0 < tau -> 0 < cos t_0 < 1 -> 0 < cos t_ex < 1 ->
  exists (x : nat -> R) w,
    (forall N, (1 <= N)%nat -> interaction expi expn (v_obj pd N v) (s_obj pd N s) all_variable
       I0 omega tau NormBRDF bsf t_0 p_0 t_ex p_ex = Ok (Fin (x N))) /\
    is_interaction (exact_phase pd v) (exact_brdf pd s) I0 omega tau NormBRDF bsf t_0 p_0 t_ex p_ex w /\ is_lim_seq x w.
Proof.
  intros expi expn pd v s I0 omega tau NormBRDF bsf t_0 p_0 t_ex p_ex He Hn Hv Hs HL Nv Ns Ht H0 H1.
  destruct (v_close pd v Hv) as [eV [BV [LV [WV [B1 C1]]]]]. destruct (s_close pd s Hs HL) as [eS [BS [LS [WS [B2 C2]]]]].
  destruct (C141_limit expi expn (fun n => v_obj pd (S n) v) (fun n => s_obj pd (S n) s) (exact_phase pd v) (exact_brdf pd s)
    (fun n => eV (S n)) (fun n => eS (S n)) BV BS I0 omega tau NormBRDF bsf t_0 p_0 t_ex p_ex He Hn) as [x [w [Ex [Iw Lw]]]];
    [..|exact B1|exact B2|exact Ht|exact H0|exact H1|].
  - intros n. apply v_obj_bounded; [exact Nv|lia].
  - intros n. apply s_obj_bounded; [exact Ns|lia].
  - apply azimuth_continuous; assumption.
  - intros n. apply WV.
  - intros n. apply WS.
  - apply (is_lim_seq_incr_1 eV), LV.
  - apply (is_lim_seq_incr_1 eS), LS.
  - exists (fun N => x (pred N)), w. split; [|split; [exact Iw|]].
    + intros [|N] HN; [lia|]. apply Ex.
    + apply (is_lim_seq_incr_1 (fun N => x (pred N))). exact Lw.
Qed.
Print Assumptions C143_converges.

(** HG + Rayleigh layer over a surface with a cosine lobe and a HG peak whose asymmetry is a symbol *)
Example C143_example : v_ok (("g"%string, 1/3) :: nil) ex_v /\ s_ok (("g"%string, 1/3) :: nil) ex_s /\ proper_lobes ex_s /\
  v_elems ex_v <> [] /\ s_elems ex_s <> [].
Proof.
  split; [apply (proj1 ex_v_ok)|]. split; [apply (proj1 ex_s_ok)|]. split; [|split; discriminate].
  intros w i a H. simpl in H. destruct H as [H|[H|[]]]; [discriminate|]. injection H as _ <- _. lia.
Qed.
