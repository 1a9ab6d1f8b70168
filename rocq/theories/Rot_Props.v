(** C198: the phase functions scatter every photon exactly once, whatever the direction of incidence *)
From Coq Require Import Reals List Lra Lia Psatz String.
From Coquelicot Require Import Coquelicot.
From Verif Require Import Base RT_Model RT_Spec Sca_Model Sca_Spec Sca_Proofs Shp_Model Shp_Spec Shp_Proofs RTE_Proofs RTE2_Proofs
  Nrg_Spec Nrg_Proofs Nrg3_Proofs Nrg_Props Rot_Spec Rot_Proofs Rot2_Proofs.
Import ListNotations.
Local Open Scope R_scope.

(** any smooth function of the scattering angle, any weights in [-1, 1] *)
Theorem C198_total : forall g a t p, twice g -> unit_weights a ->
  is_sphere (fun th ph => g (scat_angle t th p ph a)) (2 * PI * RInt (fun x => g (stretch a t p * x)) (-1) 1).
Proof. intros. apply sphere_any; assumption. Qed.
Print Assumptions C198_total.

Lemma signs_unit a : signs a -> unit_weights a.
Proof.
  assert (Q : forall x, x ^ 2 = 1 -> Rabs x <= 1). { intros x H. rewrite <- pow2_abs in H. pose proof (Rabs_pos x). nra. }
  intros (A & B & C). repeat split; apply Q; assumption.
Qed.

(** weights 1 or -1: the total does not depend on the direction of incidence *)
Theorem C198_rotation : forall g a t p, twice g -> signs a ->
  is_sphere (fun th ph => g (scat_angle t th p ph a)) (2 * PI * RInt g (-1) 1).
Proof.
  intros g a t p Hg Ha. pose proof (sphere_any g a t p Hg (signs_unit a Ha)) as X. rewrite (stretch_one a t p Ha) in X.
  replace (RInt g (-1) 1) with (RInt (fun x => g (1 * x)) (-1) 1); [exact X|]. apply RInt_ext. intros. f_equal. ring.
Qed.
Print Assumptions C198_rotation.

Lemma velem_twice pd e : v_adm pd e -> twice (velem_x pd e).
Proof.
  destruct e as [a|q a|q a]; cbn [v_adm velem_x]; intros Ha; [exact twice_rayleigh| |]; destruct Ha as [Hq _]; apply has_num in Hq; [apply twice_hgV|apply twice_hgray]; exact Hq.
Qed.
Lemma velem_norm pd e : v_adm pd e -> 2 * PI * RInt (velem_x pd e) (-1) 1 = 1.
Proof.
  pose proof PI_RGT_0.
  assert (E : v_adm pd e -> is_RInt (velem_x pd e) (-1) 1 (/ (2 * PI))).
  { destruct e as [a|q a|q a]; cbn [v_adm velem_x]; intros Ha; [exact rayleigh_norm| |]; destruct Ha as [Hq _]; apply has_num in Hq; [apply hgV_norm|apply hgray_norm]; exact Hq. }
  intros Ha. rewrite (is_RInt_unique _ _ _ _ (E Ha)). field. lra.
Qed.
Lemma velem_weights pd e : v_adm pd e -> unit_weights (velem_a e).
Proof. destruct e; cbn; tauto. Qed.
Lemma fold_shift {A} (f : A -> R) cs acc : fold_left (fun s c => s + f c) cs acc = acc + fold_right (fun c s => f c + s) 0 cs.
Proof. revert acc. induction cs as [|c cs IH]; intros; simpl; [ring|]. rewrite IH. ring. Qed.
Lemma vfun_sum v pd t th p ph : vfun_func v pd t th p ph = fold_right (fun c s => velem_func pd (snd c) t th p ph * pnum pd (fst c) + s) 0 (v_elems v).
Proof.
  destruct v as [e|cs]; cbn [vfun_func v_elems fold_right].
  - cbn [fst snd]. unfold pnum, pval. ring.
  - rewrite (fold_shift (fun c => velem_func pd (snd c) t th p ph * pnum pd (fst c))). ring.
Qed.

(** every shipped phase function and every linear combination of them: the total is the sum of the weighting factors *)
Theorem C198_library : forall pd v t p, v_ok pd v -> all_signs v ->
  is_sphere (fun th ph => vfun_func v pd t th p ph) (fractions pd v).
Proof.
  intros pd v t p Ho Hs. eapply sphere_ext; [intros; symmetry; apply vfun_sum|]. unfold fractions, v_ok, all_signs in *.
  induction (v_elems v) as [|[w e] l IH]; [exact sphere_zero|].
  assert (Ie : v_adm pd e) by (apply (Ho w e); left; reflexivity).
  specialize (IH (fun w' e' H => Ho w' e' (or_intror H)) (fun w' e' H => Hs w' e' (or_intror H))).
  pose proof (C198_rotation (velem_x pd e) (velem_a e) t p (velem_twice pd e Ie) (Hs w e (or_introl eq_refl))) as X. rewrite (velem_norm pd e Ie) in X.
  pose proof (sphere_lin _ _ _ _ (pnum pd w) 1 X IH) as Y. cbn [fold_right fst]. replace (pnum pd w + fold_right (fun c s => pnum pd (fst c) + s) 0 l) with (pnum pd w * 1 + 1 * fold_right (fun c s => pnum pd (fst c) + s) 0 l) by ring.
  eapply sphere_ext; [|exact Y]. intros. cbv beta. cbn [fst snd]. unfold velem_func. ring.
Qed.
Print Assumptions C198_library.

(** a single one: the total is 1 *)
Theorem C198_normalised : forall pd e t p, v_adm pd e -> signs (velem_a e) -> is_sphere (fun th ph => velem_func pd e t th p ph) 1.
Proof.
  intros pd e t p Ha Hs. replace 1 with (fractions pd (VOne e)).
  - apply (C198_library pd (VOne e)).
    + intros w e' [E|[]]. injection E as <- <-. split; [exists 1; split; [reflexivity|exact I]|exact Ha].
    + intros w e' [E|[]]. injection E as <- <-. exact Hs.
  - unfold fractions. cbn. unfold pnum, pval. ring.
Qed.
Print Assumptions C198_normalised.

(** other weights: the total of the Rayleigh phase function, which is 1 only if the length of the weighted direction is *)
Theorem C198_other_weights : forall a t p, unit_weights a ->
  is_sphere (fun th ph => rayleigh_func (scat_angle t th p ph a)) (3 / 4 + stretch a t p ^ 2 / 4) /\
  (forall s, is_sphere (fun th ph => rayleigh_func (scat_angle t th p ph a)) s -> (s = 1 <-> stretch a t p = 1)).
Proof.
  intros a t p Ha. pose proof PI_RGT_0 as HP.
  assert (X : is_sphere (fun th ph => rayleigh_func (scat_angle t th p ph a)) (3 / 4 + stretch a t p ^ 2 / 4)).
  { replace (3 / 4 + stretch a t p ^ 2 / 4) with (2 * PI * RInt (fun x => rayleigh_func (stretch a t p * x)) (-1) 1); [apply sphere_any; [exact twice_rayleigh|exact Ha]|].
    set (k := stretch a t p). set (F := fun x => 3 / (16 * PI) * (x + k ^ 2 * x ^ 3 / 3)).
    assert (I : is_RInt (fun x => rayleigh_func (k * x)) (-1) 1 (minus (F 1) (F (-1)))).
    { apply (is_RInt_derive F).
      - intros x _. unfold F, rayleigh_func. auto_derive; [exact I|]. field. lra.
      - intros x _. unfold rayleigh_func. apply (ex_derive_continuous (fun x => 3 / (16 * PI) * (1 + (k * x) ^ 2))). auto_derive. exact I. }
    rewrite (is_RInt_unique _ _ _ _ I). unfold minus, plus, opp, F; simpl. field. lra. }
  split; [exact X|]. intros s Hs. rewrite (sphere_unique _ _ _ Hs X). pose proof (stretch_le a t p Ha). split; intros; nra.
Qed.
Print Assumptions C198_other_weights.

(** what goes up and what goes down add up to the total *)
Theorem C198_halves : forall f s u d, is_sphere f s -> is_hemi f u -> is_hemi (fun th => f (PI - th)) d -> u + d = s.
Proof.
  intros f s u d [_ S] [_ U] [_ Dn]. set (h := fun mu => RInt (f (acos mu)) 0 (2 * PI)) in *.
  assert (D0 : is_RInt h (-1) 0 d).
  { assert (E : is_RInt (fun mu => h (- mu)) 0 1 d).
    { eapply is_RInt_ext; [|exact Dn]. intros mu Hm. rewrite Rmin_left, Rmax_right in Hm by lra. unfold h. apply RInt_ext. intros. rewrite acos_opp. reflexivity. }
    assert (Y : is_RInt (fun y => opp (h (- - y))) 0 (-1) d).
    { apply (is_RInt_comp_opp (V := R_NormedModule) (fun mu => h (- mu)) 0 (-1)). rewrite Ropp_0. replace (- (-1)) with 1 by ring. exact E. }
    apply is_RInt_swap in Y. apply is_RInt_opp in Y. rewrite opp_opp in Y. eapply is_RInt_ext; [|exact Y].
    intros mu _. cbv beta. rewrite opp_opp, Ropp_involutive. reflexivity. }
  pose proof (is_RInt_Chasles (V := R_NormedModule) h (-1) 0 1 _ _ D0 U) as Y. unfold plus in Y; simpl in Y.
  rewrite (is_RInt_uniqueR _ _ _ _ _ S Y). ring.
Qed.
Print Assumptions C198_halves.

(** ** hence no radiation is created: exact phase functions, first order *)
Lemma scat_cd t p a : continuous_dir (fun th ph => scat_angle t th p ph a).
Proof. destruct (sep_scat a) as (l & G & E). apply (cd_ext (fun th ph => sum_of_products l t p th ph)); [intros; symmetry; apply E|apply sum_cd_r; exact G]. Qed.
Lemma comp_cd g (x : R -> R -> R) : (forall y, -1 <= y <= 1 -> continuous g y) -> (forall th ph, -1 <= x th ph <= 1) -> continuous_dir x ->
  continuous_dir (fun th ph => g (x th ph)).
Proof.
  intros Cg B Cx. apply (cd_ext (fun th ph => g (clamp (-1) 1 (x th ph)))); [intros; rewrite clamp_id by apply B; reflexivity|]. intros m ph.
  apply (continuity_1d_2d_pt_comp (fun y => g (clamp (-1) 1 y)) (fun m ph => x (acos (Rmax 0 (Rmin 1 m))) ph)); [|apply Cx].
  apply continuity_pt_filterlim. apply (continuous_comp (clamp (-1) 1) g); [apply cl_cont|]. apply Cg. apply clamp_in. lra.
Qed.
Lemma vfun_cd (x : R -> R -> avec -> R) pd v : v_ok pd v -> (forall th ph a, unit_weights a -> -1 <= x th ph a <= 1) -> (forall a, continuous_dir (fun th ph => x th ph a)) ->
  continuous_dir (fun th ph => fold_right (fun c s => velem_x pd (snd c) (x th ph (velem_a (snd c))) * pnum pd (fst c) + s) 0 (v_elems v)).
Proof.
  intros Ho B Cx. unfold v_ok in Ho. induction (v_elems v) as [|[w e] l IH]; [exact (cd_const 0)|]. cbn [fold_right fst snd].
  assert (Ie : v_adm pd e) by (apply (Ho w e); left; reflexivity).
  apply (cd_plus (fun th ph => velem_x pd e (x th ph (velem_a e)) * pnum pd w)); [|apply IH; intros; apply (Ho w0); right; assumption].
  apply (cd_mult (fun th ph => velem_x pd e (x th ph (velem_a e))) (fun _ _ => pnum pd w)); [|exact (cd_const _)].
  apply (comp_cd (velem_x pd e) (fun th ph => x th ph (velem_a e))); [|intros; apply B; eapply velem_weights; exact Ie|apply Cx].
  intros y Hy. apply twice_cont; [apply velem_twice; exact Ie|exact Hy].
Qed.
Lemma vfun_up_cd pd v t p : v_ok pd v -> continuous_dir (fun th ph => vfun_func v pd t th p ph).
Proof.
  intros Ho. eapply cd_ext; [intros; symmetry; apply vfun_sum|]. apply (vfun_cd (fun th ph a => scat_angle t th p ph a) pd v Ho); [intros; apply scat_b; assumption|].
  intros. apply scat_cd.
Qed.
Lemma vfun_down_cd pd v t p : v_ok pd v -> continuous_dir (fun th ph => vfun_func v pd t (PI - th) p ph).
Proof.
  intros Ho. eapply cd_ext; [intros; symmetry; apply vfun_sum|]. apply (vfun_cd (fun th ph a => scat_angle t (PI - th) p ph a) pd v Ho); [intros; apply scat_b; assumption|].
  intros a. apply (cd_ext (fun th ph => scat_angle t th p ph (A3 (- a0 a) (a1 a) (a2 a)))); [|apply scat_cd].
  intros. unfold scat_angle. cbn [a0 a1 a2]. rewrite Rtrigo_facts.cos_pi_minus, Rtrigo_facts.sin_pi_minus. ring.
Qed.

(** the part that a layer of a shipped phase function scatters upwards and the part it scatters downwards *)
Theorem C198_up_and_down : forall pd v t p, v_ok pd v -> v_weights pd v -> all_signs v -> exists u d,
  is_hemi (fun th ph => vfun_func v pd t th p ph) u /\ is_hemi (fun th ph => vfun_func v pd t (PI - th) p ph) d /\
  0 <= u /\ 0 <= d /\ u + d = fractions pd v.
Proof.
  intros pd v t p Ho Hw Hs. pose proof (vfun_up_cd pd v t p Ho) as Cu. pose proof (vfun_down_cd pd v t p Ho) as Cd.
  exists (Nrg_Proofs.H (fun th ph => vfun_func v pd t th p ph)), (Nrg_Proofs.H (fun th ph => vfun_func v pd t (PI - th) p ph)).
  pose proof (hemi_H _ Cu) as U. pose proof (hemi_H _ Cd) as D. split; [exact U|]. split; [exact D|].
  split; [apply H_pos; [exact Cu|]; intros; left; apply vfun_pos; assumption|]. split; [apply H_pos; [exact Cd|]; intros; left; apply vfun_pos; assumption|].
  apply (C198_halves (fun th ph => vfun_func v pd t th p ph)); [apply C198_library; assumption|exact U|exact D].
Qed.
Print Assumptions C198_up_and_down.

(** no more radiation leaves the scene than arrives, for every incidence direction: layer with a shipped phase function
    whose weighting factors add up to at most 1, single scattering albedo at most 1, any surface that reflects at most
    what it receives *)
Theorem C198_energy : forall o e r v, physical o -> omega (V o) <= 1 -> V o = mkVolume (tau (V o)) (omega (V o)) v ->
  v_ok (param_dict o) v -> v_weights (param_dict o) v -> all_signs v -> fractions (param_dict o) v <= 1 ->
  (forall th ph, 0 <= brdf (SRF o) (param_dict o) (t_0 o) th (p_0 o) ph) ->
  leaves o e -> reflects o r -> NormBRDF (SRF o) * r <= 1 -> e <= arrives o.
Proof.
  intros o e r v Hp Hom Ev Ho Hw Hs Hf Hb He Hr Hr1. destruct (C198_up_and_down (param_dict o) v (t_0 o) (p_0 o) Ho Hw Hs) as (u & d & U & D & Pu & Pd & E).
  assert (Hu : scatters_up o u). { unfold scatters_up. rewrite Ev. exact U. }
  pose proof (C196_conserved o e r u 1 Hp) as X. rewrite Rmult_1_r in X. apply X; try assumption.
  - intros th ph. split; [apply Hb|]. rewrite Ev. left. apply vfun_pos; assumption.
  - destruct Hp as (_ & _ & _ & _ & Om & _). nra.
Qed.
Print Assumptions C198_energy.

(** a mixture of forward and backward scattering Henyey-Greenstein functions and Rayleigh scattering *)
Definition mixture : vfun :=
  VLin [(Num (1 / 2), VHG (Sym "t") (A3 (-1) 1 1)); (Num (1 / 4), VHGR (Num (- (1 / 3))) (A3 1 1 1)); (Num (1 / 4), VRay (A3 (-1) (-1) 1))].
Lemma mixture_ok : let pd := [("t"%string, 7 / 10)] in v_ok pd mixture /\ v_weights pd mixture /\ all_signs mixture /\ fractions pd mixture = 1.
Proof.
  cbv zeta. split; [|split; [|split]].
  - intros w e [E|[E|[E|[]]]]; injection E as <- <-; (split; [eexists; split; [reflexivity|exact I]|]); cbn [v_adm]; try split;
      try (eexists; split; [reflexivity|]; unfold asym; lra); unfold unit_weights; cbn [a0 a1 a2]; repeat split; apply Rabs_le; lra.
  - split.
    + intros w e [E|[E|[E|[]]]]; injection E as <- <-; eexists; (split; [reflexivity|]); unfold nonneg; lra.
    + exists (Num (1 / 2)). eexists. split; [left; reflexivity|]. eexists; split; [reflexivity|]; unfold positive; lra.
  - intros w e [E|[E|[E|[]]]]; injection E as <- <-; unfold signs; cbn [velem_a a0 a1 a2]; repeat split; ring.
  - unfold fractions. cbn. unfold pnum, pval. lra.
Qed.
Example C198_example : is_sphere (fun th ph => vfun_func mixture [("t"%string, 7 / 10)] (PI / 3) th (PI / 5) ph) 1 /\
  ~ is_sphere (fun th ph => rayleigh_func (scat_angle 0 th 0 ph (A3 (1 / 2) 1 1))) 1.
Proof.
  destruct mixture_ok as (A & B & C & D). split; [rewrite <- D; apply C198_library; assumption|].
  intros X. assert (U : unit_weights (A3 (1 / 2) 1 1)) by (repeat split; cbn [a0 a1 a2]; apply Rabs_le; lra).
  apply (proj2 (C198_other_weights (A3 (1 / 2) 1 1) 0 0 U)) in X. assert (E : stretch (A3 (1 / 2) 1 1) 0 0 = 1) by (apply X; reflexivity).
  unfold stretch in E. cbn [a0 a1 a2] in E. rewrite cos_0, sin_0 in E. assert (F : sqrt ((1 / 2 * 1) ^ 2 + (1 * (0 * 1)) ^ 2 + (1 * (0 * 0)) ^ 2) = 1 / 2).
  { replace ((1 / 2 * 1) ^ 2 + (1 * (0 * 1)) ^ 2 + (1 * (0 * 0)) ^ 2) with ((1 / 2) ^ 2) by field. rewrite <- Rsqr_pow2. apply sqrt_Rsqr. lra. }
  lra.
Qed.
Example C198_example_energy : exists o e, physical o /\ V o = mkVolume (1 / 2) (9 / 10) mixture /\ leaves o e /\ e <= arrives o.
Proof.
  set (o := mkRT 1 "fvfv" (PI / 3) 0 0 0 (mkVolume (1 / 2) (9 / 10) mixture) (mkSRF 1 (fun _ _ _ _ _ => 1 / PI)) (1 / 10) [("t"%string, 7 / 10)] 10 None None).
  assert (Hp : physical o). { pose proof cos_PI3. unfold physical, o, t_0; simpl. repeat split; lra. }
  destruct mixture_ok as (A & B & C & D). pose proof PI_RGT_0.
  destruct (C196_exists o Hp) as (e & r & u & He & _); [simpl; lra|exact (cd_const (1 / PI))|apply (vfun_up_cd [("t"%string, 7 / 10)] mixture); exact A|].
  exists o, e. split; [exact Hp|]. split; [reflexivity|]. split; [exact He|].
  apply (C198_energy o e 1 mixture Hp); try assumption; try reflexivity.
  - simpl; lra.
  - change (fractions [("t"%string, 7 / 10)] mixture <= 1). lra.
  - intros. simpl. left. apply Rdiv_lt_0_compat; lra.
  - exact lambert_one.
  - simpl. lra.
Qed.
