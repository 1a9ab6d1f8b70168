(** C215, C216: slopes, curvatures and the jacobian of RT1 objects with arrays. *)
From Coq Require Import Reals List Bool Arith String Lia Lra.
From Coquelicot Require Import Coquelicot.
From Verif Require Import Base Base_Proofs RT_Model Arr_Model Arr_Spec Arr_Proofs Arr_Props Ars_Model Ars_Spec.
Import ListNotations.
Local Open Scope R_scope.

(** ** the azimuth *)
Lemma indices_iff : forall s ix, In ix (indices s) <-> index_in ix s.
Proof.
  induction s as [|n s IH]; intros ix; cbn [indices].
  - split; [intros [<-|[]]; constructor|intros H; inversion H; now left].
  - rewrite in_flat_map. split.
    + intros (i & Hi & H). apply in_map_iff in H. destruct H as (jx & <- & H). apply in_seq in Hi. constructor; [lia|now apply IH].
    + intros H. inversion H as [|i ? jx ? Hi Hj]; subst. exists i. split; [apply in_seq; lia|]. apply in_map, IH, Hj.
Qed.
(** the condition on the azimuth: all its elements have the same value *)
Theorem C215_azimuth : forall a v, unique a = Some v <-> single a v.
Proof.
  intros a v. unfold unique, single. destruct (indices (shape a)) as [|i l] eqn:E.
  - cbn. split; [discriminate|]. intros [[ix H] _]. apply indices_iff in H. rewrite E in H. destruct H.
  - cbn [map]. assert (I : forall ix, index_in ix (shape a) <-> ix = i \/ In ix l). { intros ix. rewrite <- indices_iff, E. cbn [In]. intuition. }
    destruct (forallb _ (map (data a) l)) eqn:F.
    + rewrite forallb_forall in F. split.
      * intros H. inversion H as [H0]. split; [exists i; apply I; now left|]. intros ix Hx. apply I in Hx. destruct Hx as [->|Hx]; [reflexivity|]. specialize (F (data a ix) (in_map _ _ _ Hx)). destruct (Req_EM_T (data a ix) (data a i)); congruence.
      * intros [_ H]. f_equal. apply H, I. now left.
    + split; [discriminate|]. intros [_ H]. exfalso. assert (F' : forallb (fun w => if Req_EM_T w (data a i) then true else false) (map (data a) l) = true); [|congruence].
      apply forallb_forall. intros w Hw. apply in_map_iff in Hw. destruct Hw as (ix & <- & Hx). rewrite (H ix), (H i) by (apply I; auto). destruct (Req_EM_T v v); congruence.
Qed.
Print Assumptions C215_azimuth.
Lemma unique_at : forall a v ix, unique a = Some v -> in_range ix (shape a) -> at_ a ix = v.
Proof.
  intros a v ix U [L R]. apply C215_azimuth in U. destruct U as [_ U]. unfold at_. apply U. clear U.
  revert ix L R. induction (shape a) as [|n s IH]; intros ix L R; [destruct ix; constructor|]. destruct ix as [|i ix]; [cbn in L; lia|]. cbn [pull]. constructor.
  - specialize (R 0%nat). cbn in R. destruct (Nat.eqb_spec n 1); lia.
  - apply IH; [cbn in L; lia|]. intros k K. apply (R (S k)). cbn. lia.
Qed.

Ltac unf := unfold e_tot_slope, e_tot_curv, e_surface_curv, e_volume_curv, e_surface_slope, e_volume_slope, e_slope_units, e_curv_units,
  e_surface_I_slope, e_surface_I_curv, e_volume_I_slope, e_volume_I_curv, e_exp2, e_dbrdf, e_dp, e_brdf, e_p, e_surface, e_volume, e_1bsf, e_trans, e_Ibs, e_mu0, e_muex in *.
Ltac shapes2 := unfold slope_shapes, function_shapes, surface_shapes, volume_shapes; cbn [leaves orb has_surface has_volume order flat_map seq];
  rewrite ?app_nil_r, ?in_app_iff; cbn [In]; rewrite ?in_app_iff; tauto.
Lemma slope_units_in : forall d dB sig0 a b x, In x (leaves (e_slope_units d dB sig0 a b)) <-> In x (leaves a) \/ (dB || sig0 = true /\ ((x = shape (a_t0 (d_o d)) /\ sig0 = true) \/ In x (leaves b))).
Proof.
  intros d dB sig0 a b x. destruct dB, sig0; unfold e_slope_units, e_mu0; cbn [leaves orb]; rewrite ?in_app_iff; cbn [In]; intuition congruence.
Qed.
Lemma curv_units_in : forall d dB sig0 a s b x, In x (leaves (e_curv_units d dB sig0 a s b)) <-> In x (leaves a) \/ (dB || sig0 = true /\ ((x = shape (a_t0 (d_o d)) /\ sig0 = true) \/ In x (leaves s) \/ In x (leaves b))).
Proof.
  intros d dB sig0 a s b x. destruct dB, sig0; unfold e_curv_units, e_mu0; cbn [leaves orb]; rewrite ?in_app_iff; cbn [In]; intuition congruence.
Qed.
Lemma surface_in : forall o x, In x (leaves (e_surface o)) <-> In x (surface_shapes o).
Proof. intros o x. unf. shapes2. Qed.
Lemma volume_in : forall o x, In x (leaves (e_volume o)) <-> In x (volume_shapes o).
Proof. intros o x. unf. shapes2. Qed.
Lemma ss_in : forall d v x, In x (leaves (e_surface_I_slope d v)) <-> In x (slope_shapes SurfaceSlope false false d v).
Proof. intros d v x. unf. shapes2. Qed.
Lemma sc_in : forall d v x, In x (leaves (e_surface_I_curv d v)) <-> In x (slope_shapes SurfaceCurv false false d v).
Proof. intros d v x. unf. shapes2. Qed.
Lemma vs_in : forall d v x, In x (leaves (e_volume_I_slope d v)) <-> In x (slope_shapes VolumeSlope false false d v).
Proof. intros d v x. unf. shapes2. Qed.
Lemma vc_in : forall d v x, In x (leaves (e_volume_I_curv d v)) <-> In x (slope_shapes VolumeCurv false false d v).
Proof. intros d v x. unf. shapes2. Qed.
Definition body (w : which) (dB sig0 : bool) (d : dobj) (v : R) : ex :=
  match w with
  | SurfaceSlope => e_surface_slope d v dB sig0 | SurfaceCurv => e_surface_curv d v dB sig0 | VolumeSlope => e_volume_slope d v dB sig0
  | VolumeCurv => e_volume_curv d v dB sig0 | TotSlope => e_tot_slope d v dB sig0 | TotCurv => e_tot_curv d v dB sig0
  end.
Lemma body_in : forall w dB sig0 d v x, In x (leaves (body w dB sig0 d v)) <-> In x (slope_shapes w dB sig0 d v).
Proof.
  intros w dB sig0 d v x. unfold body. destruct w; unfold e_tot_slope, e_tot_curv, e_surface_curv, e_volume_curv, e_surface_slope, e_volume_slope; rewrite ?slope_units_in, ?curv_units_in; cbn [leaves];
    rewrite ?in_app_iff, ?slope_units_in, ?curv_units_in, ?surface_in, ?volume_in, ?ss_in, ?sc_in, ?vs_in, ?vc_in;
    unfold slope_shapes, function_shapes, surface_shapes, volume_shapes; destruct dB, sig0; cbn [orb has_surface has_volume order flat_map seq];
    rewrite ?app_nil_r, ?in_app_iff; cbn [In]; rewrite ?in_app_iff.
  all: split; intros H; repeat match goal with H : _ \/ _ |- _ => destruct H as [H|H] | H : _ /\ _ |- _ => destruct H as [? H] end; try discriminate; auto 20.
Qed.
Lemma body_shapes : forall w dB sig0 d v, incl (slope_shapes w dB sig0 d v) (leaves (body w dB sig0 d v)) /\ incl (leaves (body w dB sig0 d v)) (slope_shapes w dB sig0 d v).
Proof. intros w dB sig0 d v. split; intros x; apply body_in. Qed.
Lemma aslope_some : forall w dB sig0 d v, unique (a_p0 (d_o d)) = Some v -> aslope w dB sig0 d = eval (body w dB sig0 d v).
Proof. intros w dB sig0 d v U. unfold aslope, mono. rewrite U. destruct w; reflexivity. Qed.

(** slopes and curvatures can be evaluated exactly if the azimuth has a single value and the arrays can be broadcast *)
Theorem C215_accepted : forall w dB sig0 d,
  ((exists c, aslope w dB sig0 d = Ok c) <-> exists v, single (a_p0 (d_o d)) v /\ compatible (slope_shapes w dB sig0 d v)) /\
  (aslope w dB sig0 d = Err AssertionError <-> ~ exists v, single (a_p0 (d_o d)) v) /\
  (forall x, aslope w dB sig0 d = Err x -> x = AssertionError \/ x = ValueError).
Proof.
  intros w dB sig0 d. destruct (unique (a_p0 (d_o d))) as [v|] eqn:U.
  - rewrite (aslope_some w dB sig0 d v U). pose proof (proj1 (C215_azimuth _ _) U) as S. destruct (body_shapes w dB sig0 d v) as [I1 I2]. split; [|split].
    + rewrite (eval_iff _ _ I1 I2). split; [eauto|]. intros (v0 & S0 & H). apply C215_azimuth in S0. assert (v0 = v) by congruence. now subst.
    + split; [intros H; apply eval_err in H; discriminate|]. intros H. exfalso. eauto.
    + intros x H. right. revert H. apply eval_err.
  - assert (N : ~ exists v, single (a_p0 (d_o d)) v) by (intros (v & H); apply C215_azimuth in H; congruence).
    unfold aslope, mono. rewrite U. split; [|split].
    + split; [intros [c H]; discriminate|]. intros (v & H & _). exfalso. eauto.
    + tauto.
    + intros x H. left. congruence.
Qed.
Print Assumptions C215_accepted.
(** the shape of the result is the common shape *)
Theorem C215_shape : forall w dB sig0 d v c, single (a_p0 (d_o d)) v -> aslope w dB sig0 d = Ok c -> common_shape (slope_shapes w dB sig0 d v) (shape c).
Proof.
  intros w dB sig0 d v c S E. apply C215_azimuth in S. rewrite (aslope_some w dB sig0 d v S) in E. destruct (eval_some _ _ E) as [B _]. apply bshapes_some. rewrite <- B. apply bshapes_incl; apply body_shapes.
Qed.
Print Assumptions C215_shape.

Section El.
Variables (d : dobj) (ix : list nat) (D : derivatives d).
Let o := d_o d.
Let r := object_at o ix.
Lemma brdf_den : den (e_brdf d) ix = brdf_val r.
Proof. destruct D as (_ & _ & R1 & _). unfold e_brdf. cbn [den]. rewrite R1, args_at. reflexivity. Qed.
Lemma p_den : den (e_p d) ix = p_val r.
Proof. destruct D as (_ & _ & _ & R1 & _). unfold e_p. cbn [den]. rewrite R1, args_at. reflexivity. Qed.
Lemma mono_at : map (fun a => at_ a ix) (mono_args d) = t_0 r :: t_0 r :: p_0 r :: p_0 r + PI :: map snd (param_dict r).
Proof. unfold mono_args. cbn [map]. rewrite at_op1. unfold r, o, t_0, p_0. cbn [object_at gt_0 gp_0 param_dict]. rewrite params_at, <- !at_element. reflexivity. Qed.
Lemma mu0_den : den (e_mu0 o) ix = mu_0 r.
Proof. unfold e_mu0, mu_0, t_0, r. cbn [den object_at gt_0]. now rewrite at_element. Qed.
Lemma muex_den : den (e_muex o) ix = mu_ex r.
Proof. unfold e_muex, mu_ex. cbn [den]. now rewrite tex_at. Qed.
Lemma leaf_den : den (Leaf (a_tau o)) ix = tau (V r) /\ den (Leaf (a_omega o)) ix = omega (V r) /\ den (Leaf (a_I0 o)) ix = I0 r /\ den (Leaf (a_bsf o)) ix = bsf r /\
  den (Leaf (a_N o)) ix = NormBRDF (SRF r) /\ den (Leaf (a_t0 o)) ix = t_0 r.
Proof. unfold r, t_0. cbn [den object_at V SRF tau omega I0 bsf NormBRDF gt_0]. rewrite !at_element. repeat split. Qed.
Lemma surface_den2 : den (e_surface o) ix = surface r.
Proof. apply surface_den. apply D. Qed.
Lemma volume_den2 : den (e_volume o) ix = volume r.
Proof. apply volume_den. apply D. Qed.
Lemma trans_den : den (e_trans o) ix = exp (- (tau (V r) / mu_0 r) - tau (V r) / mu_ex r).
Proof. unfold e_trans. cbn [den]. destruct leaf_den as (H & _). cbn [den] in H. rewrite H, mu0_den, muex_den. reflexivity. Qed.
Section V.
Variables (v : R) (U : unique (a_p0 o) = Some v) (IR : in_range ix (shape (a_p0 o))).
Lemma p0_v : p_0 r = v.
Proof. unfold p_0, r. cbn [object_at gp_0]. rewrite <- at_element. now apply unique_at. Qed.
Lemma dbrdf_den : forall n, den (e_dbrdf d v n) ix = brdf_theta_diff (SRF r) (param_dict r) (t_0 r) (p_0 r) n.
Proof. intros n. destruct D as (R1 & _ & _ & _ & F & _). unfold e_dbrdf. cbn [den]. rewrite (proj1 (R1 n v)), mono_at, (proj1 (F n v _ _ _ _ _)). unfold brdf_theta_diff. rewrite p0_v. reflexivity. Qed.
Lemma dp_den : forall n, den (e_dp d v n) ix = p_theta_diff (V r) (param_dict r) (t_0 r) (p_0 r) n.
Proof. intros n. destruct D as (R1 & _ & _ & _ & F & _). unfold e_dp. cbn [den]. rewrite (proj2 (R1 n v)), mono_at, (proj2 (F n v _ _ _ _ _)). unfold p_theta_diff. rewrite p0_v. reflexivity. Qed.
Ltac dens := cbn [den]; fold o; rewrite ?brdf_den, ?p_den, ?dbrdf_den, ?dp_den, ?mu0_den, ?surface_den2, ?volume_den2;
  destruct leaf_den as (L1 & L2 & L3 & L4 & L5 & L6); cbn [den] in L1, L2, L3, L4, L5, L6; rewrite ?L1, ?L2, ?L3, ?L4, ?L5, ?L6.
Lemma ss_den : den (e_surface_I_slope d v) ix = surface_I_slope r.
Proof. unfold e_surface_I_slope, e_exp2, e_1bsf. dens. reflexivity. Qed.
Lemma sc_den : den (e_surface_I_curv d v) ix = surface_I_curv r.
Proof. unfold e_surface_I_curv, e_exp2, e_1bsf. dens. reflexivity. Qed.
Lemma vs_den : den (e_volume_I_slope d v) ix = volume_I_slope r.
Proof. unfold e_volume_I_slope, e_exp2, e_1bsf. dens. reflexivity. Qed.
Lemma vc_den : den (e_volume_I_curv d v) ix = volume_I_curv r.
Proof. unfold e_volume_I_curv, e_exp2, e_1bsf. dens. reflexivity. Qed.
Lemma body_den : forall w dB sig0, den (body w dB sig0 d v) ix = scalar w dB sig0 r.
Proof.
  intros w dB sig0. destruct w, dB, sig0; unfold body, e_tot_slope, e_tot_curv, e_surface_curv, e_volume_curv, e_surface_slope, e_volume_slope, e_slope_units, e_curv_units;
    cbn [den]; fold o; rewrite ?ss_den, ?sc_den, ?vs_den, ?vc_den, ?mu0_den, ?surface_den2, ?volume_den2; destruct leaf_den as (_ & _ & _ & _ & _ & L6); cbn [den] in L6; rewrite ?L6; reflexivity.
Qed.
End V.
End El.

(** each element of a slope or curvature (linear or in dB, of the intensity or sigma_0) is the slope or curvature of the
    object that has the corresponding elements of all arrays *)
Theorem C215_elements : forall w dB sig0 d c ix, derivatives d -> aslope w dB sig0 d = Ok c -> (List.length (shape c) <= List.length ix)%nat -> in_range ix (shape (a_p0 (d_o d))) ->
  element c ix = scalar w dB sig0 (object_at (d_o d) ix).
Proof.
  intros w dB sig0 d c ix D E L IR. destruct (unique (a_p0 (d_o d))) as [v|] eqn:U; [|unfold aslope, mono in E; rewrite U in E; discriminate].
  rewrite (aslope_some w dB sig0 d v U) in E. destruct (eval_some _ _ E) as [_ H]. rewrite <- at_element, (H ix L). now apply body_den.
Qed.
Print Assumptions C215_elements.
(** a single azimuth (a number, or an array of one element) is in range of every index *)
Theorem C215_one_azimuth : forall ix s, (List.length s <= List.length ix)%nat -> List.Forall (eq 1%nat) s -> in_range ix s.
Proof. intros ix s L F. split; [exact L|]. intros i I. left. symmetry. rewrite List.Forall_forall in F. apply F, nth_In, I. Qed.
Print Assumptions C215_one_azimuth.

(** 3 dates with 2 angles each, a parameter per date, a scattering function k * theta_0 *)
Definition exs_uses : list bool := [true; false; false; false; true].
Definition exs_f : func := mkfunc (fun l => nth 0 l 0 * nth 4 l 0) exs_uses.
Definition exs_d (n : nat) (v : R) : func := mkfunc (fun l => match n with O => nth 0 l 0 * nth 4 l 0 | 1%nat => nth 4 l 0 | _ => 0 end) exs_uses.
Definition exs_k (key : string) : func := mkfunc (fun l => nth 0 l 0) exs_uses.
Definition exs_obj : dobj :=
  mkd (mka (ex_num 1) "mono" (mkarr [2; 3]%nat (fun ix => INR (nth 0 ix 0%nat) / 10)) (mkarr [1%nat] (fun _ => 1 / 3)) (ex_num 0) (ex_num 0)
      (mkarr [1; 3]%nat (fun ix => INR (nth 1 ix 0%nat))) (ex_num (1/2)) (ex_num (1/5)) (ex_num 0) [("k"%string, mkarr [1; 3]%nat (fun ix => INR (nth 1 ix 0%nat)))] exs_f exs_f)
      exs_d exs_d exs_k exs_k.
Lemma exs_n : forall n c t, Derive_n (fun x => x * c) n t = match n with O => t * c | 1%nat => c | _ => 0 end.
Proof.
  intros n c t. destruct n as [|[|n]]; [reflexivity| |].
  - cbn. apply is_derive_unique. auto_derive; [exact I|ring].
  - rewrite <- (Nat.add_1_r (S n)). rewrite <- Derive_n_comp. rewrite (Derive_n_ext _ (fun _ => c)).
    + apply Derive_n_const.
    + intros u. cbn. apply is_derive_unique. auto_derive; [exact I|ring].
Qed.
Lemma exs_respects : forall g : list R -> R, (forall l m, nth 0 l 0 = nth 0 m 0 -> nth 4 l 0 = nth 4 m 0 -> g l = g m) -> respects (mkfunc g exs_uses).
Proof. intros g H l. cbn [f_val f_uses]. apply H; destruct l as [|a [|b [|c [|e [|h l]]]]]; reflexivity. Qed.
Lemma exs_derivatives : derivatives exs_obj.
Proof.
  assert (R0 : respects exs_f) by (apply exs_respects; congruence).
  assert (R1 : forall n v, respects (exs_d n v)) by (intros n v; apply exs_respects; intros l m H1 H2; now rewrite H1, H2).
  assert (R2 : forall k, respects (exs_k k)) by (intros k; apply exs_respects; congruence).
  cbn [exs_obj]. unfold derivatives. cbn [exs_obj d_o a_brdf a_p d_brdf d_p d_kbrdf d_kp a_params].
  split; [auto|]. split; [auto|]. split; [auto|]. split; [auto|]. split.
  - intros n v t a b c ps. assert (E : f_val (exs_d n v) (t :: a :: b :: c :: ps) = Derive_n (fun x => f_val exs_f (x :: x :: v :: v + PI :: ps)) n t); [|split; exact E].
    cbn [exs_d exs_f f_val nth]. rewrite exs_n. reflexivity.
  - intros key pd w t a b c K G. destruct pd as [|[k' u] [|q pd]]; inversion K; subst k'. cbn [dget] in G. destruct (string_dec key "k") as [->|]; [|discriminate].
    assert (E : f_val (exs_k "k") (t :: a :: b :: c :: map snd [("k"%string, u)]) = Derive (fun x => f_val exs_f (t :: a :: b :: c :: map snd (dset string_dec "k"%string x [("k"%string, u)]))) w); [|split; exact E].
    cbn. symmetry. apply is_derive_unique. auto_derive; [exact I|ring].
Qed.
Example C215_example : derivatives exs_obj /\ single (a_p0 (d_o exs_obj)) (1 / 3) /\
  exists c, aslope TotCurv true true exs_obj = Ok c /\ shape c = [2; 3]%nat /\ data c [1; 2]%nat = tot_curv true true (object_at (d_o exs_obj) [1; 2]%nat) /\
            param_dict (object_at (d_o exs_obj) [1; 2]%nat) = [("k"%string, INR 2)].
Proof.
  assert (S : single (a_p0 (d_o exs_obj)) (1 / 3)). { split; [exists [0%nat]; repeat constructor|]. reflexivity. }
  assert (A : exists c, aslope TotCurv true true exs_obj = Ok c).
  { apply C215_accepted. exists (1 / 3). split; [exact S|]. apply bshapes_compatible. exists [2; 3]%nat. reflexivity. }
  split; [exact exs_derivatives|]. split; [exact S|]. destruct A as [c E]. exists c. split; [exact E|].
  assert (Sh : shape c = [2; 3]%nat). { pose proof (C215_shape _ _ _ _ _ _ S E) as C. eapply common_unique; [exact C|]. apply bshapes_some. reflexivity. }
  split; [exact Sh|]. split; [|reflexivity].
  assert (I : index_in [1; 2]%nat (shape c)) by (rewrite Sh; repeat constructor; lia). destruct (C212_index R c _ I) as [E1 L]. rewrite <- E1.
  apply (C215_elements TotCurv true true exs_obj c _ exs_derivatives E L). apply C215_one_azimuth; [cbn; lia|repeat constructor].
Qed.

(** ** C216 *)
Section El2.
Variables (d : dobj) (ix : list nat) (D : derivatives d).
Local Notation o := (d_o d).
Local Notation r := (object_at (d_o d) ix).
Ltac dens := cbn [den]; rewrite ?(brdf_den d ix D), ?(p_den d ix D), ?(mu0_den d ix), ?(muex_den d ix), ?(trans_den d ix), ?(surface_den2 d ix D), ?(volume_den2 d ix D);
  destruct (leaf_den d ix) as (L1 & L2 & L3 & L4 & L5 & L6); cbn [den] in L1, L2, L3, L4, L5, L6; rewrite ?L1, ?L2, ?L3, ?L4, ?L5, ?L6.
Lemma norm_den : forall dB sig0, den (e_norm d dB sig0) ix = jac_norm dB sig0 r.
Proof.
  intros dB sig0. unfold e_norm, jac_norm. destruct dB, sig0; cbn [andb negb]; dens; try reflexivity.
Qed.
Lemma ibs_den : den (e_Ibs o) ix = I0 r * mu_0 r * brdf_val r.
Proof. change (den (e_Ibs o) ix) with (den (Leaf (a_I0 o) *e e_mu0 o *e e_brdf d) ix). dens. reflexivity. Qed.
Lemma kbrdf_den : forall key w, dget string_dec key (param_dict r) = Some w -> den (Call (d_kbrdf d key) (call_args o)) ix = d_surface_dummy key r /\ den (Call (d_kp d key) (call_args o)) ix = d_volume_dummy key r.
Proof.
  intros key w G. destruct D as (_ & R2 & _ & _ & _ & F). destruct (R2 key) as [Ra Rb]. cbn [den]. rewrite Ra, Rb, args_at.
  destruct (F key (param_dict r) w (t_0 r) (t_ex r) (p_0 r) (p_ex r)) as [F1 F2]; [cbn [object_at param_dict]; rewrite map_map; reflexivity|exact G|].
  rewrite F1, F2. unfold d_surface_dummy, d_volume_dummy. rewrite G. split; reflexivity.
Qed.
Lemma entry_den : forall dB sig0 key e, e_entry d dB sig0 key = Ok e -> jac_entry dB sig0 r key = Ok (den e ix).
Proof.
  intros dB sig0 key e. unfold e_entry, jac_entry.
  destruct (String.eqb key "omega"); [|destruct (String.eqb key "tau"); [|destruct (String.eqb key "NormBRDF"); [|destruct (String.eqb key "bsf")]]].
  - intros E. inversion E; subst e. f_equal. cbn [den]. rewrite norm_den. f_equal. unfold e_const, e_dvolume_domega, e_1bsf. dens. reflexivity.
  - intros E. inversion E; subst e. f_equal. cbn [den]. rewrite norm_den. f_equal. unfold e_dsurface_dtau, e_dvolume_dtau, e_trans2, e_1bsf. dens. reflexivity.
  - intros E. inversion E; subst e. f_equal. cbn [den]. rewrite norm_den. f_equal. unfold e_dsurface_dR, e_1bsf, e_const. cbn [den]. rewrite ibs_den. dens. reflexivity.
  - intros E. inversion E; subst e. f_equal. cbn [den]. rewrite norm_den. f_equal. unfold e_dsurface_dbsf, e_dvolume_dbsf. cbn [den]. rewrite ibs_den. dens. rewrite Rmult_1_r. reflexivity.
  - assert (M : dmem string_dec key (param_dict r) = dmem string_dec key (a_params o)). { cbn [object_at param_dict]. generalize (a_params o). intros l. unfold dmem. induction l as [|[k a] l IH]; [reflexivity|]. cbn [map dget fst snd] in *. destruct (string_dec key k); [reflexivity|exact IH]. }
    rewrite M. destruct (dmem string_dec key (a_params o)) eqn:K; [|discriminate]. intros E. inversion E; subst e. f_equal. cbn [den]. rewrite norm_den. f_equal.
    assert (G : exists w, dget string_dec key (param_dict r) = Some w). { unfold dmem in M. destruct (dget string_dec key (param_dict r)); [eauto|discriminate]. }
    destruct G as [w G]. destruct (kbrdf_den key w G) as [K1 K2]. unfold e_dsurface_dkey, e_dvolume_dkey, e_1bsf. cbn [den] in *. rewrite K1, K2. dens. reflexivity.
Qed.
End El2.

Ltac unfj := unfold e_const, e_dvolume_domega, e_dvolume_dtau, e_dvolume_dbsf, e_dsurface_dtau, e_dsurface_dR, e_dsurface_dbsf, e_dsurface_dkey, e_dvolume_dkey, e_trans2, e_brdf, e_p, e_1bsf, e_trans, e_Ibs, e_mu0, e_muex in *.
Lemma norm_in : forall d dB sig0 x, In x (leaves (e_norm d dB sig0)) <-> In x (norm_shapes dB sig0 (d_o d)) \/ (dB || sig0 = false /\ x = []).
Proof.
  intros d dB sig0 x. unfold e_norm, norm_shapes. destruct dB, sig0; cbn [andb negb orb].
  1,2: cbn [leaves]; rewrite !in_app_iff, surface_in, volume_in; intuition congruence.
  all: cbn; intuition congruence.
Qed.
Lemma entry_in : forall d dB sig0 key e x, e_entry d dB sig0 key = Ok e -> In x (leaves e) <-> In x (entry_shapes dB sig0 d key) \/ (x = [] /\ In x (leaves e)).
Proof.
  intros d dB sig0 key e x. unfold e_entry, entry_shapes.
  destruct (String.eqb_spec key "omega") as [->|N1]; [|destruct (String.eqb_spec key "NormBRDF") as [->|N3]; [|destruct (String.eqb_spec key "tau") as [->|N2]; [|destruct (String.eqb_spec key "bsf") as [->|N4]; [|destruct (dmem string_dec key (a_params (d_o d)))]]]]; cbn [String.eqb Ascii.eqb Bool.eqb].
  6: discriminate.
  all: intros E; inversion E; subst e; clear E; cbn [leaves]; rewrite !in_app_iff, !norm_in; unfj; cbn [leaves]; rewrite ?in_app_iff; cbn [In]; rewrite ?in_app_iff; generalize (In x (norm_shapes dB sig0 (d_o d))); intros P; split; intros H;
    repeat match goal with H : _ \/ _ |- _ => destruct H as [H|H] | H : _ /\ _ |- _ => destruct H as [? H] end; subst; try contradiction; auto 20.
Qed.
Lemma known_dec : forall d key, known d key \/ ~ known d key.
Proof. intros d key. unfold known. destruct (in_dec string_dec key ["omega"; "tau"; "NormBRDF"; "bsf"]%string); [tauto|]. destruct (in_dec string_dec key (map fst (a_params (d_o d)))); tauto. Qed.
Lemma bshapes_nil : forall l, bshapes ([] :: l) = bshapes l.
Proof. intros l. cbn [bshapes]. destruct (bshapes l); reflexivity. Qed.
Lemma entry_bshapes : forall d dB sig0 key e, e_entry d dB sig0 key = Ok e -> bshapes (leaves e) = bshapes (entry_shapes dB sig0 d key).
Proof.
  intros d dB sig0 key e E. rewrite <- bshapes_nil, <- (bshapes_nil (entry_shapes dB sig0 d key)). apply bshapes_incl; intros x [<-|H]; try (now left); pose proof (entry_in d dB sig0 key e x E) as I; cbn [In]; intuition congruence.
Qed.
Lemma norm_bshapes : forall d dB sig0, bshapes (leaves (e_norm d dB sig0)) = bshapes (norm_shapes dB sig0 (d_o d)).
Proof.
  intros d dB sig0. rewrite <- bshapes_nil, <- (bshapes_nil (norm_shapes dB sig0 (d_o d))). apply bshapes_incl; intros x [<-|H]; try (now left); pose proof (norm_in d dB sig0 x) as I; cbn [In]; intuition congruence.
Qed.
Lemma entry_known : forall d dB sig0 key, (known d key -> exists e, e_entry d dB sig0 key = Ok e) /\ (~ known d key -> e_entry d dB sig0 key = Err AssertionError).
Proof.
  intros d dB sig0 key. unfold e_entry, known. cbn [In].
  destruct (String.eqb_spec key "omega") as [->|N1]; [split; [eauto|tauto]|]. destruct (String.eqb_spec key "tau") as [->|N2]; [split; [eauto|tauto]|].
  destruct (String.eqb_spec key "NormBRDF") as [->|N3]; [split; [eauto|tauto]|]. destruct (String.eqb_spec key "bsf") as [->|N4]; [split; [eauto|tauto]|].
  assert (K : dmem string_dec key (a_params (d_o d)) = true <-> In key (map fst (a_params (d_o d)))).
  { unfold dmem. pose proof (dget_in_keys string_dec key (a_params (d_o d))) as G. unfold keys in G. rewrite G. destruct (dget string_dec key (a_params (d_o d))); split; congruence. }
  destruct (dmem string_dec key (a_params (d_o d))); split; intros H; eauto.
  - exfalso. apply H. right. now apply K.
  - exfalso. destruct H as [[H|[H|[H|[H|[]]]]]|H]; try congruence. apply K in H. discriminate.
Qed.

(** each entry of the jacobian is, element by element, the entry for the object with the corresponding elements (whether this
    is the derivative of the total contribution is C04-C09) *)
Theorem C216_elements : forall dB sig0 d pl l ix, derivatives d -> ajacobian d dB sig0 pl = Ok l -> (forall c, In c l -> (List.length (shape c) <= List.length ix)%nat) ->
  jacobian dB sig0 (object_at (d_o d) ix) pl = Ok (map (fun c => element c ix) l).
Proof.
  intros dB sig0 d pl l ix D E L. unfold ajacobian in E. destruct (eval (e_norm d dB sig0)); [|discriminate]. cbn [bind] in E. unfold jacobian.
  revert l E L. induction pl as [|key pl IH]; intros l E L; cbn [mapM] in *; [inversion E; reflexivity|].
  destruct (e_entry d dB sig0 key) as [e|] eqn:Ee; [|discriminate]. cbn [bind] in E. destruct (eval e) as [c|] eqn:Ev; [|discriminate]. cbn [bind] in E.
  match type of E with context [mapM ?f pl] => destruct (mapM f pl) as [l'|] eqn:Em; [|discriminate] end. cbn [bind] in E. inversion E; subst l. clear E.
  rewrite (entry_den d ix D dB sig0 key e Ee). cbn [bind]. rewrite (IH l' eq_refl) by (intros c' H; apply L; now right). cbn [bind map]. do 2 f_equal.
  destruct (eval_some _ _ Ev) as [_ H]. rewrite <- at_element. symmetry. apply H, L. now left.
Qed.
Print Assumptions C216_elements.

(** the entries have the common shape of what they depend on *)
Theorem C216_shape : forall dB sig0 d pl l, ajacobian d dB sig0 pl = Ok l -> Forall2 (fun key c => common_shape (entry_shapes dB sig0 d key) (shape c)) pl l.
Proof.
  intros dB sig0 d pl l E. unfold ajacobian in E. destruct (eval (e_norm d dB sig0)); [|discriminate]. cbn [bind] in E.
  revert l E. induction pl as [|key pl IH]; intros l E; cbn [mapM] in *; [inversion E; constructor|].
  destruct (e_entry d dB sig0 key) as [e|] eqn:Ee; [|discriminate]. cbn [bind] in E. destruct (eval e) as [c|] eqn:Ev; [|discriminate]. cbn [bind] in E.
  match type of E with context [mapM ?f pl] => destruct (mapM f pl) as [l'|] eqn:Em; [|discriminate] end. cbn [bind] in E. inversion E; subst l. constructor; [|now apply IH].
  apply bshapes_some. rewrite <- (entry_bshapes d dB sig0 key e Ee). apply (eval_some _ _ Ev).
Qed.
Print Assumptions C216_shape.

(** the jacobian can be evaluated exactly if all names are known and the arrays can be broadcast; otherwise it is an
    AssertionError (only if a name is unknown) or a ValueError (only if arrays cannot be broadcast) *)
Theorem C216_accepted : forall dB sig0 d pl,
  ((exists l, ajacobian d dB sig0 pl = Ok l) <-> compatible (norm_shapes dB sig0 (d_o d)) /\ forall key, In key pl -> known d key /\ compatible (entry_shapes dB sig0 d key)) /\
  (forall x, ajacobian d dB sig0 pl = Err x -> (x = AssertionError /\ exists key, In key pl /\ ~ known d key) \/
     (x = ValueError /\ (~ compatible (norm_shapes dB sig0 (d_o d)) \/ exists key, In key pl /\ ~ compatible (entry_shapes dB sig0 d key)))).
Proof.
  intros dB sig0 d pl.
  assert (EV : forall e l, bshapes (leaves e) = bshapes l -> (exists c, eval e = Ok c /\ compatible l) \/ (eval e = Err ValueError /\ ~ compatible l)).
  { intros e l B. destruct (eval e) as [c|x] eqn:E.
    - left. exists c. split; [reflexivity|]. apply bshapes_compatible. destruct (eval_some _ _ E) as [S _]. rewrite B in S. eauto.
    - right. rewrite (eval_err _ _ E). split; [reflexivity|]. intros C. apply bshapes_compatible in C. destruct C as [u C]. rewrite <- B in C. destruct (eval_ok _ _ C). congruence. }
  assert (KD : forall key, (exists e, e_entry d dB sig0 key = Ok e /\ known d key) \/ (e_entry d dB sig0 key = Err AssertionError /\ ~ known d key)).
  { intros key. destruct (entry_known d dB sig0 key) as [H1 H2]. destruct (known_dec d key) as [K|K]; [left; destruct (H1 K) as [e H]; eauto|right; auto]. }
  unfold ajacobian. destruct (EV _ _ (norm_bshapes d dB sig0)) as [(c0 & -> & C0)|[-> C0]]; cbn [bind].
  2:{ split; [split; [intros [l H]; discriminate|tauto]|]. intros x E. inversion E; subst. right. auto. }
  assert (M : (exists l, mapM (fun key => do e <- e_entry d dB sig0 key; eval e) pl = Ok l /\ forall key, In key pl -> known d key /\ compatible (entry_shapes dB sig0 d key)) \/
              (mapM (fun key => do e <- e_entry d dB sig0 key; eval e) pl = Err AssertionError /\ exists key, In key pl /\ ~ known d key) \/
              (mapM (fun key => do e <- e_entry d dB sig0 key; eval e) pl = Err ValueError /\ exists key, In key pl /\ ~ compatible (entry_shapes dB sig0 d key))).
  { induction pl as [|key pl IH]; [left; exists []; split; [reflexivity|intros ? []]|]. cbn [mapM]. destruct (KD key) as [(e & Ee & K)|[Ee K]].
    - rewrite Ee. cbn [bind]. destruct (EV _ _ (entry_bshapes d dB sig0 key e Ee)) as [(c & -> & C)|[-> C]]; cbn [bind].
      + destruct IH as [(l & -> & H)|[(-> & k & Hk & H)|(-> & k & Hk & H)]]; cbn [bind].
        * left. eexists. split; [reflexivity|]. intros k [<-|Hk]; auto.
        * right. left. split; [reflexivity|]. exists k. split; [now right|exact H].
        * right. right. split; [reflexivity|]. exists k. split; [now right|exact H].
      + right. right. split; [reflexivity|]. exists key. split; [now left|exact C].
    - rewrite Ee. cbn [bind]. right. left. split; [reflexivity|]. exists key. split; [now left|exact K]. }
  destruct M as [(l & E & H)|[(E & k & Hk & H)|(E & k & Hk & H)]]; rewrite E; split.
  - split; eauto.
  - intros x X. discriminate.
  - split; [intros [l X]; discriminate|]. intros [_ X]. exfalso. apply H. now apply X.
  - intros x X. inversion X; subst. left. eauto.
  - split; [intros [l X]; discriminate|]. intros [_ X]. exfalso. apply H. now apply X.
  - intros x X. inversion X; subst. right. eauto.
Qed.
Print Assumptions C216_accepted.

Example C216_example : derivatives exs_obj /\ exists a b c, ajacobian exs_obj true true ["NormBRDF"; "tau"; "k"]%string = Ok [a; b; c] /\
  shape c = [2; 3]%nat /\ jacobian true true (object_at (d_o exs_obj) [1; 2]%nat) ["NormBRDF"; "tau"; "k"]%string = Ok [data a [1; 2]%nat; data b [1; 2]%nat; data c [1; 2]%nat].
Proof.
  split; [exact exs_derivatives|]. destruct (ajacobian exs_obj true true ["NormBRDF"; "tau"; "k"]%string) as [l|] eqn:E; [|discriminate].
  pose proof (C216_shape _ _ _ _ _ E) as S. inversion S as [|? a ? l1 S1 S1']; subst. inversion S1' as [|? b ? l2 S2 S2']; subst. inversion S2' as [|? c ? l3 S3 S3']; subst. inversion S3'; subst.
  assert (Ha : shape a = [2; 3]%nat) by (eapply common_unique; [exact S1|]; apply bshapes_some; reflexivity).
  assert (Hb : shape b = [2; 3]%nat) by (eapply common_unique; [exact S2|]; apply bshapes_some; reflexivity).
  assert (Hc : shape c = [2; 3]%nat) by (eapply common_unique; [exact S3|]; apply bshapes_some; reflexivity).
  assert (I : index_in [1; 2]%nat [2; 3]%nat) by (repeat constructor; lia).
  exists a, b, c. split; [reflexivity|]. split; [exact Hc|]. rewrite (C216_elements _ _ _ _ _ [1; 2]%nat exs_derivatives E).
  - cbn [map]. rewrite (proj1 (C212_index R a [1; 2]%nat ltac:(rewrite Ha; exact I))), (proj1 (C212_index R b [1; 2]%nat ltac:(rewrite Hb; exact I))), (proj1 (C212_index R c [1; 2]%nat ltac:(rewrite Hc; exact I))). reflexivity.
  - intros x [<-|[<-|[<-|[]]]]; rewrite ?Ha, ?Hb, ?Hc; cbn; lia.
Qed.
