(** C155: slopes and curvatures of a fit *)
From Coq Require Import Reals String List Bool Lra.
From Coquelicot Require Import Coquelicot.
From Verif Require Import Base Base_Proofs RT_Model RT_Spec RT_Proofs RT_Props Par_Model Par_Spec Par_Proofs Slc_Model.
Import ListNotations.
Local Open Scope list_scope.
Local Open Scope R_scope.

Lemma slope_values_same m old r fixed v : slope_values m old r fixed = Ok v <-> set_calc_values R m old r fixed = Ok v.
Proof.
  unfold slope_values, set_calc_values. cbv zeta.
  assert (F : forall l : list (string * R), filter (fun kv => negb (inb string_dec (fst kv) (slope_exclude m))) l = filter (fun kv => negb (inb string_dec (fst kv) (excludesymbs R m))) l).
  { intros l. apply filter_ext. intros [k x]. cbn [fst]. f_equal. apply eq_true_iff_eq. rewrite !inb_iff, in_excluded. unfold slope_exclude.
    change (["omega"; "tau"; "NormBRDF"; "bsf"]%string) with reserved. change (symbs R (m_tau m) ++ symbs R (m_omega m) ++ symbs R (m_N m)) with (toNlist R m).
    rewrite in_app_iff, !in_minus, in_reserved, in_toN, in_angset. unfold routed, scattering.
    destruct (reserved_dec k), (defining_dec m k), (scattering_dec m k) as [S|S]; unfold scattering in S; tauto. }
  rewrite F. reflexivity.
Qed.
Lemma slope_values_err m old r fixed e : slope_values m old r fixed = Err e <-> set_calc_values R m old r fixed = Err e.
Proof.
  unfold slope_values, set_calc_values. cbv zeta.
  repeat (match goal with |- context [new_value R ?n ?a ?b ?c] => destruct (new_value R n a b c); cbn [bind]; [|reflexivity] end). split; discriminate.
Qed.

(** the model curve of an observation: the value of the model for the same parameters as a function of the incidence
    angle *)
Definition curve (dB sig0 : bool) (o : RT) (v : values R) (f : RT -> R) (u : R) : R := in_units dB sig0 u (f (set_t_0 (with_values o v) u)).

Lemma value_is_curve dB sig0 o v t F1 F2 : 0 <= v_tau v -> 0 < cos t ->
  model_value dB sig0 false (set_t_0 (with_values o v) t) F1 F2 = Some (curve dB sig0 o v (fun o => volume o + surface o) t).
Proof.
  intros T C. unfold model_value, curve, in_units.
  assert (E : o_tot (calc_scalar false (set_t_0 (with_values o v) t) F1 F2) = Some (volume (set_t_0 (with_values o v) t) + surface (set_t_0 (with_values o v) t))).
  { unfold calc_scalar. destruct (Rlt_dec 0 (tau (V (set_t_0 (with_values o v) t)))) as [L|L]; cbn [mk_calc o_tot]; f_equal; [ring|].
    assert (Z : v_tau v = 0) by (cbn [set_t_0 V with_values tau] in L; lra).
    assert (X : volume (set_t_0 (with_values o v) t) = 0).
    { unfold volume. cbn [set_t_0 V with_values tau]. rewrite Z. unfold Rdiv. rewrite !Rmult_0_l, Ropp_0, Rminus_0_r, exp_0. ring. }
    rewrite X. ring. }
  rewrite E. reflexivity.
Qed.

(** without interaction term: whenever the model can be evaluated, [_calc_slope_curv] returns the first and second
    derivative of the model value (in the units of the fit) with respect to the incidence angle, else it fails in the
    same way *)
Theorem C155_slopes_partial : forall m dB sig0 o old r fixed t,
  geometry o = "mono"%string -> 0 < cos t ->
  (forall e, calc_model R m old r fixed = Err e -> forall comps, calc_slope_curv m dB sig0 comps (set_t_0 o t) old r fixed = Err e) /\
  (forall v, calc_model R m old r fixed = Ok v -> 0 <= v_tau v ->
    let ov := with_values o v in
    twice_diff (back_brdf ov) t -> twice_diff (back_p ov) t ->
    (dB = true -> 0 < volume (set_t_0 ov t) + surface (set_t_0 ov t)) ->
    exists value s c, (forall u, 0 < cos u -> model_value dB sig0 false (set_t_0 ov u) None None = Some (value u)) /\
      calc_slope_curv m dB sig0 false (set_t_0 o t) old r fixed = Ok ([s], [c]) /\
      is_derive value t s /\ is_derive_n value 2 t c).
Proof.
  intros m dB sig0 o old r fixed t G C. unfold calc_model, calc_slope_curv. split.
  - intros e H comps. destruct (set_calc_values R m old r fixed) as [v|e'] eqn:E; cbn [bind] in H.
    + apply slope_values_same in E. rewrite E. cbn [bind]. destruct (evaluable R m v); [discriminate|]. injection H as <-. reflexivity.
    + injection H as <-. apply slope_values_err in E. rewrite E. reflexivity.
  - intros v H T D1 D2 P. set (ov := with_values o v) in *. destruct (set_calc_values R m old r fixed) as [v'|e'] eqn:E; cbn [bind] in H; [|discriminate].
    destruct (evaluable R m v') eqn:Ev; [|discriminate]. injection H as ->. apply slope_values_same in E. rewrite E. cbn [bind]. rewrite Ev. cbn [negb].
    change (with_values (set_t_0 o t) v) with (set_t_0 ov t).
    exists (curve dB sig0 o v (fun o => volume o + surface o)), (tot_slope dB sig0 (set_t_0 ov t)), (tot_curv dB sig0 (set_t_0 ov t)).
    split; [intros u Hu; apply (value_is_curve dB sig0 o v u None None T Hu)|]. split; [reflexivity|].
    split; [apply C03_total_slope_units; auto; [apply (locally_singleton _ _ (proj1 D1))|apply (locally_singleton _ _ (proj1 D2))]|apply C05_total_curv_units; auto].
Qed.
Print Assumptions C155_slopes_partial.

(** the components: total, surface, volume, each the derivative of its part of the model *)
Theorem C155_components : forall m dB sig0 o old r fixed t v,
  geometry o = "mono"%string -> 0 < cos t -> calc_model R m old r fixed = Ok v ->
  let ov := with_values o v in
  twice_diff (back_brdf ov) t -> twice_diff (back_p ov) t ->
  (dB = true -> 0 < volume (set_t_0 ov t) /\ 0 < surface (set_t_0 ov t)) ->
  exists s c, calc_slope_curv m dB sig0 true (set_t_0 o t) old r fixed = Ok (s, c) /\
    Forall2 (fun f x => is_derive (curve dB sig0 o v f) t x) [fun o => volume o + surface o; surface; volume] s /\
    Forall2 (fun f x => is_derive_n (curve dB sig0 o v f) 2 t x) [fun o => volume o + surface o; surface; volume] c.
Proof.
  intros m dB sig0 o old r fixed t v G C H ov D1 D2 P. unfold calc_model in H. unfold calc_slope_curv.
  destruct (set_calc_values R m old r fixed) as [v'|e'] eqn:E; cbn [bind] in H; [|discriminate].
  destruct (evaluable R m v') eqn:Ev; [|discriminate]. injection H as ->. apply slope_values_same in E. rewrite E. cbn [bind]. rewrite Ev. cbn [negb].
  change (with_values (set_t_0 o t) v) with (set_t_0 ov t). do 2 eexists. split; [reflexivity|].
  assert (E1 : ex_derive (back_brdf ov) t) by apply (locally_singleton _ _ (proj1 D1)).
  assert (E2 : ex_derive (back_p ov) t) by apply (locally_singleton _ _ (proj1 D2)).
  split; (apply Forall2_cons; [|apply Forall2_cons; [|apply Forall2_cons; [|apply Forall2_nil]]]).
  - apply C03_total_slope_units; auto. intros X. specialize (P X). lra.
  - apply C03_surface_slope_units; auto. intros X. apply P, X.
  - apply C03_volume_slope_units; auto. intros X. apply P, X.
  - apply C05_total_curv_units; auto. intros X. specialize (P X). lra.
  - apply C05_surface_curv_units; auto. intros X. apply P, X.
  - apply C05_volume_curv_units; auto. intros X. apply P, X.
Qed.
Print Assumptions C155_components.

(** with interaction term: the returned slope lacks the derivative of the interaction contribution *)
Theorem C155_interaction_refuted : forall m o old r fixed t v (F1 F2 I : R -> R) d,
  geometry o = "mono"%string -> 0 < cos t -> calc_model R m old r fixed = Ok v -> 0 < v_tau v ->
  let ov := with_values o v in
  ex_derive (back_brdf ov) t -> ex_derive (back_p ov) t ->
  (forall u, interaction (set_t_0 ov u) (Some (F1 u)) (Some (F2 u)) = Some (I u)) -> is_derive I t d -> d <> 0 ->
  exists value s c, (forall u, model_value false false true (set_t_0 ov u) (Some (F1 u)) (Some (F2 u)) = Some (value u)) /\
    calc_slope_curv m false false false (set_t_0 o t) old r fixed = Ok ([s], [c]) /\ is_derive value t (s + d) /\ ~ is_derive value t s.
Proof.
  intros m o old r fixed t v F1 F2 I d G C H T ov E1 E2 HI D Nz. unfold calc_model in H. unfold calc_slope_curv.
  destruct (set_calc_values R m old r fixed) as [v'|e'] eqn:E; cbn [bind] in H; [|discriminate].
  destruct (evaluable R m v') eqn:Ev; [|discriminate]. injection H as ->. apply slope_values_same in E. rewrite E. cbn [bind]. rewrite Ev. cbn [negb].
  change (with_values (set_t_0 o t) v) with (set_t_0 ov t).
  exists (fun u => (volume (set_t_0 ov u) + surface (set_t_0 ov u)) + I u), (tot_slope false false (set_t_0 ov t)), (tot_curv false false (set_t_0 ov t)).
  assert (X : is_derive (fun u => (volume (set_t_0 ov u) + surface (set_t_0 ov u)) + I u) t (tot_slope false false (set_t_0 ov t) + d)).
  { apply (is_derive_plus (fun u => volume (set_t_0 ov u) + surface (set_t_0 ov u)) I t); [|exact D].
    apply (C03_total_slope_units false false ov t); auto. discriminate. }
  split; [|split; [reflexivity|split; [exact X|]]].
  - intros u. unfold model_value. destruct (C10_calc_decomposition true (set_t_0 ov u) (Some (F1 u)) (Some (F2 u))) as (A & B & B' & _ & D').
    cbv zeta in *. assert (T' : 0 < tau (V (set_t_0 ov u))) by exact T. specialize (D' eq_refl). destruct D' as (i & Hi & Ht).
    rewrite (B' T' eq_refl), HI in Hi. injection Hi as <-. rewrite Ht, A, (B T'). unfold fadd, flift2. f_equal. ring.
  - intros Y. pose proof (eq_trans (eq_sym (is_derive_unique _ _ _ X)) (is_derive_unique _ _ _ Y)) as Z. lra.
Qed.
Print Assumptions C155_interaction_refuted.

(** a fit with tau = a and the parameter x of the BRDF, omega and NormBRDF constant *)
Definition eg_m : model R := mkmodel [] ["x"%string] [] ["x"%string] QNum
  (QExpr ["a"%string] (fun env => match env "a"%string with Some x => x | None => 0 end)) QNum.
Definition eg_old : values R := mkvalues (3/10) 7 (1/5) (1/10) [].
Definition eg_r : list (string * R) := [("a"%string, 1/2); ("x"%string, 1/2)].
Definition eg_v : values R := mkvalues (3/10) (1/2) (1/5) (1/10) [("x"%string, 1/2)].
Example C155_example : calc_model R eg_m eg_old eg_r [] = Ok eg_v /\ geometry ex_o = "mono"%string /\ 0 < cos (PI / 3) /\ 0 <= v_tau eg_v /\
  twice_diff (back_brdf (with_values ex_o eg_v)) (PI / 3) /\ twice_diff (back_p (with_values ex_o eg_v)) (PI / 3) /\
  0 < volume (set_t_0 (with_values ex_o eg_v) (PI/3)) + surface (set_t_0 (with_values ex_o eg_v) (PI/3)).
Proof.
  split; [reflexivity|]. split; [reflexivity|]. split; [apply cos_PI3_pos|]. split; [cbn; lra|].
  split; [apply ex_brdf_twice|]. split; [apply ex_p_twice|]. apply C05_example.
Qed.
(** an interaction contribution that changes with the angle *)
Example C155_example_interaction : exists I d,
  (forall u, interaction (set_t_0 (with_values ex_o eg_v) u) (Some 1) (Some 1) = Some (I u)) /\ is_derive I (PI / 3) d /\ d <> 0.
Proof.
  exists (fun u => 1/5 * (1 - 1/10) * (1 * cos u * (3/10) * (exp (- (1/2) / cos u) * 1 + exp (- (1/2) / cos u) * 1))).
  pose proof cos_PI3_pos as C. eexists. split; [reflexivity|]. split.
  - auto_derive; [split; [lra|split; [lra|exact I]]|reflexivity].
  - rewrite cos_PI3. set (e := exp _). assert (0 < e) by apply exp_pos. assert (0 < sin (PI / 3)) by (apply sin_gt_0; pose proof PI_RGT_0; lra).
    intros Z. assert (0 < sin (PI / 3) * e) by (apply Rmult_lt_0_compat; assumption). set (x := sin (PI / 3)) in *. 
    match type of Z with ?l = 0 => replace l with (- (27/125) * (x * e)) in Z by field end. lra.
Qed.
