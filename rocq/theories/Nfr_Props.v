(** C189: fits of data that were generated by the model *)
From Coq Require Import ZArith Reals Bool Lia Lra Arith List String.
From Verif Require Import Base RT_Model RT_Spec Fit_Model Fit_Spec Fit_Proofs Fit2_Proofs Fit3_Proofs Fit4_Proofs Res_Model Res_Spec Res_Proofs Res_Props Dns_Spec Nfr_Spec.
Import ListNotations.
Local Open Scope R_scope.

Lemma concat_lengths {X} (p q : list (list X)) : List.concat p = List.concat q -> map (@List.length X) p = map (@List.length X) q -> p = q.
Proof.
  revert q. induction p as [|a p IH]; intros [|b q] E L; try discriminate; [reflexivity|]. cbn in E, L. injection L as L1 L2.
  assert (a = b /\ List.concat p = List.concat q) as [-> E2].
  { revert b E L1. induction a as [|x a IHa]; intros [|y b] E L1; try discriminate; [split; [reflexivity|exact E]|]. cbn in E, L1. injection E as -> E. injection L1 as L1.
    destruct (IHa b E L1) as [-> F]. split; [reflexivity|exact F]. }
  f_equal. apply IH; assumption.
Qed.
Lemma sumR_nonneg l : (forall x, In x l -> 0 <= x) -> 0 <= sumR l.
Proof. induction l as [|x l IH]; intros H; cbn; [lra|]. assert (0 <= x) by (apply H; left; reflexivity). assert (0 <= sumR l) by (apply IH; intros; apply H; right; assumption). unfold sumR in *. lra. Qed.
Lemma sumR_zero l : (forall x, In x l -> 0 <= x) -> sumR l = 0 -> forall x, In x l -> x = 0.
Proof.
  induction l as [|y l IH]; intros H E x I; [destruct I|]. cbn in E. assert (0 <= y) by (apply H; left; reflexivity).
  assert (P : 0 <= sumR l) by (apply sumR_nonneg; intros; apply H; right; assumption). unfold sumR in *. destruct I as [<-|I]; [lra|]. apply IH; [intros; apply H; right; assumption|lra|exact I].
Qed.
Lemma cost_form A (model : list (option R) -> A -> R) gi index rows sig weights dyns parts x a0 :
  gi <> [] -> List.length index = List.length gi -> List.length rows = List.length gi -> List.length sig = List.length gi ->
  (forall c, weights = Some c -> List.length c = List.length gi) -> (forall c, In c dyns -> refines gi c) -> vector_of dyns parts x ->
  is_cost A model gi index rows sig weights dyns x
    (sumR (map (fun i => Rsqr (weight weights i * (model (map (fun p => Some (value_at 0 p i)) (combine dyns parts)) (nth i rows a0) - nth i sig 0))) (seq 0 (List.length gi)))).
Proof.
  intros H1 H2 H3 H4 H5 H6 [E L]. assert (T : List.length x = Fit_Spec.total (map (fun c => List.length (uniq c)) dyns)).
  { rewrite <- E, <- L. clear. induction parts as [|p parts IH]; [reflexivity|]. cbn. rewrite app_length, IH. reflexivity. }
  destruct (C116_objective A model gi index rows sig weights dyns x a0 H1 H2 H3 H4 H5 H6 T) as (q & r & Eq & Lq & R1 & R2).
  assert (q = parts) as -> by (apply concat_lengths; congruence). exists r. split; [exact R1|]. symmetry. exact R2.
Qed.
Lemma cost_fun A (model : list (option R) -> A -> R) gi index rows sig weights dyns x c d :
  is_cost A model gi index rows sig weights dyns x c -> is_cost A model gi index rows sig weights dyns x d -> c = d.
Proof. intros (r & E & ->) (s & F & ->). rewrite E in F. injection F as ->. reflexivity. Qed.

(** the true parameters have no residuals, and there are no smaller sums of squares *)
Theorem C189_truth : forall A (model : list (option R) -> A -> R) gi index rows sig weights dyns parts x a0,
  gi <> [] -> List.length index = List.length gi -> List.length rows = List.length gi -> List.length sig = List.length gi ->
  (forall c, weights = Some c -> List.length c = List.length gi) -> (forall c, In c dyns -> refines gi c) ->
  vector_of dyns parts x -> generated A model rows a0 dyns parts sig ->
  is_cost A model gi index rows sig weights dyns x 0 /\
  (exists n, residual_fun Rmult Rminus 1 model gi index rows sig weights dyns x = Ok (repeat 0 n)) /\
  forall y c, is_cost A model gi index rows sig weights dyns y c -> 0 <= c.
Proof.
  intros A model gi index rows sig weights dyns parts x a0 H1 H2 H3 H4 H5 H6 Hv Hg.
  assert (C : is_cost A model gi index rows sig weights dyns x 0).
  { pose proof (cost_form A model gi index rows sig weights dyns parts x a0 H1 H2 H3 H4 H5 H6 Hv) as C.
    match type of C with is_cost _ _ _ _ _ _ _ _ _ ?c => assert (c = 0) as E end; [|rewrite E in C; exact C].
    assert (Z : forall l f, (forall i : nat, In i l -> f i = 0) -> sumR (map f l) = 0).
    { clear. intros l f. induction l as [|i l IH]; intros H; cbn; [reflexivity|]. rewrite H by (left; reflexivity). unfold sumR in IH. rewrite IH; [lra|]. intros j I. apply H. right. exact I. }
    apply Z. intros i Hi. apply in_seq in Hi. rewrite (Hg i) by lia. unfold Rsqr. ring. }
  split; [exact C|]. split.
  - destruct C as (r & E & S). exists (List.length r). rewrite E. f_equal.
    assert (Z : forall v, In v r -> v = 0).
    { intros v Iv. assert (Q : v * v = 0). { apply (sumR_zero (map (fun v => v * v) r)); [intros q Iq; apply in_map_iff in Iq; destruct Iq as (w & <- & _); apply Rle_0_sqr|symmetry; exact S|apply in_map_iff; exists v; split; [reflexivity|exact Iv]]. }
      apply Rmult_integral in Q. tauto. }
    clear - Z. induction r as [|v r IH]; [reflexivity|]. cbn. rewrite (Z v) by (left; reflexivity). f_equal. apply IH. intros w I. apply Z. right. exact I.
  - intros y c (r & _ & ->). apply sumR_nonneg. intros q Iq. apply in_map_iff in Iq. destruct Iq as (w & <- & _). apply Rle_0_sqr.
Qed.
Print Assumptions C189_truth.

(** parameters without residuals reproduce every measurement that has a weight *)
Theorem C189_reproduces : forall A (model : list (option R) -> A -> R) gi index rows sig weights dyns parts x a0,
  gi <> [] -> List.length index = List.length gi -> List.length rows = List.length gi -> List.length sig = List.length gi ->
  (forall c, weights = Some c -> List.length c = List.length gi) -> (forall c, In c dyns -> refines gi c) -> vector_of dyns parts x ->
  (forall i, (i < List.length gi)%nat -> weight weights i <> 0) ->
  (is_cost A model gi index rows sig weights dyns x 0 <-> generated A model rows a0 dyns parts sig).
Proof.
  intros A model gi index rows sig weights dyns parts x a0 H1 H2 H3 H4 H5 H6 Hv Hw. split.
  2:{ intros Hg. apply (C189_truth A model gi index rows sig weights dyns parts x a0); assumption. }
  intros C i Hi. pose proof (cost_form A model gi index rows sig weights dyns parts x a0 H1 H2 H3 H4 H5 H6 Hv) as D.
  pose proof (cost_fun _ _ _ _ _ _ _ _ _ _ _ D C) as S.
  assert (Z : Rsqr (weight weights i * (model (map (fun p => Some (value_at 0 p i)) (combine dyns parts)) (nth i rows a0) - nth i sig 0)) = 0).
  { eapply sumR_zero; [|exact S|apply in_map_iff; exists i; split; [reflexivity|apply in_seq; lia]]. intros q Iq. apply in_map_iff in Iq. destruct Iq as (w & <- & _). apply Rle_0_sqr. }
  apply Rsqr_0_uniq in Z. apply Rmult_integral in Z. destruct Z as [Z|Z]; [elim (Hw i); [lia|exact Z]|]. lra.
Qed.
Print Assumptions C189_reproduces.

Definition att (o : RT) : R := exp (- (tau (V o) / cos (t_0 o)) - tau (V o) / cos (t_ex o)).
Lemma total_form o : RT_Spec.total o = (bsf o + (1 - bsf o) * att o) * bare_surface o + (1 - bsf o) * (1 - att o) * half_space o.
Proof.
  unfold RT_Spec.total, surface, volume, bare_surface, half_space, att. change (mu_0 o) with (cos (t_0 o)). change (mu_ex o) with (cos (t_ex o)). unfold Rdiv. ring.
Qed.
Lemma att_range o : 0 < cos (t_0 o) -> 0 < cos (t_ex o) -> (tau (V o) <> 0 -> att o <> 1) /\ 0 < att o.
Proof.
  intros H0 H1. split; [|apply exp_pos]. intros Ht E. unfold att in E. rewrite <- exp_0 in E. apply exp_inv in E.
  assert (tau (V o) * (/ cos (t_0 o) + / cos (t_ex o)) = 0) by (unfold Rdiv in E; lra). apply Rmult_integral in H. destruct H as [H|H]; [exact (Ht H)|].
  assert (0 < / cos (t_0 o)) by (apply Rinv_0_lt_compat; lra). assert (0 < / cos (t_ex o)) by (apply Rinv_0_lt_compat; lra). lra.
Qed.
Lemma att_inj o v w : 0 < cos (t_0 o) -> 0 < cos (t_ex o) -> att (set_tau o v) = att (set_tau o w) -> v = w.
Proof.
  intros H0 H1 E. unfold att in E. apply exp_inv in E. change (t_0 (set_tau o v)) with (t_0 o) in E. change (t_0 (set_tau o w)) with (t_0 o) in E.
  change (t_ex (set_tau o v)) with (t_ex o) in E. change (t_ex (set_tau o w)) with (t_ex o) in E. cbn [V set_tau set_V tau] in E.
  assert (0 < / cos (t_0 o)) by (apply Rinv_0_lt_compat; lra). assert (0 < / cos (t_ex o)) by (apply Rinv_0_lt_compat; lra).
  assert (Q : (v - w) * (/ cos (t_0 o) + / cos (t_ex o)) = 0) by (unfold Rdiv in E; lra). apply Rmult_integral in Q. lra.
Qed.
(** a sensitive scene shows any change of the parameter *)
Theorem C189_sensitive : forall key o v w, sensitive key o -> RT_Spec.total (with_key o key v) = RT_Spec.total (with_key o key w) -> v = w.
Proof.
  intros key o v w (H0 & H1 & S) E. rewrite !total_form in E.
  destruct (string_dec key "omega") as [->|Nw]; [|destruct (string_dec key "tau") as [->|Nt]; [|destruct (string_dec key "NormBRDF") as [->|Nn]; [|destruct (string_dec key "bsf") as [->|Nb]]]].
  - cbn in S. destruct S as (A & B & C). change (with_key o "omega" v) with (set_omega o v) in E. change (with_key o "omega" w) with (set_omega o w) in E.
    change (bsf (set_omega o v)) with (bsf o) in E. change (bsf (set_omega o w)) with (bsf o) in E. change (att (set_omega o v)) with (att o) in E. change (att (set_omega o w)) with (att o) in E.
    change (bare_surface (set_omega o v)) with (bare_surface o) in E. change (bare_surface (set_omega o w)) with (bare_surface o) in E.
    change (half_space (set_omega o v)) with (I0 o * v * cos (t_0 o) / (cos (t_0 o) + cos (t_ex o)) * p_val o) in E.
    change (half_space (set_omega o w)) with (I0 o * w * cos (t_0 o) / (cos (t_0 o) + cos (t_ex o)) * p_val o) in E.
    destruct (att_range o H0 H1) as [D _]. specialize (D C).
    assert (Q : (v - w) * ((1 - bsf o) * (1 - att o) * (cos (t_0 o) / (cos (t_0 o) + cos (t_ex o))) * (I0 o * p_val o)) = 0) by (unfold Rdiv in *; lra).
    apply Rmult_integral in Q. destruct Q as [Q|Q]; [lra|]. exfalso. clear E. set (K := I0 o * p_val o) in *. clearbody K. revert Q. repeat apply Rmult_integral_contrapositive_currified; try lra.
    apply Rinv_neq_0_compat. lra.
  - cbn in S. destruct S as (B & C). change (with_key o "tau" v) with (set_tau o v) in E. change (with_key o "tau" w) with (set_tau o w) in E.
    change (bsf (set_tau o v)) with (bsf o) in E. change (bsf (set_tau o w)) with (bsf o) in E.
    change (bare_surface (set_tau o v)) with (bare_surface o) in E. change (bare_surface (set_tau o w)) with (bare_surface o) in E.
    change (half_space (set_tau o v)) with (half_space o) in E. change (half_space (set_tau o w)) with (half_space o) in E.
    apply (att_inj o v w H0 H1). assert (Q : (att (set_tau o v) - att (set_tau o w)) * ((1 - bsf o) * (bare_surface o - half_space o)) = 0) by lra.
    apply Rmult_integral in Q. destruct Q as [Q|Q]; [lra|]. exfalso. revert Q. apply Rmult_integral_contrapositive_currified; lra.
  - cbn in S. destruct S as (A & B). change (with_key o "NormBRDF" v) with (set_NormBRDF o v) in E. change (with_key o "NormBRDF" w) with (set_NormBRDF o w) in E.
    change (bsf (set_NormBRDF o v)) with (bsf o) in E. change (bsf (set_NormBRDF o w)) with (bsf o) in E. change (att (set_NormBRDF o v)) with (att o) in E. change (att (set_NormBRDF o w)) with (att o) in E.
    change (half_space (set_NormBRDF o v)) with (half_space o) in E. change (half_space (set_NormBRDF o w)) with (half_space o) in E.
    change (bare_surface (set_NormBRDF o v)) with (v * (I0 o * cos (t_0 o) * brdf_val o)) in E. change (bare_surface (set_NormBRDF o w)) with (w * (I0 o * cos (t_0 o) * brdf_val o)) in E.
    destruct (att_range o H0 H1) as [_ P]. assert (P' : 0 < bsf o + (1 - bsf o) * att o) by (destruct B as [[B|B] B']; [assert (0 <= (1 - bsf o) * att o) by (apply Rmult_le_pos; lra); lra|rewrite <- B; lra]).
    assert (Q : (v - w) * ((bsf o + (1 - bsf o) * att o) * cos (t_0 o) * (I0 o * brdf_val o)) = 0) by lra.
    apply Rmult_integral in Q. destruct Q as [Q|Q]; [lra|]. exfalso. clear E. set (K := I0 o * brdf_val o) in *. clearbody K. revert Q. repeat apply Rmult_integral_contrapositive_currified; lra.
  - cbn in S. destruct S as (B & C). change (with_key o "bsf" v) with (set_bsf o v) in E. change (with_key o "bsf" w) with (set_bsf o w) in E.
    change (att (set_bsf o v)) with (att o) in E. change (att (set_bsf o w)) with (att o) in E. change (bsf (set_bsf o v)) with v in E. change (bsf (set_bsf o w)) with w in E.
    change (bare_surface (set_bsf o v)) with (bare_surface o) in E. change (bare_surface (set_bsf o w)) with (bare_surface o) in E.
    change (half_space (set_bsf o v)) with (half_space o) in E. change (half_space (set_bsf o w)) with (half_space o) in E.
    destruct (att_range o H0 H1) as [D _]. specialize (D B).
    assert (Q : (v - w) * ((1 - att o) * (bare_surface o - half_space o)) = 0) by lra.
    apply Rmult_integral in Q. destruct Q as [Q|Q]; [lra|]. exfalso. revert Q. apply Rmult_integral_contrapositive_currified; lra.
  - exfalso. revert S Nw Nt Nn Nb. repeat (match goal with |- context [match ?k with _ => _ end] => destruct k end; try (intros []; fail)); congruence.
Qed.
Print Assumptions C189_sensitive.

(** ... a blind scene shows none *)
Theorem C189_blind : forall key o v w, blind key o -> RT_Spec.total (with_key o key v) = RT_Spec.total (with_key o key w).
Proof.
  intros key o v w S. rewrite !total_form.
  destruct (string_dec key "omega") as [->|Nw]; [|destruct (string_dec key "tau") as [->|Nt]; [|destruct (string_dec key "NormBRDF") as [->|Nn]; [|destruct (string_dec key "bsf") as [->|Nb]]]].
  - cbn in S. change (with_key o "omega" v) with (set_omega o v). change (with_key o "omega" w) with (set_omega o w).
    change (bsf (set_omega o v)) with (bsf o). change (bsf (set_omega o w)) with (bsf o). change (att (set_omega o v)) with (att o). change (att (set_omega o w)) with (att o).
    change (bare_surface (set_omega o v)) with (bare_surface o). change (bare_surface (set_omega o w)) with (bare_surface o).
    change (half_space (set_omega o v)) with (I0 o * v * cos (t_0 o) / (cos (t_0 o) + cos (t_ex o)) * p_val o).
    change (half_space (set_omega o w)) with (I0 o * w * cos (t_0 o) / (cos (t_0 o) + cos (t_ex o)) * p_val o).
    destruct S as [S|[S|S]].
    + replace (I0 o * v * cos (t_0 o) / (cos (t_0 o) + cos (t_ex o)) * p_val o) with (v * (cos (t_0 o) / (cos (t_0 o) + cos (t_ex o))) * (I0 o * p_val o)) by (unfold Rdiv; ring).
      replace (I0 o * w * cos (t_0 o) / (cos (t_0 o) + cos (t_ex o)) * p_val o) with (w * (cos (t_0 o) / (cos (t_0 o) + cos (t_ex o))) * (I0 o * p_val o)) by (unfold Rdiv; ring).
      rewrite S. ring.
    + rewrite S. ring.
    + unfold att. rewrite S. unfold Rdiv. rewrite !Rmult_0_l, Ropp_0, Rminus_0_r, exp_0. ring.
  - cbn in S. change (with_key o "tau" v) with (set_tau o v). change (with_key o "tau" w) with (set_tau o w).
    change (bsf (set_tau o v)) with (bsf o). change (bsf (set_tau o w)) with (bsf o).
    change (bare_surface (set_tau o v)) with (bare_surface o). change (bare_surface (set_tau o w)) with (bare_surface o).
    change (half_space (set_tau o v)) with (half_space o). change (half_space (set_tau o w)) with (half_space o).
    destruct S as [S|S]; rewrite S; ring.
  - cbn in S. change (with_key o "NormBRDF" v) with (set_NormBRDF o v). change (with_key o "NormBRDF" w) with (set_NormBRDF o w).
    change (bsf (set_NormBRDF o v)) with (bsf o). change (bsf (set_NormBRDF o w)) with (bsf o). change (att (set_NormBRDF o v)) with (att o). change (att (set_NormBRDF o w)) with (att o).
    change (half_space (set_NormBRDF o v)) with (half_space o). change (half_space (set_NormBRDF o w)) with (half_space o).
    change (bare_surface (set_NormBRDF o v)) with (v * (I0 o * cos (t_0 o) * brdf_val o)). change (bare_surface (set_NormBRDF o w)) with (w * (I0 o * cos (t_0 o) * brdf_val o)).
    replace (I0 o * cos (t_0 o) * brdf_val o) with (cos (t_0 o) * (I0 o * brdf_val o)) by ring. rewrite S. ring.
  - cbn in S. change (with_key o "bsf" v) with (set_bsf o v). change (with_key o "bsf" w) with (set_bsf o w).
    change (att (set_bsf o v)) with (att o). change (att (set_bsf o w)) with (att o). change (bsf (set_bsf o v)) with v. change (bsf (set_bsf o w)) with w.
    change (bare_surface (set_bsf o v)) with (bare_surface o). change (bare_surface (set_bsf o w)) with (bare_surface o).
    change (half_space (set_bsf o v)) with (half_space o). change (half_space (set_bsf o w)) with (half_space o).
    destruct S as [S|S]; [|rewrite S; ring]. unfold att. rewrite S. unfold Rdiv. rewrite !Rmult_0_l, Ropp_0, Rminus_0_r, exp_0. ring.
  - exfalso. revert S Nw Nt Nn Nb. unfold blind. repeat (match goal with |- context [match ?k with _ => _ end] => destruct k end; try (intros []; fail)); congruence.
Qed.
Print Assumptions C189_blind.

Lemma units_inj dB sig0 t a b : 0 < cos t -> (dB = true -> 0 < a /\ 0 < b) -> in_units dB sig0 t a = in_units dB sig0 t b -> a = b.
Proof.
  intros Hc Hp E. unfold in_units in E. cbv zeta in E. pose proof PI_RGT_0 as HP. assert (HL : 0 < ln 10) by (rewrite <- ln_1; apply ln_increasing; lra).
  assert (F : (if sig0 then 4 * PI * cos t * a else a) = (if sig0 then 4 * PI * cos t * b else b)).
  { destruct dB; [|exact E]. destruct (Hp eq_refl) as [Ha Hb]. assert (K : 0 < 4 * PI * cos t) by (apply Rmult_lt_0_compat; lra).
    apply ln_inv; [destruct sig0; [apply Rmult_lt_0_compat|]; lra|destruct sig0; [apply Rmult_lt_0_compat|]; lra|].
    apply (Rmult_eq_reg_l (10 * / ln 10)); [|assert (0 < / ln 10) by (apply Rinv_0_lt_compat; lra); lra]. unfold Rdiv in E. lra. }
  destruct sig0; [|exact F]. assert (K : 0 < 4 * PI * cos t) by (apply Rmult_lt_0_compat; lra). apply Rmult_eq_reg_l in F; [exact F|lra].
Qed.
Lemma t0_key o key v : In key ["omega"; "tau"; "NormBRDF"; "bsf"]%string -> t_0 (with_key o key v) = t_0 o.
Proof. intros [<-|[<-|[<-|[<-|[]]]]]; reflexivity. Qed.

(** data of the model, one parameter that every group of observations sees: the truth is the only vector without residuals *)
Theorem C189_unique : forall dB sig0 key gi index rows sig weights c truth y o0,
  gi <> [] -> List.length index = List.length gi -> List.length rows = List.length gi -> List.length sig = List.length gi ->
  (forall w, weights = Some w -> List.length w = List.length gi) -> refines gi c ->
  List.length truth = List.length (uniq c) -> generated RT (rt1_model dB sig0 key) rows o0 [c] [truth] sig ->
  seen key rows o0 weights c ->
  (dB = true -> forall o v, In o rows -> In v (truth ++ y) -> 0 < RT_Spec.total (with_key o key v)) ->
  List.length y = List.length (uniq c) ->
  (is_cost RT (rt1_model dB sig0 key) gi index rows sig weights [c] y 0 <-> y = truth).
Proof.
  intros dB sig0 key gi index rows sig weights c truth y o0 H1 H2 H3 H4 H5 [Lc Rf] Lt Hg Hs Hp Ly.
  assert (Vt : vector_of [c] [truth] truth) by (split; cbn; [apply app_nil_r|rewrite Lt; reflexivity]).
  assert (Vy : vector_of [c] [y] y) by (split; cbn; [apply app_nil_r|rewrite Ly; reflexivity]).
  assert (H6 : forall d, In d [c] -> refines gi d) by (intros d [<-|[]]; split; assumption).
  split.
  2:{ intros ->. apply (C189_truth RT (rt1_model dB sig0 key) gi index rows sig weights [c] [truth] truth o0); assumption. }
  intros C. pose proof (cost_form RT (rt1_model dB sig0 key) gi index rows sig weights [c] [y] y o0 H1 H2 H3 H4 H5 H6 Vy) as D.
  pose proof (cost_fun _ _ _ _ _ _ _ _ _ _ _ D C) as S.
  apply (nth_ext _ _ 0 0); [congruence|]. intros k Hk. rewrite Ly in Hk.
  assert (Ig : In (nth k (uniq c) 0%Z) c) by (apply in_uniq, nth_In; exact Hk).
  destruct (Hs _ Ig) as (i & Hi & Ei & Se & Wi).
  assert (Z : Rsqr (weight weights i * (rt1_model dB sig0 key (map (fun p => Some (value_at 0 p i)) (combine [c] [y])) (nth i rows o0) - nth i sig 0)) = 0).
  { eapply sumR_zero; [|exact S|apply in_map_iff; exists i; split; [reflexivity|apply in_seq; lia]]. intros q Iq. apply in_map_iff in Iq. destruct Iq as (w & <- & _). apply Rle_0_sqr. }
  apply Rsqr_0_uniq in Z. apply Rmult_integral in Z. destruct Z as [Z|Z]; [elim (Wi Z)|]. rewrite (Hg i) in Z by lia.
  cbn [combine map rt1_model] in Z. unfold value_at in Z. cbn [fst snd] in Z. rewrite Ei, rank_nth_self in Z by exact Hk.
  apply (C189_sensitive key (nth i rows o0) _ _ Se). apply (units_inj dB sig0 (t_0 (nth i rows o0))); [apply Se| |lra].
  intros Hd. assert (Io : In (nth i rows o0) rows) by (apply nth_In; lia). split; apply (Hp Hd _ _ Io), in_or_app; [right|left]; apply nth_In; lia.
Qed.
Print Assumptions C189_unique.

(** data of a scene whose canopy, if it were infinitely thick, is as bright as its soil: every optical depth fits *)
Theorem C189_tau_invisible : forall dB sig0 gi index rows sig weights c truth y o0,
  gi <> [] -> List.length index = List.length gi -> List.length rows = List.length gi -> List.length sig = List.length gi ->
  (forall w, weights = Some w -> List.length w = List.length gi) -> refines gi c ->
  List.length truth = List.length (uniq c) -> generated RT (rt1_model dB sig0 "tau") rows o0 [c] [truth] sig ->
  (forall o, In o rows -> bare_surface o = half_space o) -> List.length y = List.length (uniq c) ->
  is_cost RT (rt1_model dB sig0 "tau") gi index rows sig weights [c] y 0.
Proof.
  intros dB sig0 gi index rows sig weights c truth y o0 H1 H2 H3 H4 H5 Rf Lt Hg Hb Ly.
  apply (C189_truth RT (rt1_model dB sig0 "tau") gi index rows sig weights [c] [y] y o0); try assumption.
  - intros d [<-|[]]. exact Rf.
  - split; cbn; [apply app_nil_r|rewrite Ly; reflexivity].
  - intros i Hi. rewrite (Hg i Hi). cbn [combine map rt1_model]. f_equal. apply C189_blind. cbn. right. apply Hb. apply nth_In. lia.
Qed.
Print Assumptions C189_tau_invisible.

(** nadir view of a layer (omega = 0.2, isotropic) above a brighter surface: all four parameters are seen ... *)
Definition nadir (n : R) : RT := mkRT 1 "mono" 0 0 0 0 (mkV (1/2) (1/5) (fun _ _ _ _ _ => 1 / (4 * PI))) (mkSRF n (fun _ _ _ _ _ => 1 / PI)) 0 [] 1 None None.
Lemma nadir_cos n : cos (t_0 (nadir n)) = 1 /\ cos (t_ex (nadir n)) = 1.
Proof. split; exact cos_0. Qed.
Example C189_example :
  (forall key, In key ["omega"; "tau"; "NormBRDF"; "bsf"]%string -> sensitive key (nadir (1/2))) /\
  seen "tau" [nadir (1/2); nadir (1/2); nadir (1/3)] (nadir 1) None [1; 2; 1]%Z /\
  (* ... with NormBRDF = 0.025 the optical depth is not *)
  blind "tau" (nadir (1/40)).
Proof.
  pose proof PI_RGT_0 as HP. assert (HI : 0 < / PI) by (apply Rinv_0_lt_compat; lra).
  assert (B : forall n, bare_surface (nadir n) = n * / PI) by (intros n; unfold bare_surface; rewrite (proj1 (nadir_cos n)); cbn; field; lra).
  assert (H : forall n, half_space (nadir n) = 1/40 * / PI).
  { intros n. unfold half_space. destruct (nadir_cos n) as [-> ->]. cbn. field. lra. }
  assert (C : forall n, 0 < cos (t_0 (nadir n)) /\ 0 < cos (t_ex (nadir n))) by (intros n; destruct (nadir_cos n) as [-> ->]; lra).
  assert (T : forall n, 1/40 < n -> sensitive "tau" (nadir n)).
  { intros n Hn. destruct (C n) as [C1 C2]. split; [exact C1|]. split; [exact C2|]. cbn [bsf nadir]. split; [lra|]. rewrite B, H. intros E. apply Rmult_eq_reg_r in E; lra. }
  split; [|split].
  - intros key [<-|[<-|[<-|[<-|[]]]]].
    + destruct (C (1/2)) as [C1 C2]. split; [exact C1|]. split; [exact C2|]. change (1 * (1 / (4 * PI)) <> 0 /\ 0 <> 1 /\ 1/2 <> 0). split; [|split; lra].
      assert (0 < / (4 * PI)) by (apply Rinv_0_lt_compat; lra). unfold Rdiv. lra.
    + apply T. lra.
    + destruct (C (1/2)) as [C1 C2]. split; [exact C1|]. split; [exact C2|]. change (1 * (1 / PI) <> 0 /\ 0 <= 0 <= 1). unfold Rdiv. split; lra.
    + destruct (C (1/2)) as [C1 C2]. split; [exact C1|]. split; [exact C2|]. destruct (T (1/2)) as (_ & _ & _ & T4); [lra|]. split; [cbn; lra|exact T4].
  - intros g [<-|[<-|[<-|[]]]].
    + exists 0%nat. cbn [List.length nth weight]. repeat split; try lia; try lra; apply T; lra.
    + exists 1%nat. cbn [List.length nth weight]. repeat split; try lia; try lra; apply T; lra.
    + exists 2%nat. cbn [List.length nth weight]. repeat split; try lia; try lra; apply T; lra.
  - right. rewrite B, H. reflexivity.
Qed.
